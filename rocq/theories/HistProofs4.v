(* Via costs, sequences of events. *)
From Verif Require Import Base Stl GeomModel GridModel GridSpec GridProofs GridProofs2 HistModel HistSpec HistProofs HistProofs2 HistProofs3.

Definition mem01 (q : midx) (ps : list midx) : Z := if in_dec midx_dec q ps then 1 else 0.
Lemma mem01_cons q p ps : ~ In p ps -> mem01 q (p :: ps) = (if midx_dec q p then 1 else 0) + mem01 q ps.
Proof.
  intros N. unfold mem01. destruct (midx_dec q p) as [->|D].
  - destruct (in_dec midx_dec p ps); [contradiction|]. destruct (in_dec midx_dec p (p :: ps)) as [_|C]; [reflexivity|destruct C; left; reflexivity].
  - destruct (in_dec midx_dec q ps) as [I|I], (in_dec midx_dec q (p :: ps)) as [J|J]; try reflexivity; [destruct J; right; exact I|destruct J as [E|J]; [congruence|contradiction]].
Qed.
Definition up (q : midx) : midx := mkMI (mx q) (my q) (mz q + 1).
Lemma hits01 o q a : (if hits o q a then 1 else 0) = if midx_dec q (op_point o) then if attr_eq_dec a (op_attr o) then 1 else 0 else 0.
Proof. unfold hits. destruct (midx_eq_dec q (op_point o)), (midx_dec q (op_point o)); try contradiction; [|reflexivity]. destruct (attr_eq_dec a (op_attr o)); reflexivity. Qed.
Lemma cnt_cons o ops q a : cnt (o :: ops) q a = (if hits o q a then 1 else 0) + cnt ops q a.
Proof. unfold cnt. cbn [filter]. destruct (hits o q a); cbn [length]; lia. Qed.
Lemma cnt_patch_u ps q : NoDup ps -> cnt (patch_ops ps) q AMarkU = mem01 q ps + mem01 (up q) ps.
Proof.
  induction ps as [|p ps IH]; intros N; [reflexivity|]. apply NoDup_cons_iff in N as [N1 N2]. cbn [patch_ops flat_map app]. fold (patch_ops ps). rewrite !cnt_cons, (IH N2), !mem01_cons by exact N1.
  rewrite !hits01. cbn [op_point op_attr owner by_dir]. destruct (attr_eq_dec AMarkU AMarkX) as [E|_]; [discriminate|]. destruct (attr_eq_dec AMarkU AMarkU) as [_|C]; [|congruence].
  assert (E : (if midx_dec q (step p DD) then 1 else 0) = if midx_dec (up q) p then 1 else 0).
  { destruct (midx_dec q (step p DD)) as [A|A], (midx_dec (up q) p) as [B|B]; try reflexivity.
    - destruct B. rewrite A. destruct p as [x y z]. unfold up. cbn. f_equal. lia.
    - destruct A. rewrite <- B. destruct q as [x y z]. unfold up. cbn. f_equal. lia. }
  rewrite E. destruct (midx_dec q p); lia.
Qed.
(* the points whose via price a shape may raise *)
Definition fig_vpoints (g : gg) (rb : box) (lNum : Z) (f : hfig) (q : midx) : Prop :=
  match f with
  | HSeg _ _ _ _ _ => False
  | HVia _ o m => box_contains_pt rb o true = true /\ q = m
  | HPatch o b => box_contains_pt rb o true = true /\ (at_patch g b lNum q \/ at_patch g b lNum (up q))
  end.
Lemma via_refl rb lNum f s : 
  (forall q, valid (hg s) q -> ~ fig_vpoints (hg s) rb lNum f q -> cost_v s q = cost_v s q) /\
  (forall q, valid (hg s) q -> cost_v s q <= 245 -> cost_v s q <= cost_v s q <= cost_v s q + 10) /\
  (forall q, In q (hv s) -> In q (hv s)) /\
  (forall q, valid (hg s) q -> In q (hv s) -> ~ In q (hv s) -> cost_v s q <= 245 -> cost_v s q = cost_v s q + 10) /\
  (forall q, valid (hg s) q -> cost_v s q <> cost_v s q -> (forall o b, f <> HPatch o b) -> In q (hv s)) /\
  (NoDup (hv s) -> NoDup (hv s)) /\ (Forall (valid (hg s)) (hv s) -> Forall (valid (hg s)) (hv s)).
Proof. split; [auto|]. split; [intros; lia|]. split; [auto|]. split; [intros; contradiction|]. split; [intros; congruence|]. auto. Qed.
Lemma fig_via rb mbox lNum f s vio : grid_sorted (hg s) -> bleft mbox <= bright mbox -> bbottom mbox <= btop mbox -> fig_ok (hg s) lNum f ->
  let s' := fst (hist_fig rb mbox lNum (s, vio) f) in
  (forall q, valid (hg s) q -> ~ fig_vpoints (hg s) rb lNum f q -> cost_v s' q = cost_v s q) /\
  (forall q, valid (hg s) q -> cost_v s q <= 245 -> cost_v s q <= cost_v s' q <= cost_v s q + 10) /\
  (forall q, In q (hv s) -> In q (hv s')) /\
  (forall q, valid (hg s) q -> In q (hv s') -> ~ In q (hv s) -> cost_v s q <= 245 -> cost_v s' q = cost_v s q + 10) /\
  (forall q, valid (hg s) q -> cost_v s' q <> cost_v s q -> (forall o b, f <> HPatch o b) -> In q (hv s')) /\
  (NoDup (hv s) -> NoDup (hv s')) /\ (Forall (valid (hg s)) (hv s) -> Forall (valid (hg s)) (hv s')).
Proof.
  intros S P1 P2 F. cbv zeta. pose proof (fun p => fig_points_valid (hg s) rb mbox lNum f p S P1 P2 F) as FV. unfold hist_fig. destruct f as [bp ep w m1 m2|n o m|o b]; cbn [fig_points] in *.
  - destruct (_ && _) eqn:E; cbn [fst]; [|apply via_refl].
    rewrite <- Forall_forall in FV. destruct (safe_planar (hg s) _ FV) as [Sf M]. set (ps := seg_points (hg s) mbox w m1 m2) in *.
    assert (R : forall q, valid (hg s) q -> read (grun (hg s) (map AddMarkerPlanar ps)) q AMarkU = read (hg s) q AMarkU).
    { intros q V. destruct (adds_run (map AddMarkerPlanar ps) (hg s) q AMarkU M Sf V) as (_ & A & _). apply A, cnt_planar_u. }
    unfold cost_v. cbn [hg hv fig_vpoints]. split; [intros; auto|]. split; [intros q V; rewrite R by auto; lia|]. split; [auto|]. split; [intros; contradiction|]. split; [intros q V H; rewrite R in H by auto; congruence|]. auto.
  - destruct (box_contains_pt rb o true) eqn:C; [|apply via_refl].
    destruct (existsb _ vio); [apply via_refl|]. destruct (in_dec midx_dec m (hv s)) as [Hm|Hm]; [apply via_refl|].
    cbn [fst]. unfold cost_v. cbn [hg hv fig_ok fig_vpoints] in *.
    assert (Hh : forall q, hits (AddMarkerVia m) q AMarkU = true <-> q = m) by (intros q; rewrite hits_true; cbn; tauto).
    assert (K : forall q, valid (hg s) q -> (q <> m -> read (gstep (hg s) (AddMarkerVia m)) q AMarkU = read (hg s) q AMarkU) /\ (q = m -> 0 <= read (hg s) q AMarkU <= 245 -> read (gstep (hg s) (AddMarkerVia m)) q AMarkU = read (hg s) q AMarkU + 10)).
    { intros q V. destruct (add_step (hg s) (AddMarkerVia m) q AMarkU I F V) as (_ & A & B). split; intros H; [apply A; apply not_true_iff_false; rewrite Hh; exact H|apply B, Hh, H]. }
    assert (RB := fun q => read_byte (hg s) q AMarkU eq_refl).
    split; [intros q V H; apply K; auto; tauto|]. split; [|split; [|split; [|split; [|split]]]].
    + intros q V L. destruct (midx_dec q m) as [->|D]; [rewrite (proj2 (K m V) eq_refl) by (specialize (RB m); lia); lia|rewrite (proj1 (K q V) D); lia].
    + intros q H. apply hins_in. auto.
    + intros q V H N L. apply hins_in in H as [->|H]; [|contradiction]. apply K; auto. specialize (RB m). lia.
    + intros q V H _. apply hins_in. destruct (midx_dec q m) as [->|D]; [auto|]. destruct H. apply K; auto.
    + intros H. apply hins_nodup, H.
    + intros H. unfold hins. destruct (in_dec midx_dec m (hv s)); [exact H|constructor; auto].
  - destruct (box_contains_pt rb o true) eqn:C; cbn [fst]; [|apply via_refl].
    rewrite <- Forall_forall in FV. destruct (safe_patch (hg s) _ FV) as [Sf M]. set (ps := patch_points (hg s) b lNum) in *. fold (patch_ops ps).
    assert (ND : NoDup ps) by apply patch_nodup. unfold cost_v. cbn [hg hv fig_vpoints].
    assert (CU : forall q, cnt (patch_ops ps) q AMarkU = mem01 q ps + mem01 (up q) ps) by (intros q; apply cnt_patch_u, ND).
    assert (C1 : forall q, 0 <= cnt (patch_ops ps) q AMarkU <= 1).
    { intros q. rewrite CU. unfold mem01. destruct (in_dec midx_dec q ps) as [I|I], (in_dec midx_dec (up q) ps) as [J|J]; try lia.
      apply patch_points_in in I as (_ & _ & I), J as (_ & _ & J). unfold up in J. cbn [mz] in J. lia. }
    assert (R : forall q, valid (hg s) q -> same_shape (hg s) (grun (hg s) (patch_ops ps)) /\ _) by (intros q V; exact (adds_run (patch_ops ps) (hg s) q AMarkU M Sf V)).
    assert (RB := fun q => read_byte (hg s) q AMarkU eq_refl).
    split; [|split; [|split; [|split; [|split]]]]; auto.
    + intros q V H. destruct (R q V) as (_ & A & _). apply A. rewrite CU. unfold mem01. destruct (in_dec midx_dec q ps) as [I|I]; [apply patch_points_in in I; tauto|]. destruct (in_dec midx_dec (up q) ps) as [J|J]; [apply patch_points_in in J; tauto|reflexivity].
    + intros q V L. destruct (R q V) as (_ & _ & B). specialize (RB q). specialize (C1 q). rewrite B; lia.
    + intros; contradiction.
    + intros q V _ H. destruct (H o b eq_refl).
Qed.

Definition no_patch (figs : list hfig) : Prop := forall o b, ~ In (HPatch o b) figs.
Lemma figs_via rb mbox lNum figs : forall s vio, grid_sorted (hg s) -> bleft mbox <= bright mbox -> bbottom mbox <= btop mbox -> Forall (fig_ok (hg s) lNum) figs ->
  let s' := fst (fold_left (hist_fig rb mbox lNum) figs (s, vio)) in
  (forall q, valid (hg s) q -> (forall f, In f figs -> ~ fig_vpoints (hg s) rb lNum f q) -> cost_v s' q = cost_v s q) /\
  (forall q, valid (hg s) q -> cost_v s q + 10 * Z.of_nat (length figs) <= 255 -> cost_v s q <= cost_v s' q <= cost_v s q + 10 * Z.of_nat (length figs)) /\
  (forall q, In q (hv s) -> In q (hv s')) /\
  (forall q, valid (hg s) q -> In q (hv s') -> ~ In q (hv s) -> cost_v s q + 10 * Z.of_nat (length figs) <= 255 -> cost_v s q + 10 <= cost_v s' q) /\
  (no_patch figs -> noted_v s -> noted_v s') /\
  (NoDup (hv s) -> NoDup (hv s')) /\ (Forall (valid (hg s)) (hv s) -> Forall (valid (hg s)) (hv s')).
Proof.
  induction figs as [|f figs IH]; intros s vio S P1 P2 F; cbv zeta; cbn [fold_left].
  - cbn [fst length]. repeat split; intros; auto; try lia. contradiction.
  - apply Forall_cons_iff in F as [F1 F2]. pose proof (fig_via rb mbox lNum f s vio S P1 P2 F1) as (A1 & A2 & A3 & A4 & A5 & A6 & A7). pose proof (fe_shape _ _ _ _ _ _ (fig_effect_ok rb mbox lNum f s vio S P1 P2 F1)) as Sh.
    destruct (hist_fig rb mbox lNum (s, vio) f) as [s1 vio1] eqn:E. cbn [fst] in *.
    assert (F2' : Forall (fig_ok (hg s1) lNum) figs) by (eapply Forall_impl; [|exact F2]; intros x; apply fig_ok_shape, Sh).
    specialize (IH s1 vio1 (sorted_shape _ _ Sh S) P1 P2 F2'). cbv zeta in IH. destruct IH as (B1 & B2 & B3 & B4 & B5 & B6 & B7).
    set (s2 := fst (fold_left _ figs (s1, vio1))) in *. clearbody s2.
    assert (VS : forall q, valid (hg s) q <-> valid (hg s1) q) by (intros q; apply valid_shape, Sh).
    assert (FVS : forall x q, fig_vpoints (hg s1) rb lNum x q <-> fig_vpoints (hg s) rb lNum x q).
    { intros x q. destruct x as [bp ep w m1 m2|n o m|o b]; cbn [fig_vpoints]; try tauto. unfold at_patch. rewrite !(mazeidx_shape (hg s) (hg s1) _ _ Sh). tauto. }
    split; [|split; [|split; [|split; [|split; [|split]]]]].
    + intros q V H. rewrite B1; [apply A1; [exact V|apply H; left; reflexivity]|apply VS, V|]. intros x Hx. rewrite FVS. apply H. right; exact Hx.
    + intros q V L. cbn [length] in *. specialize (A2 q V ltac:(lia)). specialize (B2 q (proj1 (VS q) V) ltac:(lia)). lia.
    + auto.
    + intros q V H N L. cbn [length] in L. specialize (A2 q V ltac:(lia)). specialize (B2 q (proj1 (VS q) V) ltac:(lia)).
      destruct (in_dec midx_dec q (hv s1)) as [I|I]; [specialize (A4 q V I N ltac:(lia)); lia|specialize (B4 q (proj1 (VS q) V) H I ltac:(lia)); lia].
    + intros NP NV. apply B5; [intros o b H; apply (NP o b); right; exact H|]. intros q V C. apply VS in V. destruct (Z.eq_dec (cost_v s1 q) (cost_v s q)) as [Eq|Ne]; [apply A3, NV; [exact V|congruence]|].
      apply (A5 q V Ne). intros o b ->. apply (NP o b). left. reflexivity.
    + auto.
    + intros H. specialize (A7 H). assert (A7' : Forall (valid (hg s1)) (hv s1)) by (eapply Forall_impl; [|exact A7]; intros x; apply VS). specialize (B7 A7'). eapply Forall_impl; [|exact B7]. intros x. apply VS.
Qed.

(* sequences of checks and decays *)
Inductive event := EMark (ms : list (box * Z * list hfig)) | EDecay.
Definition hist_event (rb : box) (s : hstate) (e : event) : hstate := match e with EMark ms => hist_markers rb s ms | EDecay => hist_decay s end.
Definition event_ok (g : gg) (e : event) : Prop := match e with EMark ms => Forall (marker_ok g) ms | EDecay => True end.
Definition event_plain (e : event) : Prop := match e with EMark ms => Forall (fun m => no_patch (snd m)) ms | EDecay => True end.
Definition hist_inv (s : hstate) : Prop := grid_sorted (hg s) /\ sets_ok s /\ noted_x s.
Lemma marker_inv rb s m : hist_inv s -> marker_ok (hg s) m -> same_shape (hg s) (hg (hist_marker rb s m)) /\ hist_inv (hist_marker rb s m) /\ (no_patch (snd m) -> noted_v s -> noted_v (hist_marker rb s m)).
Proof.
  intros (S & (N1 & N2 & V1 & V2) & NX). destruct m as [[mbox lNum] figs]. intros (P1 & P2 & F). unfold hist_marker. cbn [snd].
  destruct (figs_effect_ok rb mbox lNum figs s [] S P1 P2 F) as [Sh Hp Nd Sm _ _]. pose proof (figs_via rb mbox lNum figs s [] S P1 P2 F) as (_ & _ & _ & _ & B5 & B6 & B7). cbv zeta in *.
  set (s' := fst (fold_left _ figs (s, []))) in *. clearbody s'. split; [exact Sh|]. split; [|exact B5]. split; [apply (sorted_shape _ _ Sh S)|]. split.
  - split; [apply Nd, N1|]. split; [apply B6, N2|]. split; apply Forall_forall; intros q Hq; apply (valid_shape _ _ _ Sh).
    + apply Hp in Hq as [(f & Hf & Hq)|Hq]; [|rewrite Forall_forall in V1; auto]. rewrite Forall_forall in F. apply (fig_points_valid (hg s) rb mbox lNum f q S P1 P2 (F f Hf) Hq).
    + specialize (B7 V2). rewrite Forall_forall in B7. auto.
  - intros q V C. apply (valid_shape _ _ _ Sh) in V. apply Hp. destruct (in_dec midx_dec q (hp s')) as [I|I]; [apply Hp, I|].
    assert (NM : ~ marked (hg s) rb mbox lNum figs q) by (intros M; apply I, Hp; left; exact M). right. apply NX; [exact V|]. rewrite <- (Sm q V NM). exact C.
Qed.
Lemma markers_inv rb ms : forall s, hist_inv s -> Forall (marker_ok (hg s)) ms -> same_shape (hg s) (hg (hist_markers rb s ms)) /\ hist_inv (hist_markers rb s ms) /\ (Forall (fun m => no_patch (snd m)) ms -> noted_v s -> noted_v (hist_markers rb s ms)).
Proof.
  induction ms as [|m ms IH]; intros s Inv F; cbn [hist_markers fold_left].
  - split; [apply same_shape_refl|]. auto.
  - apply Forall_cons_iff in F as [F1 F2]. destruct (marker_inv rb s m Inv F1) as (Sh & Inv1 & NV1).
    assert (F2' : Forall (marker_ok (hg (hist_marker rb s m))) ms).
    { eapply Forall_impl; [|exact F2]. intros [[b l] figs] (Q1 & Q2 & Q3). split; [exact Q1|]. split; [exact Q2|]. eapply Forall_impl; [|exact Q3]. intros f. apply fig_ok_shape, Sh. }
    destruct (IH _ Inv1 F2') as (Sh' & Inv2 & NV2). unfold hist_markers in *. split; [eapply same_shape_trans; eauto|]. split; [exact Inv2|].
    intros NP NV. apply Forall_cons_iff in NP as [NP1 NP2]. auto.
Qed.
Lemma filter_in_nodup {A} (f : A -> bool) l : NoDup l -> NoDup (filter f l). Proof. apply NoDup_filter. Qed.
Lemma decay_inv s : hist_inv s -> same_shape (hg s) (hg (hist_decay s)) /\ hist_inv (hist_decay s) /\ (noted_v s -> noted_v (hist_decay s)).
Proof.
  intros (S & SO & NX). destruct (decay_spec s SO) as (Sh & Rx & Rv & Kx & Kv). destruct SO as (N1 & N2 & V1 & V2). split; [exact Sh|].
  assert (VV : forall q, valid (hg (hist_decay s)) q <-> valid (hg s) q) by (intros q; split; apply (valid_shape _ _ _ Sh)).
  split; [split; [apply (sorted_shape _ _ Sh S)|]; split|].
  - split; [rewrite Kx; apply NoDup_filter, N1|]. split; [rewrite Kv; apply NoDup_filter, N2|]. rewrite Forall_forall in V1, V2. split; apply Forall_forall; intros q Hq; apply VV; [rewrite Kx in Hq|rewrite Kv in Hq]; apply filter_In in Hq as [Hq _]; auto.
  - intros q V C. apply VV in V. rewrite (Rx q V) in C. rewrite Kx, filter_In. destruct (in_dec midx_dec q (hp s)) as [I|I]; [split; [exact I|]; apply negb_true_iff, Z.eqb_neq, C|]. destruct I. apply NX; auto.
  - intros NV q V C. apply VV in V. rewrite (Rv q V) in C. rewrite Kv, filter_In. destruct (in_dec midx_dec q (hv s)) as [I|I]; [split; [exact I|]; apply negb_true_iff, Z.eqb_neq, C|]. destruct I. apply NV; auto.
Qed.
Lemma events_inv rb es : forall s, hist_inv s -> Forall (event_ok (hg s)) es -> same_shape (hg s) (hg (fold_left (hist_event rb) es s)) /\ hist_inv (fold_left (hist_event rb) es s) /\ (Forall event_plain es -> noted_v s -> noted_v (fold_left (hist_event rb) es s)).
Proof.
  induction es as [|e es IH]; intros s Inv F; cbn [fold_left].
  - split; [apply same_shape_refl|]. auto.
  - apply Forall_cons_iff in F as [F1 F2].
    assert (K : same_shape (hg s) (hg (hist_event rb s e)) /\ hist_inv (hist_event rb s e) /\ (event_plain e -> noted_v s -> noted_v (hist_event rb s e))).
    { destruct e as [ms|]; cbn [hist_event event_ok event_plain] in *; [apply markers_inv; assumption|]. destruct (decay_inv s Inv) as (A & B & C). auto. }
    destruct K as (Sh & Inv1 & NV1).
    assert (F2' : Forall (event_ok (hg (hist_event rb s e))) es).
    { eapply Forall_impl; [|exact F2]. intros [ms|]; cbn [event_ok]; [|auto]. intros H. eapply Forall_impl; [|exact H]. intros [[b l] figs] (Q1 & Q2 & Q3). split; [exact Q1|]. split; [exact Q2|]. eapply Forall_impl; [|exact Q3]. intros f. apply fig_ok_shape, Sh. }
    destruct (IH _ Inv1 F2') as (Sh' & Inv2 & NV2). split; [eapply same_shape_trans; eauto|]. split; [exact Inv2|]. intros P NV. apply Forall_cons_iff in P as [P1 P2]. auto.
Qed.
