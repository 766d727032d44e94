(* Markers and decay. *)
From Verif Require Import Base Stl GeomModel GridModel GridSpec GridProofs GridProofs2 HistModel HistSpec HistProofs HistProofs2.

Lemma shape_pts g h : same_shape g h -> gxs h = gxs g /\ gys h = gys g /\ gzs h = gzs g.
Proof. intros (A & B & C & _). auto. Qed.
Lemma stretch_shape g h m1 m2 b : same_shape g h -> stretch h m1 m2 b = stretch g m1 m2 b.
Proof. intros S. apply shape_pts in S as (A & B & _). unfold stretch, getIdxBox. rewrite A, B. reflexivity. Qed.
Lemma widen_shape g h m1 m2 w : same_shape g h -> forall n b, widen n h m1 m2 w b = widen n g m1 m2 w b.
Proof. intros S. induction n as [|n IH]; intros b; cbn [widen]; [reflexivity|]. rewrite (stretch_shape g h _ _ _ S), IH. reflexivity. Qed.
Lemma mazeidx_shape g h p l : same_shape g h -> getMazeIdx h p l = getMazeIdx g p l.
Proof. intros S. apply shape_pts in S as (A & B & C). unfold getMazeIdx. rewrite A, B, C. reflexivity. Qed.
Lemma fig_points_shape g h rb mbox lNum f : same_shape g h -> fig_points h rb mbox lNum f = fig_points g rb mbox lNum f.
Proof.
  intros S. destruct f as [bp ep w m1 m2|n o m|o b]; cbn [fig_points]; [|reflexivity|].
  - unfold seg_points. rewrite (widen_shape g h _ _ _ S), (stretch_shape g h _ _ _ S). reflexivity.
  - unfold patch_points. rewrite !(mazeidx_shape g h _ _ S). reflexivity.
Qed.
Lemma fig_ok_shape g h lNum f : same_shape g h -> fig_ok g lNum f -> fig_ok h lNum f.
Proof.
  intros S. destruct f as [bp ep w m1 m2|n o m|o b]; cbn [fig_ok].
  - intros (W0 & V1 & V2 & R). split; [exact W0|]. split; [apply (valid_shape g h _ S), V1|]. split; [apply (valid_shape g h _ S), V2|exact R].
  - apply (valid_shape g h _ S).
  - rewrite !(mazeidx_shape g h _ _ S). intros [V1 V2]. split; apply (valid_shape g h _ S); assumption.
Qed.
Lemma sorted_shape g h : same_shape g h -> grid_sorted g -> grid_sorted h.
Proof. intros S. apply shape_pts in S as (A & B & C). unfold grid_sorted. rewrite A, B, C. auto. Qed.

Definition marked (g : gg) (rb mbox : box) (lNum : Z) (figs : list hfig) (q : midx) : Prop := exists f, In f figs /\ In q (fig_points g rb mbox lNum f).
Record figs_effect (rb mbox : box) (lNum : Z) (figs : list hfig) (s s' : hstate) : Prop := mkFSE {
  fs_shape : same_shape (hg s) (hg s');
  fs_hp : forall q, In q (hp s') <-> marked (hg s) rb mbox lNum figs q \/ In q (hp s);
  fs_nodup : NoDup (hp s) -> NoDup (hp s');
  fs_same : forall q, valid (hg s) q -> ~ marked (hg s) rb mbox lNum figs q -> cost_x s' q = cost_x s q;
  fs_bound : forall q, valid (hg s) q -> cost_x s q + 10 * Z.of_nat (length figs) <= 255 -> cost_x s q <= cost_x s' q <= cost_x s q + 10 * Z.of_nat (length figs);
  fs_more : forall q, valid (hg s) q -> marked (hg s) rb mbox lNum figs q -> cost_x s q + 10 * Z.of_nat (length figs) <= 255 -> cost_x s q + 10 <= cost_x s' q }.
Lemma cost_nn s q : 0 <= cost_x s q <= 255. Proof. apply read_byte; reflexivity. Qed.
Lemma figs_effect_ok rb mbox lNum figs : forall s vio, grid_sorted (hg s) -> bleft mbox <= bright mbox -> bbottom mbox <= btop mbox -> Forall (fig_ok (hg s) lNum) figs ->
  figs_effect rb mbox lNum figs s (fst (fold_left (hist_fig rb mbox lNum) figs (s, vio))).
Proof.
  induction figs as [|f figs IH]; intros s vio S P1 P2 F; cbn [fold_left].
  - cbn [fst]. constructor; [apply same_shape_refl| |auto|auto| |].
    + intros q. split; [auto|intros [(f & [] & _)|H]; exact H].
    + intros q _ _. cbn. lia.
    + intros q _ (f & [] & _).
  - apply Forall_cons_iff in F as [F1 F2]. pose proof (fig_effect_ok rb mbox lNum f s vio S P1 P2 F1) as [Sh Hp Nd Sm Mr].
    destruct (hist_fig rb mbox lNum (s, vio) f) as [s1 vio1] eqn:E. cbn [fst] in *.
    assert (F2' : Forall (fig_ok (hg s1) lNum) figs) by (eapply Forall_impl; [|exact F2]; intros x; apply fig_ok_shape, Sh).
    specialize (IH s1 vio1 (sorted_shape _ _ Sh S) P1 P2 F2') as [Sh' Hp' Nd' Sm' Bd' Mr'].
    set (s2 := fst (fold_left _ figs (s1, vio1))) in *. clearbody s2.
    assert (MK : forall q, marked (hg s1) rb mbox lNum figs q <-> marked (hg s) rb mbox lNum figs q).
    { intros q. unfold marked. split; intros (x & Hx & Hq); exists x; (split; [exact Hx|]); [rewrite <- (fig_points_shape _ _ rb mbox lNum x Sh)|rewrite (fig_points_shape _ _ rb mbox lNum x Sh)]; exact Hq. }
    assert (MC : forall q, marked (hg s) rb mbox lNum (f :: figs) q <-> In q (fig_points (hg s) rb mbox lNum f) \/ marked (hg s) rb mbox lNum figs q).
    { intros q. unfold marked. split; [intros (x & [<-|Hx] & Hq); [left; exact Hq|right; eauto]|intros [H|(x & Hx & Hq)]; [exists f; split; [left; reflexivity|exact H]|exists x; split; [right; exact Hx|exact Hq]]]. }
    assert (ST : forall q, valid (hg s) q -> cost_x s q <= 245 -> cost_x s q <= cost_x s1 q <= cost_x s q + 10).
    { intros q V L. destruct (in_dec midx_dec q (fig_points (hg s) rb mbox lNum f)) as [I|I]; [rewrite Mr by auto; lia|rewrite Sm by auto; lia]. }
    constructor.
    + eapply same_shape_trans; eauto.
    + intros q. rewrite Hp', Hp, MK, MC. tauto.
    + auto.
    + intros q V N. rewrite MC in N. rewrite Sm' by (try apply (valid_shape _ _ _ Sh), V; rewrite MK; tauto). apply Sm; tauto.
    + intros q V L. cbn [length] in L. specialize (ST q V ltac:(lia)). specialize (Bd' q (proj1 (valid_shape _ _ _ Sh) V) ltac:(lia)). cbn [length]. lia.
    + intros q V M L. cbn [length] in L. specialize (ST q V ltac:(lia)). apply MC in M as [M|M].
      * specialize (Bd' q (proj1 (valid_shape _ _ _ Sh) V) ltac:(lia)). specialize (Mr q V M ltac:(lia)). lia.
      * specialize (Mr' q (proj1 (valid_shape _ _ _ Sh) V) (proj2 (MK q) M) ltac:(lia)). lia.
Qed.

(* vias *)
Definition via_inv (rb : box) (figs : list hfig) (s : hstate) (added : list (Z * midx)) (st : hstate * list Z) : Prop :=
  hv (fst st) = map snd added ++ hv s /\ snd st = map fst added /\ NoDup (map fst added) /\
  forall n m, In (n, m) added -> ~ In m (hv s) /\ exists o, In (HVia n o m) figs /\ box_contains_pt rb o true = true.
Lemma vias_ok rb mbox lNum s all : forall figs st added, incl figs all -> via_inv rb all s added st ->
  exists added', via_inv rb all s (added' ++ added) (fold_left (hist_fig rb mbox lNum) figs st) /\
    forall n o m, In (HVia n o m) figs -> box_contains_pt rb o true = true ->
      In m (hv (fst (fold_left (hist_fig rb mbox lNum) figs st))) \/ In n (map fst (added' ++ added)).
Proof.
  induction figs as [|f figs IH]; intros st added Ic Inv; cbn [fold_left].
  - exists []. split; [exact Inv|intros n o m []].
  - assert (Ic' : incl figs all) by (intros x Hx; apply Ic; right; exact Hx).
    assert (K : exists a1, via_inv rb all s (a1 ++ added) (hist_fig rb mbox lNum st f) /\ forall n o m, f = HVia n o m -> box_contains_pt rb o true = true -> In m (hv (fst (hist_fig rb mbox lNum st f))) \/ In n (map fst (a1 ++ added))).
    { destruct st as [t vio]. destruct Inv as (I1 & I2 & I3 & I4). cbn [fst snd] in *. unfold hist_fig. destruct f as [bp ep w m1 m2|n o m|o b].
      - exists []. split; [|intros; discriminate]. destruct (_ && _); exact (conj I1 (conj I2 (conj I3 I4))).
      - destruct (box_contains_pt rb o true) eqn:C; [|exists []; split; [exact (conj I1 (conj I2 (conj I3 I4)))|intros n' o' m' E C'; injection E as <- <- <-; congruence]].
        destruct (existsb (Z.eqb n) vio) eqn:X.
        + exists []. split; [exact (conj I1 (conj I2 (conj I3 I4)))|]. intros n' o' m' E C'; injection E as <- <- <-. right. apply existsb_exists in X as (x & Hx & Ex). apply Z.eqb_eq in Ex. subst x. cbn. rewrite <- I2. exact Hx.
        + destruct (in_dec midx_dec m (hv t)) as [Hm|Hm].
          * exists []. split; [exact (conj I1 (conj I2 (conj I3 I4)))|]. intros n' o' m' E C'; injection E as <- <- <-. left. exact Hm.
          * exists [(n, m)]. cbn [fst snd hv app map]. split.
            { split; [unfold hins; destruct (in_dec midx_dec m (hv t)); [contradiction|]; cbn; rewrite I1; reflexivity|]. split; [cbn; rewrite I2; reflexivity|]. split.
              - cbn. constructor; [|exact I3]. intros Hn. rewrite <- I2 in Hn. rewrite <- not_true_iff_false in X. apply X. apply existsb_exists. exists n. split; [exact Hn|apply Z.eqb_refl].
              - intros n' m' [E|H]; [|apply I4, H]. injection E as <- <-. split; [|exists o; split; [apply Ic; left; reflexivity|exact C]]. intros H. apply Hm. rewrite I1, in_app_iff. right. exact H. }
            intros n' o' m' E C'; injection E as <- <- <-. right. left. reflexivity.
      - exists []. split; [|intros; discriminate]. destruct (box_contains_pt rb o true); exact (conj I1 (conj I2 (conj I3 I4))). }
    destruct K as (a1 & Inv1 & C1). destruct (IH _ _ Ic' Inv1) as (a2 & Inv2 & C2). exists (a2 ++ a1). rewrite <- app_assoc. split; [exact Inv2|].
    intros n o m [->|H] C; [|apply (C2 n o m H C)]. destruct (C1 n o m eq_refl C) as [H|H].
    + left. destruct Inv2 as (J1 & _). destruct Inv1 as (J2 & _). rewrite J1. rewrite J2 in H. rewrite map_app, <- app_assoc, in_app_iff. right. exact H.
    + right. rewrite map_app, in_app_iff. right. exact H.
Qed.

(* ---- decay ---- *)
Lemma getBits_read g p a : attr_len a = 8 -> getBits_w (gbits g (getIdx g p)) (attr_pos a) 8 = read g p a.
Proof. intros L. unfold read. rewrite L. apply getBits_field; [apply attr_pos_nn|lia]. Qed.
Lemma dec8_range c : 0 <= c <= 255 -> 0 <= dec8 c <= c.
Proof. intros H. unfold dec8. pose proof (Z.quot_le_upper_bound (4 * c) 5 c). pose proof (Z.quot_pos (4 * c) 5). lia. Qed.
Definition decayed (a : attr) (ps : list midx) (g g' : gg) : Prop :=
  same_shape g g' /\ (forall q, valid g q -> read g' q a = if in_dec midx_dec q ps then dec8 (read g q a) else read g q a) /\
  (forall q b, valid g q -> b <> a -> read g' q b = read g q b).
Lemma decay_gen a (mk : midx -> Z -> gop) stepf : attr_len a = 8 -> (forall p v, op_point (mk p v) = p /\ op_attr (mk p v) = a /\ op_value (mk p v) = (fun _ => v mod 256) /\ (forall g, op_safe g (mk p v) = valid g p) /\ (forall g, op_enabled g (mk p v) = valid g p)) ->
  (forall st p, stepf st p = let '(g, keep) := st in let c := dec8 (getBits_w (gbits g (getIdx g p)) (attr_pos a) 8) in (gstep g (mk p c), if c =? 0 then keep else keep ++ [p])) ->
  forall ps g keep, NoDup ps -> Forall (valid g) ps ->
  decayed a ps g (fst (fold_left stepf ps (g, keep))) /\ snd (fold_left stepf ps (g, keep)) = keep ++ filter (fun p => negb (dec8 (read g p a) =? 0)) ps.
Proof.
  intros L MK ST. induction ps as [|p ps IH]; intros g keep N V; cbn [fold_left].
  - cbn [fst snd filter]. rewrite app_nil_r. split; [|reflexivity]. split; [apply same_shape_refl|]. split; auto.
  - apply NoDup_cons_iff in N as [N1 N2]. apply Forall_cons_iff in V as [V1 V2]. rewrite ST. cbv zeta. rewrite (getBits_read g p a L). set (c := dec8 (read g p a)).
    destruct (MK p c) as (Mp & Ma & Mv & Ms & Me). assert (Sf : op_safe g (mk p c)) by (rewrite Ms; exact V1). pose proof (gstep_ok g (mk p c) Sf) as (R & En & Ot). rewrite Mp, Ma, Mv, Me in *.
    pose proof (read_byte g p a L) as RB. pose proof (dec8_range _ RB) as DR. fold c in DR.
    assert (Sh : same_shape g (gstep g (mk p c))) by apply R.
    destruct (IH (gstep g (mk p c)) (if c =? 0 then keep else keep ++ [p]) N2) as ((Sh' & Rd & Ot') & Kp); [eapply Forall_impl; [|exact V2]; intros x; apply (valid_shape _ _ x Sh)|].
    set (res := fold_left stepf ps _) in *. clearbody res.
    assert (RR : forall q b, valid g q -> (q, b) <> (p, a) -> read (gstep g (mk p c)) q b = read g q b) by (intros q b Vq D; apply Ot; auto).
    split.
    + split; [eapply same_shape_trans; eauto|]. split.
      * intros q Vq. rewrite (Rd q (proj1 (valid_shape _ _ _ Sh) Vq)). destruct (in_dec midx_dec q ps) as [I|I], (in_dec midx_dec q (p :: ps)) as [J|J]; try (destruct J; right; exact I).
        -- rewrite RR; [reflexivity|exact Vq|]. intros E. injection E as ->. contradiction.
        -- destruct J as [<-|J]; [|contradiction]. rewrite (En V1). rewrite Z.mod_small by lia. reflexivity.
        -- apply RR; [exact Vq|]. intros E. injection E as ->. apply J. left. reflexivity.
      * intros q b Vq D. rewrite (Ot' q b (proj1 (valid_shape _ _ _ Sh) Vq) D). apply RR; [exact Vq|congruence].
    + rewrite Kp. cbn [filter]. fold c.
      assert (FE : filter (fun x => negb (dec8 (read (gstep g (mk p c)) x a) =? 0)) ps = filter (fun x => negb (dec8 (read g x a) =? 0)) ps).
      { apply filter_ext_in. intros x Hx. rewrite RR; [reflexivity|rewrite Forall_forall in V2; auto|]. intros E. injection E as ->. contradiction. }
      rewrite FE. destruct (c =? 0); cbn [negb]; [reflexivity|]. rewrite <- app_assoc. reflexivity.
Qed.
Lemma decay_spec s : sets_ok s ->
  same_shape (hg s) (hg (hist_decay s)) /\
  (forall q, valid (hg s) q -> cost_x (hist_decay s) q = if in_dec midx_dec q (hp s) then dec8 (cost_x s q) else cost_x s q) /\
  (forall q, valid (hg s) q -> cost_v (hist_decay s) q = if in_dec midx_dec q (hv s) then dec8 (cost_v s q) else cost_v s q) /\
  hp (hist_decay s) = filter (fun p => negb (dec8 (cost_x s p) =? 0)) (hp s) /\ hv (hist_decay s) = filter (fun p => negb (dec8 (cost_v s p) =? 0)) (hv s).
Proof.
  intros (N1 & N2 & V1 & V2). unfold hist_decay.
  assert (M1 : forall p v, op_point (SetMarkerPlanar p v) = p /\ op_attr (SetMarkerPlanar p v) = AMarkX /\ op_value (SetMarkerPlanar p v) = (fun _ => v mod 256) /\ (forall g, op_safe g (SetMarkerPlanar p v) = valid g p) /\ (forall g, op_enabled g (SetMarkerPlanar p v) = valid g p)) by (intros; repeat split).
  assert (M2 : forall p v, op_point (SetMarkerVia p v) = p /\ op_attr (SetMarkerVia p v) = AMarkU /\ op_value (SetMarkerVia p v) = (fun _ => v mod 256) /\ (forall g, op_safe g (SetMarkerVia p v) = valid g p) /\ (forall g, op_enabled g (SetMarkerVia p v) = valid g p)) by (intros; repeat split).
  destruct (decay_gen AMarkX SetMarkerPlanar decay_planar eq_refl M1 ltac:(intros [g keep] p; reflexivity) (hp s) (hg s) [] N1 V1) as ((Sh & Rd & Ot) & Kp).
  destruct (fold_left decay_planar (hp s) (hg s, [])) as [g1 p1]. cbn [fst snd] in *.
  assert (V2' : Forall (valid g1) (hv s)) by (eapply Forall_impl; [|exact V2]; intros x; apply (valid_shape _ _ x Sh)).
  destruct (decay_gen AMarkU SetMarkerVia decay_via eq_refl M2 ltac:(intros [g keep] p; reflexivity) (hv s) g1 [] N2 V2') as ((Sh' & Rd' & Ot') & Kp').
  destruct (fold_left decay_via (hv s) (g1, [])) as [g2 v2]. cbn [fst snd] in *. cbn [hg hp hv]. unfold cost_x, cost_v. cbn [hg].
  split; [eapply same_shape_trans; eauto|]. split; [|split; [|split]].
  - intros q Vq. rewrite (Ot' q AMarkX (proj1 (valid_shape _ _ _ Sh) Vq)) by discriminate. apply Rd, Vq.
  - intros q Vq. rewrite (Rd' q (proj1 (valid_shape _ _ _ Sh) Vq)). rewrite (Ot q AMarkU Vq) by discriminate. reflexivity.
  - exact Kp.
  - rewrite Kp'. cbn [app]. apply filter_ext_in. intros x Hx. rewrite (Ot x AMarkU); [reflexivity|rewrite Forall_forall in V2; auto|discriminate].
Qed.
