(* C139: history costs. *)
From Verif Require Import Base Stl GeomModel GridModel GridSpec GridProofs GridProofs2 HistModel HistSpec HistProofs HistProofs2 HistProofs3 HistProofs4.

Lemma inside_iff b p : box_contains_pt b p true = true <-> inside b p.
Proof. unfold box_contains_pt, inside. rewrite !andb_true_iff, !Z.leb_le. tauto. Qed.

(* a wire of the clip at the marker of a violation becomes dearer at the marker: at all its grid points within one width of it;
   if they are fewer than two, within two widths, and so on up to six *)
Theorem C139_wires_marked : forall rb s mbox lNum figs bp ep w m1 m2, grid_sorted (hg s) -> marker_ok (hg s) (mbox, lNum, figs) ->
  In (HSeg bp ep w m1 m2) figs -> inside rb bp -> inside rb ep ->
  let s' := hist_marker rb s (mbox, lNum, figs) in
  exists k, reach (hg s) mbox m1 m2 w k /\
    forall q, wire_near (hg s) mbox m1 m2 (k * w) q -> In q (hp s') /\ (cost_x s q + 10 * Z.of_nat (length figs) <= 255 -> cost_x s q + 10 <= cost_x s' q).
Proof.
  intros rb s mbox lNum figs bp ep w m1 m2 S (P1 & P2 & F) Hf I1 I2. cbv zeta. unfold hist_marker.
  destruct (figs_effect_ok rb mbox lNum figs s [] S P1 P2 F) as [Sh Hp _ _ _ Mr]. pose proof F as F'. rewrite Forall_forall in F'. destruct (F' _ Hf) as [W0 W].
  destruct (seg_points_spec (hg s) mbox w m1 m2 S W P1 P2 W0) as (k & R & I). exists k. split; [exact R|]. intros q Hq.
  assert (M : marked (hg s) rb mbox lNum figs q). { exists (HSeg bp ep w m1 m2). split; [exact Hf|]. cbn [fig_points]. rewrite (proj2 (inside_iff rb bp) I1), (proj2 (inside_iff rb ep) I2). apply I, Hq. }
  split; [apply Hp; left; exact M|]. intros L. apply Mr; [|exact M|exact L]. apply (fig_points_valid (hg s) rb mbox lNum (HSeg bp ep w m1 m2) q S P1 P2 (F' _ Hf)). destruct M as (f & _ & _).
  cbn [fig_points]. rewrite (proj2 (inside_iff rb bp) I1), (proj2 (inside_iff rb ep) I2). apply I, Hq.
Qed.

(* a patch at the marker becomes dearer at its grid points *)
Theorem C139_patches_marked : forall rb s mbox lNum figs o b, grid_sorted (hg s) -> marker_ok (hg s) (mbox, lNum, figs) -> In (HPatch o b) figs -> inside rb o ->
  let s' := hist_marker rb s (mbox, lNum, figs) in
  forall q, at_patch (hg s) b lNum q -> In q (hp s') /\ (cost_x s q + 10 * Z.of_nat (length figs) <= 255 -> cost_x s q + 10 <= cost_x s' q).
Proof.
  intros rb s mbox lNum figs o b S (P1 & P2 & F) Hf I1. cbv zeta. unfold hist_marker. intros q Hq.
  destruct (figs_effect_ok rb mbox lNum figs s [] S P1 P2 F) as [Sh Hp _ _ _ Mr]. rewrite Forall_forall in F.
  assert (Q : In q (fig_points (hg s) rb mbox lNum (HPatch o b))) by (cbn [fig_points]; rewrite (proj2 (inside_iff rb o) I1); apply patch_points_in, Hq).
  assert (M : marked (hg s) rb mbox lNum figs q) by (exists (HPatch o b); auto).
  split; [apply Hp; left; exact M|]. intros L. apply Mr; [|exact M|exact L]. apply (fig_points_valid (hg s) rb mbox lNum (HPatch o b) q S P1 P2 (F _ Hf) Q).
Qed.

(* nothing else becomes dearer, and no place by more than 10 for each shape *)
Theorem C139_only_near : forall rb s mbox lNum figs q, grid_sorted (hg s) -> marker_ok (hg s) (mbox, lNum, figs) -> valid (hg s) q ->
  let s' := hist_marker rb s (mbox, lNum, figs) in
  (cost_x s q + 10 * Z.of_nat (length figs) <= 255 -> cost_x s q <= cost_x s' q <= cost_x s q + 10 * Z.of_nat (length figs)) /\
  (cost_x s' q <> cost_x s q ->
     (exists bp ep w m1 m2 k, In (HSeg bp ep w m1 m2) figs /\ inside rb bp /\ inside rb ep /\ reach (hg s) mbox m1 m2 w k /\ wire_near (hg s) mbox m1 m2 (k * w) q) \/
     (exists o b, In (HPatch o b) figs /\ inside rb o /\ at_patch (hg s) b lNum q)) /\
  (cost_v s' q <> cost_v s q ->
     (exists n o, In (HVia n o q) figs /\ inside rb o) \/
     (exists o b, In (HPatch o b) figs /\ inside rb o /\ (at_patch (hg s) b lNum q \/ at_patch (hg s) b lNum (mkMI (mx q) (my q) (mz q + 1))))).
Proof.
  intros rb s mbox lNum figs q S (P1 & P2 & F) V. cbv zeta. unfold hist_marker.
  destruct (figs_effect_ok rb mbox lNum figs s [] S P1 P2 F) as [Sh Hp _ Sm Bd _]. pose proof (figs_via rb mbox lNum figs s [] S P1 P2 F) as (B1 & _). cbv zeta in B1.
  split; [apply Bd, V|]. split.
  - intros C. destruct (Exists_dec (fun f => In q (fig_points (hg s) rb mbox lNum f)) figs) as [E|E]; [intros f; apply in_dec, midx_dec| |].
    + apply Exists_exists in E as (f & Hf & Hq). rewrite Forall_forall in F. specialize (F f Hf). destruct f as [bp ep w m1 m2|n o m|o b]; cbn [fig_points] in Hq.
      * left. destruct (_ && _) eqn:E; [|destruct Hq]. apply andb_true_iff in E as [E1 E2]. destruct F as [W0 W]. destruct (seg_points_spec (hg s) mbox w m1 m2 S W P1 P2 W0) as (k & R & I).
        exists bp, ep, w, m1, m2, k. split; [exact Hf|]. split; [apply inside_iff, E1|]. split; [apply inside_iff, E2|]. split; [exact R|]. apply I, Hq.
      * destruct Hq.
      * right. destruct (box_contains_pt _ _ _) eqn:E; [|destruct Hq]. exists o, b. split; [exact Hf|]. split; [apply inside_iff, E|apply patch_points_in, Hq].
    + destruct C. apply Sm; [exact V|]. intros (f & Hf & Hq). apply E, Exists_exists. eauto.
  - intros C. set (Good := (exists n o, In (HVia n o q) figs /\ inside rb o) \/ _).
    assert (D : Good \/ ~ Good).
    { unfold Good. assert (D1 : {exists n o, In (HVia n o q) figs /\ inside rb o} + {~ exists n o, In (HVia n o q) figs /\ inside rb o}).
      { destruct (Exists_dec (fun f => match f with HVia n o m => q = m /\ box_contains_pt rb o true = true | _ => False end) figs) as [E|E].
        - intros [? ? ? ? ?|n o m|? ?]; [right; auto| |right; auto]. destruct (midx_dec q m) as [A|A]; [|right; tauto]. destruct (box_contains_pt rb o true); [left; auto|right; intros [_ X]; discriminate].
        - left. apply Exists_exists in E as ([? ? ? ? ?|n o m|? ?] & Hf & H); try contradiction. destruct H as [-> H]. exists n, o. split; [exact Hf|apply inside_iff, H].
        - right. intros (n & o & Hf & H). apply E, Exists_exists. exists (HVia n o q). split; [exact Hf|]. split; [reflexivity|apply inside_iff, H]. }
      destruct D1 as [D1|D1]; [left; left; exact D1|].
      assert (DP : forall b x, {at_patch (hg s) b lNum x} + {~ at_patch (hg s) b lNum x}) by (intros b x; destruct (in_dec midx_dec x (patch_points (hg s) b lNum)) as [A|A]; [left; apply patch_points_in, A|right; intros X; apply A, patch_points_in, X]).
      destruct (Exists_dec (fun f => match f with HPatch o b => box_contains_pt rb o true = true /\ (at_patch (hg s) b lNum q \/ at_patch (hg s) b lNum (mkMI (mx q) (my q) (mz q + 1))) | _ => False end) figs) as [E|E].
      - intros [? ? ? ? ?|? ? ?|o b]; [right; auto|right; auto|]. destruct (box_contains_pt rb o true); [|right; intros [X _]; discriminate]. destruct (DP b q); [left; auto|]. destruct (DP b (mkMI (mx q) (my q) (mz q + 1))); [left; auto|right; tauto].
      - left. right. apply Exists_exists in E as ([? ? ? ? ?|? ? ?|o b] & Hf & H); try contradiction. destruct H as [H1 H2]. exists o, b. split; [exact Hf|]. split; [apply inside_iff, H1|exact H2].
      - right. intros [X|(o & b & Hf & H1 & H2)]; [contradiction|]. apply E, Exists_exists. exists (HPatch o b). split; [exact Hf|]. split; [apply inside_iff, H1|exact H2]. }
    destruct D as [D|D]; [exact D|]. destruct C. apply B1; [exact V|]. intros f Hf X. apply D. unfold Good. destruct f as [bp ep w m1 m2|n o m|o b]; cbn [fig_vpoints] in X.
    + destruct X.
    + left. destruct X as [X ->]. exists n, o. split; [exact Hf|apply inside_iff, X].
    + right. destruct X as [X1 X2]. exists o, b. split; [exact Hf|]. split; [apply inside_iff, X1|exact X2].
Qed.

(* vias at the marker: of each net at most one via is newly noted and made dearer by 10; each via of the clip at the marker is
   noted, before or now, or its net has another via that is newly noted *)
Theorem C139_vias_marked : forall rb s mbox lNum figs, grid_sorted (hg s) -> marker_ok (hg s) (mbox, lNum, figs) ->
  let s' := hist_marker rb s (mbox, lNum, figs) in
  exists added, hv s' = map snd added ++ hv s /\ NoDup (map fst added) /\
    (forall n m, In (n, m) added -> ~ In m (hv s) /\ (exists o, In (HVia n o m) figs /\ inside rb o) /\
       (cost_v s m + 10 * Z.of_nat (length figs) <= 255 -> cost_v s m + 10 <= cost_v s' m)) /\
    (forall n o m, In (HVia n o m) figs -> inside rb o -> In m (hv s') \/ In n (map fst added)).
Proof.
  intros rb s mbox lNum figs S (P1 & P2 & F). cbv zeta. unfold hist_marker. pose proof (figs_via rb mbox lNum figs s [] S P1 P2 F) as (_ & _ & _ & B4 & _). cbv zeta in B4.
  destruct (vias_ok rb mbox lNum s figs figs (s, []) [] (incl_refl _)) as (added & (I1 & I2 & I3 & I4) & C).
  { split; [reflexivity|]. split; [reflexivity|]. split; [constructor|]. intros n m []. }
  rewrite app_nil_r in *. exists added. split; [exact I1|]. split; [exact I3|]. split.
  - intros n m H. destruct (I4 n m H) as (N & o & Ho & X). split; [exact N|]. split; [exists o; split; [exact Ho|apply inside_iff, X]|]. intros L. apply B4; [|rewrite I1, in_app_iff; left; apply in_map_iff; exists (n, m); auto|exact N|exact L].
    rewrite Forall_forall in F. exact (F _ Ho).
  - intros n o m Hf X. apply (C n o m Hf). apply inside_iff, X.
Qed.

(* routing over a dear place costs more: the router's price of a step or a via there has the history part *)
Theorem C139_price : forall s p d, d <> DUnk -> valid (hg s) p -> valid (hg s) (step p d) ->
  hasMarkerCost (hg s) p d = true <-> (match d with DU => cost_v s p | DD => cost_v s (step p d) | _ => cost_x s (step p d) end) <> 0.
Proof.
  intros s p d D V1 V2. rewrite (hasMarkerCost_read (hg s) p d D). unfold cost_x, cost_v. rewrite negb_true_iff, Z.eqb_neq. destruct d; cbn [planar owner]; tauto.
Qed.

(* the decay of a price: four fifths each time, cut; 22 times take any price to nothing *)
Fixpoint decays (n : nat) (s : hstate) : hstate := match n with O => s | S n => decays n (hist_decay s) end.
Fixpoint dec_n (n : nat) (c : Z) : Z := match n with O => c | S n => dec_n n (dec8 c) end.
Lemma dec_n_mono n : forall a b, 0 <= a <= b -> 0 <= dec_n n a <= dec_n n b.
Proof.
  induction n as [|n IH]; intros a b H; cbn [dec_n]; [lia|]. apply IH. unfold dec8. pose proof (Z.quot_le_mono (4 * a) (4 * b) 5). pose proof (Z.quot_pos (4 * a) 5). lia.
Qed.
Lemma dec_22 c : 0 <= c <= 255 -> dec_n 22 c = 0.
Proof. intros H. pose proof (dec_n_mono 22 c 255 H) as M. assert (E : dec_n 22 255 = 0) by reflexivity. lia. Qed.
Lemma decays_x n : forall s, hist_inv s -> forall q, valid (hg s) q -> cost_x (decays n s) q = dec_n n (cost_x s q).
Proof.
  induction n as [|n IH]; intros s Inv q V; cbn [decays dec_n]; [reflexivity|]. destruct (decay_inv s Inv) as (Sh & Inv' & _). rewrite (IH _ Inv' q (proj1 (valid_shape _ _ _ Sh) V)). f_equal.
  destruct Inv as (S & SO & NX). destruct (decay_spec s SO) as (_ & Rx & _). rewrite (Rx q V). destruct (in_dec midx_dec q (hp s)) as [I|I]; [reflexivity|].
  destruct (Z.eq_dec (cost_x s q) 0) as [->|E]; [reflexivity|]. destruct I. apply NX; auto.
Qed.
Lemma decays_v n : forall s, hist_inv s -> noted_v s -> forall q, valid (hg s) q -> cost_v (decays n s) q = dec_n n (cost_v s q).
Proof.
  induction n as [|n IH]; intros s Inv NV q V; cbn [decays dec_n]; [reflexivity|]. destruct (decay_inv s Inv) as (Sh & Inv' & NV'). rewrite (IH _ Inv' (NV' NV) q (proj1 (valid_shape _ _ _ Sh) V)). f_equal.
  destruct Inv as (S & SO & NX). destruct (decay_spec s SO) as (_ & _ & Rv & _). rewrite (Rv q V). destruct (in_dec midx_dec q (hv s)) as [I|I]; [reflexivity|].
  destruct (Z.eq_dec (cost_v s q) 0) as [->|E]; [reflexivity|]. destruct I. apply NV; auto.
Qed.
(* a clip begins without prices and notes *)
Definition fresh (s : hstate) : Prop := grid_sorted (hg s) /\ hp s = [] /\ hv s = [] /\ forall q, valid (hg s) q -> cost_x s q = 0 /\ cost_v s q = 0.
Lemma fresh_inv s : fresh s -> hist_inv s /\ noted_v s.
Proof.
  intros (S & E1 & E2 & Z0). split; [split; [exact S|]; split|].
  - unfold sets_ok. rewrite E1, E2. repeat split; constructor.
  - intros q V C. destruct (Z0 q V). congruence.
  - intros q V C. destruct (Z0 q V). congruence.
Qed.
(* after any course of checks and reroutes, 22 reroutes without new markers leave no price on wires, and none on vias if no
   patch was at a marker *)
Theorem C139_fades : forall rb s es, fresh s -> Forall (event_ok (hg s)) es ->
  let t := fold_left (hist_event rb) es s in
  (forall n q, valid (hg s) q -> cost_x (decays n t) q = dec_n n (cost_x t q)) /\
  (forall q, valid (hg s) q -> cost_x (decays 22 t) q = 0) /\
  (Forall event_plain es -> forall q, valid (hg s) q -> cost_v (decays 22 t) q = 0).
Proof.
  intros rb s es Fr F. cbv zeta. destruct (fresh_inv s Fr) as [Inv NV]. destruct (events_inv rb es s Inv F) as (Sh & Inv' & NV').
  set (t := fold_left _ es s) in *. clearbody t. split; [|split].
  - intros n q V. apply decays_x; [exact Inv'|]. apply (valid_shape _ _ _ Sh), V.
  - intros q V. rewrite (decays_x 22 t Inv' q (proj1 (valid_shape _ _ _ Sh) V)). apply dec_22, read_byte. reflexivity.
  - intros P q V. rewrite (decays_v 22 t Inv' (NV' P NV) q (proj1 (valid_shape _ _ _ Sh) V)). apply dec_22, read_byte. reflexivity.
Qed.

(* ---- a small clip ---- *)
Definition ex_grid : gg := mkGG [0; 100; 200; 300] [0; 100; 200] [2; 4] [true; false] (fun _ => 0) (fun _ => false) (fun _ => false) (fun _ => false) (fun _ => false).
Definition ex_s : hstate := mkH ex_grid [] [].
Definition ex_rb : box := mkBox (mkPt 0 0) (mkPt 300 200).
Definition ex_patch : hfig := HPatch (mkPt 100 100) (mkBox (mkPt 60 80) (mkPt 140 120)).
Lemma ex_fresh : fresh ex_s.
Proof.
  split; [|split; [reflexivity|split; [reflexivity|]]].
  - unfold grid_sorted, sorted_lt, ex_s, ex_grid; cbn [hg gxs gys gzs]. repeat split; intros i j Hij Hj; cbn [length] in Hj; repeat (destruct i as [|i]; try lia); repeat (destruct j as [|j]; try lia); cbn; lia.
  - intros q _. split; unfold cost_x, cost_v, read, ex_s, ex_grid; cbn [hg gbits]; rewrite Z.div_0_l by (cbn; lia); reflexivity.
Qed.
(* the wire from (0,100) to (300,100) with a marker at x = 150: two points are within one width *)
Definition ex_marker : box * Z * list hfig := (mkBox (mkPt 130 80) (mkPt 150 120), 2, [HSeg (mkPt 0 100) (mkPt 300 100) 60 (mkMI 0 1 0) (mkMI 3 1 0); HVia 5 (mkPt 100 100) (mkMI 1 1 0)]).
Example C139_ex_ok : marker_ok ex_grid ex_marker.
Proof. unfold ex_marker, marker_ok. cbn. repeat split; try lia. repeat constructor; cbn; unfold wire_ok, valid, on_grid, nx, ny, nz; cbn; lia. Qed.
Example C139_ex : map (fun i => cost_x (hist_marker ex_rb ex_s ex_marker) (mkMI i 1 0)) [0; 1; 2; 3] = [0; 10; 10; 0] /\ cost_v (hist_marker ex_rb ex_s ex_marker) (mkMI 1 1 0) = 10.
Proof. vm_compute. split; reflexivity. Qed.

(* the price that a patch puts on vias is not noted and never decays *)
Theorem C139_patch_via_stays_refuted : exists rb s m q, fresh s /\ marker_ok (hg s) m /\ valid (hg s) q /\ forall n, cost_v (decays n (hist_marker rb s m)) q = 10.
Proof.
  exists ex_rb, ex_s, (mkBox (mkPt 100 100) (mkPt 110 110), 2, [ex_patch]), (mkMI 1 1 0).
  assert (MO : marker_ok (hg ex_s) (mkBox (mkPt 100 100) (mkPt 110 110), 2, [ex_patch])) by (unfold marker_ok; cbn; repeat split; try lia; repeat constructor; cbn; lia).
  assert (VQ : valid (hg ex_s) (mkMI 1 1 0)) by (unfold valid, on_grid, nx, ny, nz; cbn; lia).
  split; [exact ex_fresh|]. split; [exact MO|]. split; [exact VQ|].
  destruct (fresh_inv _ ex_fresh) as [Inv _]. destruct (marker_inv ex_rb ex_s _ Inv MO) as (Sh & Inv' & _).
  assert (H0 : cost_v (hist_marker ex_rb ex_s (mkBox (mkPt 100 100) (mkPt 110 110), 2, [ex_patch])) (mkMI 1 1 0) = 10) by (vm_compute; reflexivity).
  assert (Hv : hv (hist_marker ex_rb ex_s (mkBox (mkPt 100 100) (mkPt 110 110), 2, [ex_patch])) = []) by reflexivity.
  set (t := hist_marker _ _ _) in *. clearbody t. intros n. revert t Sh Inv' VQ H0 Hv. induction n as [|n IH]; intros t Sh Inv' VQ H0 Hv; [exact H0|]. cbn [decays].
  destruct (decay_inv t Inv') as (Sh' & Inv2 & _). destruct Inv' as (S & SO & NX). destruct (decay_spec t SO) as (_ & _ & Rv & _ & Kv). apply IH.
  - eapply same_shape_trans; eauto.
  - exact Inv2.
  - exact VQ.
  - rewrite (Rv _ (proj1 (valid_shape _ _ _ Sh) VQ)), Hv. destruct (in_dec midx_dec _ []) as [[]|_]. exact H0.
  - rewrite Kv, Hv. reflexivity.
Qed.
(* the counter has 8 bits: the 26th marker at a place takes its price to nothing *)
Theorem C139_price_lost_refuted : exists rb s ms q, fresh s /\ Forall (marker_ok (hg s)) ms /\ ms <> [] /\ valid (hg s) q /\ cost_x (hist_markers rb s (tl ms)) q = 250 /\ cost_x (hist_markers rb s ms) q = 0.
Proof.
  exists ex_rb, ex_s, (repeat ex_marker 26), (mkMI 1 1 0). split; [exact ex_fresh|]. split; [apply Forall_forall; intros m H; apply repeat_spec in H; subst; exact C139_ex_ok|]. split; [discriminate|].
  split; [unfold valid, on_grid, nx, ny, nz; cbn; lia|]. split; vm_compute; reflexivity.
Qed.
(* the indices of a patch that reaches beyond the last grid line are not checked: another place becomes dearer *)
Theorem C139_patch_off_grid_refuted : exists rb s o b q, fresh s /\ inside rb o /\ valid (hg s) q /\ ~ at_patch (hg s) b 2 q /\ cost_x (hist_marker rb s (b, 2, [HPatch o b])) q = 10.
Proof.
  exists ex_rb, ex_s, (mkPt 300 0), (mkBox (mkPt 250 0) (mkPt 350 0)), (mkMI 0 1 0). split; [exact ex_fresh|]. split; [unfold inside; cbn; lia|]. split; [unfold valid, on_grid, nx, ny, nz; cbn; lia|].
  split; [unfold at_patch; cbn; lia|]. vm_compute. reflexivity.
Qed.

Print Assumptions C139_wires_marked.
Print Assumptions C139_patches_marked.
Print Assumptions C139_only_near.
Print Assumptions C139_vias_marked.
Print Assumptions C139_price.
Print Assumptions C139_fades.
Print Assumptions C139_patch_via_stays_refuted.
Print Assumptions C139_price_lost_refuted.
Print Assumptions C139_patch_off_grid_refuted.
(* a course of events that meets the hypotheses of C139_fades, and its prices *)
Example C139_ex_fades : Forall (event_ok (hg ex_s)) [EMark [ex_marker; ex_marker]; EDecay; EMark [ex_marker]] /\
  cost_x (fold_left (hist_event ex_rb) [EMark [ex_marker; ex_marker]; EDecay; EMark [ex_marker]] ex_s) (mkMI 1 1 0) = 26.
Proof.
  pose proof C139_ex_ok as K. split; [|vm_compute; reflexivity].
  constructor; [cbn [event_ok]; constructor; [exact K|constructor; [exact K|constructor]]|]. constructor; [exact I|]. constructor; [|constructor]. cbn [event_ok]. constructor; [exact K|constructor].
Qed.
