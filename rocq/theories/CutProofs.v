From Verif Require Import Base Stl GeomModel GeomSpec GeomProofs TechModel GcModel GcSpec GcProofs GcProofs2 GcProofs3
  CostModel CutModel CutSpec.

(* ---- geometry ---- *)
Lemma c2c_is a b : c2c_square a b = dist2 (middle a) (middle b).
Proof. reflexivity. Qed.
Lemma gap_is a b : normalised a -> normalised b -> gap_square a b = box2boxDistSquare a b.
Proof.
  intros Ha Hb. unfold gap_square. destruct (pair_geom_spec a b Ha Hb) as (_ & -> & -> & _).
  unfold box2boxDistSquare. lia.
Qed.
Lemma nearer_iff c2c a b v : normalised a -> normalised b ->
  (nearer_than c2c a b v <-> (if c2c then c2c_square a b else gap_square a b) < v * v).
Proof.
  intros Ha Hb. unfold nearer_than. destruct c2c.
  - rewrite c2c_is. tauto.
  - rewrite gap_is by assumption. apply closer_iff_dist; assumption.
Qed.
Lemma middle_in b : normalised b -> in_box (middle b) b.
Proof.
  intros [H1 H2]. unfold in_box, middle. cbn [px py]. bx b; bxs.
  pose proof (Z.quot_rem' (bxl + bxh) 2). pose proof (Z.quot_rem' (byl + byh) 2).
  pose proof (Z.rem_bound_abs (bxl + bxh) 2 ltac:(lia)). pose proof (Z.rem_bound_abs (byl + byh) 2 ltac:(lia)).
  pose proof (Z.rem_sign_nz (bxl + bxh) 2 ltac:(lia)). pose proof (Z.rem_sign_nz (byl + byh) 2 ltac:(lia)).
  lia.
Qed.
Lemma nearer_closer c2c a b v : normalised a -> normalised b -> nearer_than c2c a b v -> closer_than a b v.
Proof.
  intros Ha Hb. unfold nearer_than. destruct c2c; [|auto]. intros H.
  exists (middle a), (middle b). split; [apply middle_in; assumption|]. split; [apply middle_in; assumption|]. exact H.
Qed.
Lemma nearer_found W k c2c r o v d : normalised (gbox r) -> normalised (gbox o) -> In o (q_rects W k) -> 0 <= v <= d ->
  nearer_than c2c (gbox r) (gbox o) v -> In o (q_find W k (my_bloat (gbox r) d)).
Proof.
  intros Hr Ho I B H. apply filter_In. split; [exact I|].
  eapply window_meets; [assumption|assumption|exact B|]. eapply nearer_closer; eauto.
Qed.
Lemma touch_found W k r o d : normalised (gbox r) -> normalised (gbox o) -> In o (q_rects W k) -> 0 <= d ->
  touching (gbox r) (gbox o) -> In o (q_find W k (my_bloat (gbox r) d)).
Proof.
  intros Hr Ho I B ([x y] & P & Q). apply filter_In. split; [exact I|].
  unfold box_overlaps, my_bloat. unfold in_box, normalised in *.
  destruct (gbox r) as [[? ?] [? ?]], (gbox o) as [[? ?] [? ?]]. bxs. lia.
Qed.
Lemma contains_inside a b : normalised b -> (box_contains_box a b true = true <-> inside b a).
Proof.
  intros [N1 N2]. unfold box_contains_box, inside, in_box, normalised in *. bx a; bx b; bxs. split.
  - intros H p [P Q]. lia.
  - intros H. pose proof (H (mkPt bxl byl)) as H1. pose proof (H (mkPt bxh byh)) as H2. cbn [px py] in *. lia.
Qed.
Lemma overlap_iff a b : normalised a -> normalised b -> (box_overlaps a b false = true <-> overlapping a b).
Proof. intros [? ?] [? ?]. unfold box_overlaps, overlapping, normalised in *. bx a; bx b; bxs. lia. Qed.
Lemma between_normalised a b : normalised (between a b).
Proof. unfold between, normalised. cbn. lia. Qed.

(* ---- rules ---- *)
Lemma big_iff W l r : big_obs W l r = true <-> large_obs W l r.
Proof.
  unfold big_obs, large_obs. unfold rwidth. destruct (q_kind W (gnet r)); cbn; rewrite ?andb_true_iff, ?Z.ltb_lt.
  - intuition discriminate.
  - intuition.
  - intuition discriminate.
Qed.
Lemma asked_iff W l1 l2 c r o v : asked W l1 l2 c r o v <-> v = cut_req W l1 l2 c r o.
Proof.
  unfold asked, cut_req. pose proof (big_iff W l1 r) as B1. pose proof (big_iff W l2 o) as B2.
  destruct (k_adj c) as [n|].
  - destruct (big_obs W l1 r) eqn:E1; [|destruct (big_obs W l2 o) eqn:E2]; cbn [orb];
      split; intros H; intuition congruence.
  - split; intros H; [intuition congruence|]. right. split; [tauto|assumption].
Qed.
Lemma pg_iff W c r o :
  match k_adj c with Some _ => true | None => false end && k_xpg c && (gnet r =? gnet o) && pg_net W (gnet r) = true <->
  pg_pair W c r o.
Proof.
  unfold pg_pair, pg_net. rewrite !andb_true_iff, Z.eqb_eq.
  destruct (k_adj c); [|intuition congruence]. destruct (q_kind W (gnet r)) as [| |[|]]; intuition congruence.
Qed.
Lemma metal_iff W l r o : 
  common_metal W l r o (between (gbox r) (gbox o)) = true <-> shared_metal W l r o.
Proof.
  unfold common_metal, shared_metal. rewrite existsb_exists.
  set (m := between (gbox r) (gbox o)). assert (Nm : normalised m) by apply between_normalised.
  assert (F : forall k s, In s (if (0 <=? k) && (k <=? q_top W) then q_find W k m else []) <->
                0 <= k <= q_top W /\ In s (q_rects W k) /\ box_overlaps m (gbox s) true = true).
  { intros k s. destruct ((0 <=? k) && (k <=? q_top W)) eqn:E.
    - assert (0 <= k <= q_top W) by lia. unfold q_find. rewrite filter_In. tauto.
    - assert (~ 0 <= k <= q_top W) by lia. cbn. tauto. }
  split.
  - intros (s & I & H). rewrite andb_true_iff, orb_true_iff, !Z.eqb_eq, contains_inside in H by assumption.
    apply in_app_or in I as [I|I]; apply F in I; [exists (l - 1), s|exists (l + 1), s]; intuition.
  - intros (k & s & K & B & I & N & C). exists s. split.
    + assert (O : box_overlaps m (gbox s) true = true).
      { pose proof (C (ll m)) as C1. unfold box_overlaps, in_box, normalised in *. clearbody m.
        destruct m as [[? ?] [? ?]], (gbox s) as [[? ?] [? ?]]. bxs. lia. }
      apply in_or_app. destruct K as [-> | ->]; [left|right]; apply F; auto.
    + rewrite andb_true_iff, orb_true_iff, !Z.eqb_eq, contains_inside by assumption. auto.
Qed.

(* ---- adjacent cuts ---- *)
Definition counted (W : cworker) (l : Z) (c : crule) (r o : grect) : bool :=
  (if k_c2c c then c2c_square (gbox r) (gbox o) else gap_square (gbox r) (gbox o)) <? k_within c * k_within c.
Definition weight (W : cworker) (l n : Z) (o : grect) : Z := if big_obs W l o then n else 1.
Lemma count_sum W l c n r os : forall a,
  fold_left (fun cnt o =>
    let d := if k_c2c c then c2c_square (gbox r) (gbox o) else gap_square (gbox r) (gbox o) in
    if d >=? k_within c * k_within c then cnt
    else if big_obs W l o then cnt + n else cnt + 1) os a =
  a + fold_right (fun o s => weight W l n o + s) 0 (filter (counted W l c r) os).
Proof.
  induction os as [|o os IH]; intros a; cbn [fold_left filter]; [cbn; lia|].
  rewrite IH. unfold counted at 2. cbv zeta.
  set (d := if k_c2c c then _ else _). rewrite Z.geb_leb.
  destruct (Z.leb_spec (k_within c * k_within c) d); destruct (Z.ltb_spec d (k_within c * k_within c)); try lia.
  - cbn [fold_right]. unfold weight at 2. destruct (big_obs W l o); lia.
Qed.
Lemma sum_lower W l n os : 1 <= n -> Z.of_nat (length os) <= fold_right (fun o s => weight W l n o + s) 0 os.
Proof.
  intros Hn. induction os as [|o os IH]; cbn [length fold_right]; [lia|].
  unfold weight at 1. destruct (big_obs W l o); lia.
Qed.
Lemma sum_small W l n os : (forall o, In o os -> big_obs W l o = false) ->
  fold_right (fun o s => weight W l n o + s) 0 os = Z.of_nat (length os).
Proof.
  intros H. induction os as [|o os IH]; cbn [length fold_right]; [lia|].
  unfold weight at 1. rewrite (H o) by (left; reflexivity). rewrite IH by (intros; apply H; right; assumption). lia.
Qed.
Lemma sum_big W l n os o : 1 <= n -> In o os -> big_obs W l o = true ->
  n + Z.of_nat (length os) - 1 <= fold_right (fun o s => weight W l n o + s) 0 os.
Proof.
  intros Hn I B. apply in_split in I as (p & q & ->). rewrite fold_right_app. cbn [fold_right].
  rewrite app_length. cbn [length]. pose proof (sum_lower W l n q Hn) as L.
  set (t := fold_right _ 0 q) in *. clearbody t. unfold weight at 2. rewrite B.
  assert (L2 : Z.of_nat (length p) + (n + t) <= fold_right (fun o s => weight W l n o + s) (n + t) p).
  { clear -Hn. induction p as [|o' p IH]; cbn [length fold_right]; [lia|]. unfold weight at 1. destruct (big_obs W l o'); lia. }
  lia.
Qed.
Lemma gap_self b : normalised b -> gap_square b b = 0.
Proof.
  intros H. rewrite gap_is by assumption. destruct H. unfold box2boxDistSquare, box2boxDx, box2boxDy.
  rewrite !Z.max_id, !Z.min_id. rewrite !Z.max_r by (bx b; bxs; lia). reflexivity.
Qed.

Lemma has_adj_iff W l c r : good_worker W -> In r (q_rects W l) -> good_rule l c ->
  (has_adj W l c r = true <-> crowded W l c r).
Proof.
  intros (GN & GD & GI) I (_ & GA & _). unfold has_adj, crowded. destruct (k_adj c) as [n|]; [|tauto].
  destruct (GA n eq_refl) as [Hn Hw]. clear GA.
  rewrite orb_true_iff, big_iff, Z.leb_le. unfold adj_count. rewrite count_sum.
  set (fs := filter _ _).
  pose proof (GN l r I) as Nr.
  assert (FI : forall o, In o fs <-> In o (q_rects W l) /\ nearer_than (k_c2c c) (gbox r) (gbox o) (k_within c)).
  { intros o. unfold fs. rewrite filter_In. unfold counted. rewrite Z.ltb_lt. split.
    - intros [A B]. apply filter_In in A as [A _]. split; [exact A|]. apply nearer_iff; auto.
      exact (GN l o A).
    - intros [A B]. pose proof (GN l o A) as No. split.
      + eapply nearer_found; eauto. lia.
      + apply nearer_iff in B; auto. }
  assert (ND : NoDup fs) by (unfold fs, q_find; apply NoDup_filter, NoDup_filter, GD).
  assert (Self : (exists o, In o fs) -> In r fs).
  { intros (o & Io). apply FI in Io as [A B]. apply FI. split; [exact I|]. apply nearer_iff; auto.
    pose proof (GN l o A) as No. apply nearer_iff in B; auto.
    assert (0 <= (if k_c2c c then c2c_square (gbox r) (gbox o) else gap_square (gbox r) (gbox o))).
    { destruct (k_c2c c); [unfold c2c_square|unfold gap_square; cbv zeta];
        apply Z.add_nonneg_nonneg; apply Z.square_nonneg. }
    destruct (k_c2c c); [unfold c2c_square; rewrite !Z.sub_diag|rewrite gap_self by assumption]; lia. }
  destruct (big_obs W l r) eqn:Br.
  { assert (large_obs W l r) by (apply big_iff; exact Br). tauto. }
  assert (Nr' : ~ large_obs W l r) by (rewrite <- big_iff; congruence).
  split; intros [H|H]; [tauto| |tauto|].
  - right. destruct (existsb (big_obs W l) fs) eqn:EB.
    + apply existsb_exists in EB as (o & Io & Bo). left. exists o. apply FI in Io as [A B].
      split; [exact A|]. split; [congruence|]. split; [apply big_iff; exact Bo|exact B].
    + right. rewrite sum_small in H.
      2: { intros o Io. destruct (big_obs W l o) eqn:B; [|reflexivity].
           rewrite <- EB. symmetry. apply existsb_exists. eauto. }
      assert (If : In r fs).
      { apply Self. destruct fs as [|o fs']; [cbn in H; lia|]. exists o. left. reflexivity. }
      apply in_split in If as (p & q & E). exists (p ++ q). rewrite E in ND.
      apply NoDup_remove in ND as [ND NI]. split; [exact ND|]. split.
      * rewrite E, app_length in H. cbn [length] in H. rewrite app_length. lia.
      * intros o Io. split; [|split].
        -- apply FI. rewrite E. apply in_app_iff in Io. apply in_app_iff. cbn. tauto.
        -- congruence.
        -- apply FI. rewrite E. apply in_app_iff in Io. apply in_app_iff. cbn. tauto.
  - right. destruct H as [(o & A & Ne & L & B)|(os & NDo & Len & H)].
    + assert (Io : In o fs) by (apply FI; auto). assert (Ir : In r fs) by eauto.
      apply big_iff in L. pose proof (sum_big W l n fs o Hn Io L).
      assert (2 <= length fs)%nat; [|lia].
      apply in_split in Ir as (p & q & E). rewrite E in Io |- *. rewrite app_length. cbn [length].
      apply in_app_iff in Io. cbn in Io. destruct Io as [Io|[Io|Io]]; [|congruence|]; apply in_split in Io as (? & ? & ->);
        rewrite app_length; cbn [length]; lia.
    + assert (exists o, In o os) as (o & Io).
      { destruct os as [|o ?]; [cbn in Len; lia|]. exists o. left. reflexivity. }
      assert (Ir : In r fs). { apply Self. exists o. apply FI. destruct (H o Io) as (? & _ & ?). auto. }
      assert (incl (r :: os) fs).
      { intros x [<- |Ix]; [exact Ir|]. apply FI. destruct (H x Ix) as (? & _ & ?). auto. }
      assert (NoDup (r :: os)). { constructor; [|exact NDo]. intros Ix. destruct (H r Ix) as (_ & ? & _). congruence. }
      pose proof (NoDup_incl_length H1 H0) as LL. cbn [length] in LL. pose proof (sum_lower W l n fs Hn). lia.
Qed.

(* ---- the two-cut check ---- *)
Definition short_marker (W : cworker) (l : Z) (r o : grect) : marker :=
  mkMk (between (gbox r) (gbox o)) l (cl_short (q_layer W l)) (gnet r) (gnet o).
Definition spacing_marker (l con : Z) (r o : grect) : marker :=
  mkMk (between (gbox r) (gbox o)) l con (gnet r) (gnet o).
(* same-layer rules that are looked at for a pair *)
Definition not_replaced (W : cworker) (l : Z) (c : crule) (r o : grect) : Prop :=
  k_same c = true \/ gnet r <> gnet o \/ cl_rules (q_layer W l) true = [].
Definition not_spared (c : crule) (r o : grect) : Prop := area_spared c r o = false.

Lemma cut_spc_same W l c r o m : normalised (gbox r) -> normalised (gbox o) ->
  (cut_spc W l c r o (between (gbox r) (gbox o)) (run_length (gbox r) (gbox o)) = Some m <->
   (gfixed r && gfixed o = false) /\ m = spacing_marker l (k_id c) r o /\
     ~ pg_pair W c r o /\ (k_prlo c = true -> faces W l r o) /\ not_spared c r o /\
     exists v, asked W l l c r o v /\ nearer_than (k_c2c c) (gbox r) (gbox o) v).
Proof.
  intros Nr No. unfold cut_spc.
  pose proof (pg_iff W c r o) as PG. destruct (match k_adj c with Some _ => true | None => false end && k_xpg c && (gnet r =? gnet o) && pg_net W (gnet r)).
  { split; [discriminate|]. intros (_ & _ & H & _). tauto. }
  pose proof (metal_iff W l r o) as ME.
  assert (FA : k_prlo c && ((run_length (gbox r) (gbox o) <=? 0) || common_metal W l r o (between (gbox r) (gbox o))) = false <->
               (k_prlo c = true -> faces W l r o)).
  { unfold faces. destruct (k_prlo c); cbn [andb]; [|intuition discriminate].
    destruct (common_metal _ _ _ _ _); rewrite ?orb_true_r, ?orb_false_r.
    - split; [discriminate|]. intros H. destruct (H eq_refl) as [_ H2]. tauto.
    - rewrite Z.leb_gt. split; [|intros H; apply H; reflexivity]. intros H _. split; [exact H|]. intros SM. apply ME in SM. discriminate. }
  destruct (k_prlo c && _).
  { split; [discriminate|]. intros (_ & _ & _ & H & _). apply FA in H. discriminate. }
  unfold not_spared. destruct (area_spared c r o).
  { split; [discriminate|]. intros (_ & _ & _ & _ & H & _). discriminate. }
  cbv zeta. rewrite Z.geb_leb.
  assert (NE : forall v, asked W l l c r o v /\ nearer_than (k_c2c c) (gbox r) (gbox o) v <->
     v = cut_req W l l c r o /\ (if k_c2c c then c2c_square (gbox r) (gbox o) else gap_square (gbox r) (gbox o)) < v * v).
  { intros v. rewrite asked_iff, nearer_iff by assumption. tauto. }
  set (d := if k_c2c c then c2c_square (gbox r) (gbox o) else gap_square (gbox r) (gbox o)) in *.
  destruct (Z.leb_spec (cut_req W l l c r o * cut_req W l l c r o) d) as [Le|Lt].
  { split; [discriminate|]. intros (_ & _ & _ & _ & _ & v & H). apply NE in H as [-> H]. lia. }
  destruct (gfixed r && gfixed o).
  { split; [discriminate|]. intros (H & _). discriminate. }
  unfold cut_marker, spacing_marker. split; intros H.
  - injection H as <-. split; [reflexivity|]. split; [reflexivity|]. split; [rewrite <- PG; discriminate|]. split; [apply FA; reflexivity|].
    split; [reflexivity|]. exists (cut_req W l l c r o). apply NE. auto.
  - destruct H as (_ & -> & _). reflexivity.
Qed.

Lemma cut_pair_same W l c r o m : normalised (gbox r) -> normalised (gbox o) -> k_second c = None ->
  (cut_pair W l l c r o = Some m <->
   gid r <> gid o /\ not_replaced W l c r o /\ (gfixed r && gfixed o = false) /\
   ((touching (gbox r) (gbox o) /\ m = short_marker W l r o) \/
    (~ touching (gbox r) (gbox o) /\ m = spacing_marker l (k_id c) r o /\
     ~ pg_pair W c r o /\ (k_prlo c = true -> faces W l r o) /\ not_spared c r o /\
     exists v, asked W l l c r o v /\ nearer_than (k_c2c c) (gbox r) (gbox o) v))).
Proof.
  intros Nr No S2. unfold cut_pair. rewrite S2.
  destruct (Z.eqb_spec (gid r) (gid o)); [split; [discriminate|intuition]|].
  assert (NR : not_replaced W l c r o <->
    negb (k_same c) && (gnet r =? gnet o) && match cl_rules (q_layer W l) true with [] => false | _ => true end = false).
  { unfold not_replaced. destruct (k_same c); cbn [negb andb]; [tauto|].
    destruct (Z.eqb_spec (gnet r) (gnet o)); cbn [andb]; [|tauto].
    destruct (cl_rules (q_layer W l) true); split; intros H; try tauto; try discriminate.
    destruct H as [H|[H|H]]; [discriminate|congruence|discriminate]. }
  destruct (negb (k_same c) && _ && _) eqn:ER; [split; [discriminate|]; intros (_ & A & _); apply NR in A; discriminate|].
  assert (NRt : not_replaced W l c r o) by (apply NR; reflexivity). clear NR ER.
  destruct (pair_geom_spec _ _ Nr No) as (Em & Ex & Ey & Ep). cbv zeta. rewrite Z.eqb_refl.
  pose proof (touching_iff _ _ Nr No) as T.
  rewrite Ex, Ey in *. rewrite Em.
  destruct (Z.eqb_spec (box2boxDx (gbox r) (gbox o)) 0) as [Dx|Dx]; [destruct (Z.eqb_spec (box2boxDy (gbox r) (gbox o)) 0) as [Dy|Dy]|];
    cbn [andb].
  - assert (Tt : touching (gbox r) (gbox o)) by tauto. unfold cut_short, cut_marker, short_marker.
    destruct (gfixed r && gfixed o) eqn:F; split; intros H.
    + discriminate.
    + destruct H as (_ & _ & H & _). discriminate.
    + injection H as <-. tauto.
    + destruct H as (_ & _ & _ & [[_ ->]|[H _]]); [reflexivity|tauto].
  - assert (Tt : ~ touching (gbox r) (gbox o)) by tauto. rewrite Ep by tauto. rewrite cut_spc_same by assumption. tauto.
  - assert (Tt : ~ touching (gbox r) (gbox o)) by tauto. rewrite Ep by tauto. rewrite cut_spc_same by assumption. tauto.
Qed.
