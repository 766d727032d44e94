(* Histories of operations, edges from both ends, counters, coordinates, guides. *)
From Coq Require Import Permutation.
From Verif Require Import Base Stl GeomModel GeomSpec GridModel GridSpec GridProofs.

Lemma owner_step p d : d <> DUnk -> owner (step p d) (opp d) = owner p d.
Proof. destruct d, p as [x y z]; cbn; intros; try congruence; f_equal; lia. Qed.
Lemma by_dir_opp e n u d : d <> DUnk -> by_dir e n u (opp d) = by_dir e n u d.
Proof. destruct d; cbn; congruence. Qed.
Lemma step_step p d : step (step p d) (opp d) = p.
Proof. destruct d, p as [x y z]; cbn; f_equal; lia. Qed.

Lemma hasEdge_read g p d : d <> DUnk ->
  hasEdge g p d = isValid g (owner p d) && (read g (owner p d) (by_dir AEdgeE AEdgeN AEdgeU d) =? 1).
Proof.
  intros Hd. unfold hasEdge. rewrite correct_spec.
  destruct (isValid g (owner p d)); [|reflexivity].
  destruct d; try congruence; cbn [pos_by_dir]; rewrite getBit_field by lia; reflexivity.
Qed.
Lemma isBlocked_read g p d : d <> DUnk ->
  isBlocked g p d = isValid g (owner p d) && (read g (owner p d) (by_dir ABlockE ABlockN ABlockU d) =? 1).
Proof.
  intros Hd. unfold isBlocked. rewrite correct_spec.
  destruct (isValid g (owner p d)); [|reflexivity].
  destruct d; try congruence; cbn [pos_by_dir]; rewrite getBit_field by lia; reflexivity.
Qed.
Lemma hasGridCost_read g p d : d <> DUnk ->
  hasGridCost g p d = (read g (owner p d) (by_dir AGridE AGridN AGridU d) =? 1).
Proof.
  intros Hd. unfold hasGridCost. rewrite correct_spec.
  destruct d; try congruence; rewrite getBit_field by lia; reflexivity.
Qed.
Lemma hasDRCCost_read g p d : d <> DUnk ->
  hasDRCCost g p d = negb ((if planar d then read g (step p d) ADrcX else read g (owner p d) ADrcU) =? 0).
Proof.
  intros Hd. unfold hasDRCCost. rewrite reverse_spec. cbn [fst].
  destruct d; try congruence; cbn [planar correctU fst owner step]; rewrite getBits_field by lia; reflexivity.
Qed.
Lemma hasMarkerCost_read g p d : d <> DUnk ->
  hasMarkerCost g p d = negb ((if planar d then read g (step p d) AMarkX else read g (owner p d) AMarkU) =? 0).
Proof.
  intros Hd. unfold hasMarkerCost. rewrite reverse_spec. cbn [fst].
  destruct d; try congruence; cbn [planar correctU fst owner step]; rewrite getBits_field by lia; reflexivity.
Qed.
Lemma hasShapeCost_read g p d : d <> DUnk ->
  hasShapeCost g p d =
  if planar d then negb (read g (step p d) AShapeX =? 0)
  else (read g (owner p d) AOverride =? 0) && negb (read g (owner p d) AShapeU =? 0).
Proof.
  intros Hd. unfold hasShapeCost. rewrite reverse_spec. cbn [fst].
  destruct d; try congruence; cbn [planar correctU owner step isOverrideShapeCost];
    rewrite ?getBits_field, ?getBit_field by lia; try reflexivity.
  all: unfold read; cbn [attr_pos attr_len is_counter].
  all: match goal with |- context [(?w / 2 ^ 11) mod 2 ^ 1] =>
         pose proof (Z.mod_pos_bound (w / 2 ^ 11) (2 ^ 1) ltac:(lia));
         destruct ((w / 2 ^ 11) mod 2 ^ 1 =? 1) eqn:E1;
         destruct ((w / 2 ^ 11) mod 2 ^ 1 =? 0) eqn:E2; try lia; reflexivity end.
Qed.

Lemma hasEdge_sym g p d : d <> DUnk -> hasEdge g (step p d) (opp d) = hasEdge g p d.
Proof.
  intros Hd. assert (opp d <> DUnk) by (destruct d; cbn; congruence).
  rewrite !hasEdge_read by assumption. rewrite owner_step, by_dir_opp by assumption. reflexivity.
Qed.
Lemma isBlocked_sym g p d : d <> DUnk -> isBlocked g (step p d) (opp d) = isBlocked g p d.
Proof.
  intros Hd. assert (opp d <> DUnk) by (destruct d; cbn; congruence).
  rewrite !isBlocked_read by assumption. rewrite owner_step, by_dir_opp by assumption. reflexivity.
Qed.
Lemma hasGridCost_sym g p d : d <> DUnk -> hasGridCost g (step p d) (opp d) = hasGridCost g p d.
Proof.
  intros Hd. assert (opp d <> DUnk) by (destruct d; cbn; congruence).
  rewrite !hasGridCost_read by assumption. rewrite owner_step, by_dir_opp by assumption. reflexivity.
Qed.
Lemma via_costs_sym g p d : planar d = false -> d <> DUnk ->
  hasDRCCost g (step p d) (opp d) = hasDRCCost g p d /\
  hasMarkerCost g (step p d) (opp d) = hasMarkerCost g p d /\
  hasShapeCost g (step p d) (opp d) = hasShapeCost g p d.
Proof.
  intros Hp Hd. assert (opp d <> DUnk) by (destruct d; cbn; congruence).
  assert (planar (opp d) = false) by (destruct d; cbn in *; congruence).
  rewrite !hasDRCCost_read, !hasMarkerCost_read, !hasShapeCost_read by assumption.
  rewrite !H0, !Hp, !owner_step by assumption. auto.
Qed.

Lemma addEdge_result g p d b i : d <> DUnk -> (snd (addEdge g p d b i) = true <-> edge_allowed g p d b i).
Proof.
  intros Hd. rewrite <- edge_in_box_iff by assumption. unfold addEdge.
  destruct (isEdgeInBox g p d b i) eqn:E; cbn [negb]; [|cbn; tauto].
  rewrite correct_spec, (owner_eq _ _ _ _ _ E). destruct d; try congruence; cbn; tauto.
Qed.

(* reads after one operation, in one formula *)
Definition midx_eq_dec (p q : midx) : {p = q} + {p <> q}.
Proof. repeat decide equality. Defined.
Definition attr_eq_dec (a b : attr) : {a = b} + {a <> b}.
Proof. decide equality. Defined.
Definition hits (o : gop) (q : midx) (a : attr) : bool :=
  if midx_eq_dec q (op_point o) then if attr_eq_dec a (op_attr o) then true else false else false.
Lemma hits_true o q a : hits o q a = true <-> q = op_point o /\ a = op_attr o.
Proof.
  unfold hits. destruct (midx_eq_dec _ _); [destruct (attr_eq_dec _ _)|]; split; intros; try discriminate; auto;
    destruct H; congruence.
Qed.
Lemma enabled_valid g o : op_enabled g o -> valid g (op_point o).
Proof.
  destruct o; cbn; auto; try tauto.
  - intros [_ (A & B & _)]. apply edge_owner_valid; auto.
  - intros [_ (A & B)]. apply edge_owner_valid; auto.
Qed.
Lemma gstep_shape g o : op_safe g o -> same_shape g (gstep g o).
Proof. intros H. apply gstep_ok in H. apply H. Qed.
Lemma op_safe_shape g h o : same_shape g h -> op_safe g o -> op_safe h o.
Proof. intros S. destruct o; cbn; auto; apply (valid_shape g h _ S). Qed.
Lemma grun_shape ops : forall g, Forall (op_safe g) ops -> same_shape g (grun g ops).
Proof.
  induction ops as [|o ops IH]; intros g H; [apply same_shape_refl|].
  inversion H as [|? ? H1 H2]; subst. cbn. pose proof (gstep_shape g o H1) as S.
  eapply same_shape_trans; [exact S|]. apply IH.
  eapply Forall_impl; [|exact H2]. intros; eapply op_safe_shape; eauto.
Qed.

(* ---- edges stay inside the grid ---- *)
Lemma edges_inside_owner g : edges_inside g <->
  (forall p d, d = DE \/ d = DN \/ d = DU -> hasEdge g p d = true -> valid g p /\ valid g (step p d)).
Proof.
  split.
  - intros H p d Hd. apply H. destruct Hd as [-> | [-> | ->]]; discriminate.
  - intros H p d Hd He.
    assert (C : (d = DE \/ d = DN \/ d = DU) \/ (opp d = DE \/ opp d = DN \/ opp d = DU))
      by (destruct d; cbn; try congruence; tauto).
    destruct C as [C|C]; [auto|].
    rewrite <- hasEdge_sym in He by assumption. apply H in He; [|assumption].
    rewrite step_step in He. tauto.
Qed.
Lemma valid_dec g p : valid g p \/ ~ valid g p.
Proof. destruct (isValid g p) eqn:E; [left; apply isValid_iff|right; apply valid_iff_false]; assumption. Qed.
Lemma dunk_dec d : d = DUnk \/ d <> DUnk.
Proof. destruct d; auto; right; discriminate. Qed.
Lemma op_enabled_dec g o : op_enabled g o \/ ~ op_enabled g o.
Proof.
  destruct o; cbn [op_enabled]; try apply valid_dec;
    destruct (dunk_dec d) as [E|E]; try (right; tauto).
  - destruct (isEdgeInBox g p d b initDR) eqn:Ei.
    + left. split; [assumption|]. apply edge_in_box_iff; assumption.
    + right. intros [_ C]. apply edge_in_box_iff in C; congruence.
  - destruct (valid_dec g p), (valid_dec g (step p d)); tauto.
  - destruct (valid_dec g (owner p d)); tauto.
  - destruct (valid_dec g (owner p d)); tauto.
  - destruct (valid_dec g (owner p d)); tauto.
  - destruct (valid_dec g (owner p d)); tauto.
  - destruct (valid_dec g (owner p d)); tauto.
Qed.
Lemma gstep_edges_inside g o : op_safe g o -> edges_inside g -> edges_inside (gstep g o).
Proof.
  intros Hs H. apply edges_inside_owner. intros p d Hd He.
  assert (Hu : d <> DUnk) by (destruct Hd as [-> | [-> | ->]]; discriminate).
  pose proof (gstep_ok g o Hs) as ([S _] & A & B).
  rewrite <- !(valid_shape g _ _ S).
  rewrite hasEdge_read in He by assumption. apply andb_true_iff in He as [Hv Hr].
  apply isValid_iff in Hv. rewrite <- (valid_shape g _ _ S) in Hv.
  set (a := by_dir AEdgeE AEdgeN AEdgeU d) in *.
  destruct (hits o (owner p d) a) eqn:Eh.
  - apply hits_true in Eh as [E1 E2].
    assert (Ho : owner p d = p) by (destruct Hd as [-> | [-> | ->]]; reflexivity). rewrite Ho in E1.
    destruct (op_enabled_dec g o) as [He|He].
    + destruct o; cbn [op_attr] in E2; try (subst a; destruct Hd as [-> | [-> | ->]]; discriminate);
        try (subst a; destruct d0; destruct Hd as [-> | [-> | ->]]; discriminate).
      * (* AddEdge *) destruct He as [Hd0 (V1 & V2 & _)]. cbn [op_point] in E1. subst p.
        subst a. destruct d0; destruct Hd as [-> | [-> | ->]]; cbn in E2; try congruence; cbn [owner] in *;
          try (split; assumption); destruct p0 as [x y z]; cbn in *; rewrite ?Z.sub_add; split; assumption.
      * (* RemoveEdge *) specialize (A He). cbn [op_value op_attr] in A. rewrite <- E2, <- E1 in A. rewrite Ho in Hr. lia.
    + rewrite B in Hr by tauto. apply H; [assumption|].
      rewrite hasEdge_read by assumption. apply isValid_iff in Hv. rewrite Hv. exact Hr.
  - rewrite B in Hr; [|assumption|].
    + apply H; [assumption|]. rewrite hasEdge_read by assumption. apply isValid_iff in Hv. rewrite Hv. exact Hr.
    + intros _ E. inversion E as [[E1 E2]]. assert (hits o (owner p d) a = true) by (apply hits_true; auto). congruence.
Qed.
Lemma grun_edges_inside ops : forall g, Forall (op_safe g) ops -> edges_inside g -> edges_inside (grun g ops).
Proof.
  induction ops as [|o ops IH]; intros g H HE; [exact HE|].
  inversion H as [|? ? H1 H2]; subst. cbn. apply IH.
  - eapply Forall_impl; [|exact H2]. intros; eapply op_safe_shape; eauto using gstep_shape.
  - apply gstep_edges_inside; auto.
Qed.

(* ---- counters ---- *)
Fixpoint net (ops : list gop) q a : Z :=
  match ops with [] => 0 | o :: r => (if hits o q a then sgn o else 0) + net r q a end.
Lemma net_app l1 l2 q a : net (l1 ++ l2) q a = net l1 q a + net l2 q a.
Proof. induction l1 as [|o l IH]; cbn; [reflexivity|]. rewrite IH. ring. Qed.
Lemma net_perm l1 l2 q a : Permutation l1 l2 -> net l1 q a = net l2 q a.
Proof. induction 1; cbn; lia. Qed.

Lemma cost_enabled g o : cost_op o -> op_safe g o -> valid g (op_point o) -> op_enabled g o.
Proof. destruct o; cbn; unfold cost_op; cbn; try congruence; auto. Qed.
Lemma cost_safe g o : cost_op o -> valid g (op_point o) -> op_safe g o.
Proof. destruct o; unfold cost_op; cbn; try congruence; auto. Qed.
Lemma cost_len o : cost_op o -> attr_len (op_attr o) = 8.
Proof. destruct o; unfold cost_op; cbn; try congruence; auto. Qed.
Lemma cost_value o v : cost_op o -> 0 <= v <= 255 -> (sgn o = 1 -> v + 1 <= 255) -> (sgn o = -1 -> 1 <= v) ->
  op_value o v = v + sgn o.
Proof.
  destruct o; unfold cost_op; cbn; try congruence; intros _ Hv H1 H2; try specialize (H1 eq_refl);
    try specialize (H2 eq_refl); try lia; rewrite Z.min_l by lia; apply Z.mod_small; lia.
Qed.
Lemma gstep_read g o q a : op_safe g o -> valid g q ->
  cost_op o -> valid g (op_point o) ->
  (sgn o = 1 -> read g (op_point o) (op_attr o) + 1 <= 255) ->
  (sgn o = -1 -> 1 <= read g (op_point o) (op_attr o)) ->
  read (gstep g o) q a = read g q a + (if hits o q a then sgn o else 0).
Proof.
  intros Hs Hq Hc Hv H1 H2. pose proof (gstep_ok g o Hs) as (_ & A & B).
  destruct (hits o q a) eqn:E.
  - apply hits_true in E as [-> ->]. rewrite A by (apply cost_enabled; auto).
    apply cost_value; auto. pose proof (rd_range (gbits g (getIdx g (op_point o))) (op_attr o) (cost_len o Hc)).
    rewrite read_rd. lia.
  - rewrite B; [lia|assumption|]. intros _ C. inversion C as [[C1 C2]]. subst.
    assert (hits o (op_point o) (op_attr o) = true) by (apply hits_true; auto). congruence.
Qed.
Lemma no_limit_net ops : forall g q a, valid g q ->
  Forall (fun o => cost_op o /\ valid g (op_point o)) ops -> no_limit g ops ->
  read (grun g ops) q a = read g q a + net ops q a.
Proof.
  induction ops as [|o ops IH]; intros g q a Hq HF HN; [cbn; lia|].
  change (grun g (o :: ops)) with (grun (gstep g o) ops). cbn [net].
  inversion HF as [|? ? [Hc Hv] HF']; subst. destruct HN as (N1 & N2 & N3).
  assert (Hs : op_safe g o) by (apply cost_safe; auto).
  pose proof (gstep_shape g o Hs) as S.
  rewrite IH; auto.
  - rewrite gstep_read by auto. lia.
  - apply (valid_shape g _ _ S). assumption.
  - eapply Forall_impl; [|exact HF']. intros x [? ?]. split; [assumption|]. apply (valid_shape g _ _ S). assumption.
Qed.
Lemma net_undo l q a : net (map undo l) q a = - net l q a.
Proof.
  induction l as [|o l IH]; cbn; [reflexivity|]. rewrite IH.
  assert (E : (if hits (undo o) q a then sgn (undo o) else 0) = - (if hits o q a then sgn o else 0)).
  { destruct o; cbn; try (destruct (hits _ _ _); reflexivity);
      unfold hits; cbn; repeat destruct (midx_eq_dec _ _); repeat destruct (attr_eq_dec _ _); reflexivity. }
  lia.
Qed.

(* ---- coordinates ---- *)
Lemma bin_search_iff l v : sorted_lt l -> (bin_search l v = true <-> In v l).
Proof.
  intros Hs. unfold bin_search. split.
  - destruct (nth_error l (lower_bound l v)) as [x|] eqn:E; [|discriminate].
    intros H. assert (x = v) by lia. subst. eapply nth_error_In; eauto.
  - intros Hin. apply (In_nth l v 0) in Hin as (k & Hk & Ek).
    rewrite <- Ek. rewrite lower_bound_nth by assumption.
    rewrite (nth_error_nth' l 0) by assumption. lia.
Qed.
Lemma lb_of_nat_nth l i : sorted_lt l -> 0 <= i < Z.of_nat (length l) ->
  Z.of_nat (lower_bound l (nth (Z.to_nat i) l 0)) = i.
Proof. intros Hs Hi. rewrite lower_bound_nth by (auto; lia). lia. Qed.
Lemma nth_lb l v : sorted_lt l -> In v l -> nth (lower_bound l v) l 0 = v.
Proof.
  intros Hs Hin. apply (In_nth l v 0) in Hin as (k & Hk & <-). rewrite lower_bound_nth by assumption. reflexivity.
Qed.
Lemma idx_interval l lo hi i : sorted_lt l -> 0 <= i < Z.of_nat (length l) ->
  (Z.of_nat (lower_bound l lo) <= i <= Z.of_nat (upper_bound l hi) - 1 <->
   lo <= nth (Z.to_nat i) l 0 <= hi).
Proof.
  intros Hs Hi. pose proof (sorted_lt_le l Hs) as Hle. split.
  - intros [A B]. split.
    + apply lower_bound_after; auto; lia.
    + apply upper_bound_before; lia.
  - intros [A B]. split.
    + destruct (Z.le_gt_cases (Z.of_nat (lower_bound l lo)) i); [assumption|].
      pose proof (lower_bound_before l lo (Z.to_nat i) ltac:(lia)). lia.
    + destruct (Z.le_gt_cases i (Z.of_nat (upper_bound l hi) - 1)); [assumption|].
      pose proof (upper_bound_after l hi (Z.to_nat i) Hle ltac:(lia) ltac:(lia)). lia.
Qed.

(* ---- guides ---- *)
Lemma zrange_in a b x : In x (zrange a b) <-> a <= x <= b.
Proof.
  unfold zrange. rewrite in_map_iff. split.
  - intros (k & <- & Hk). apply in_seq in Hk. lia.
  - intros H. exists (Z.to_nat (x - a)). split; [lia|]. apply in_seq. lia.
Qed.
Lemma fold_fill (lo hi : Z -> Z) v js : forall f j,
  fold_left (fun f i => fill f (lo i) (hi i) v) js f j =
  if existsb (fun i => (lo i <=? j) && (j <=? hi i)) js then v else f j.
Proof.
  induction js as [|i js IH]; intros f j; cbn; [reflexivity|].
  rewrite IH. unfold fill. destruct (existsb _ js); [rewrite orb_true_r; reflexivity|].
  rewrite orb_false_r. reflexivity.
Qed.
Definition in_rect (p : midx) x1 y1 x2 y2 z : bool :=
  (x1 <=? mx p) && (mx p <=? x2) && (y1 <=? my p) && (my p <=? y2) && (mz p =? z).
Lemma row_unique X Y a b a1 a2 b' c c' : 0 <= a < X -> 0 <= b < Y -> 0 <= a1 -> a2 < X -> 0 <= b' < Y ->
  a1 <= a2 -> a1 + b' * X + c' * (X * Y) <= a + b * X + c * (X * Y) <= a2 + b' * X + c' * (X * Y) ->
  b = b' /\ c = c' /\ a1 <= a <= a2.
Proof.
  intros Ha Hb H1 H2 Hb' H12 H.
  pose proof (cell_range a b X Y Ha Hb). pose proof (cell_range a1 b' X Y ltac:(lia) Hb').
  pose proof (cell_range a2 b' X Y ltac:(lia) Hb').
  assert (c = c') by nia. subst. assert (b = b') by nia. subst. repeat split; lia.
Qed.
Lemma writeGuide_spec g x1 y1 x2 y2 z v p : valid g p ->
  0 <= x1 -> x2 < nx g -> 0 <= y1 -> y2 < ny g -> 0 <= z < nz g ->
  gguide (writeGuide g x1 y1 x2 y2 z v) (getIdx g p) =
  if in_rect p x1 y1 x2 y2 z then v else gguide g (getIdx g p).
Proof.
  intros Hv Hx1 Hx2 Hy1 Hy2 Hz. unfold writeGuide.
  destruct ((x2 <? x1) || (y2 <? y1)) eqn:E0.
  { unfold in_rect. destruct (_ && _) eqn:E; [lia|reflexivity]. }
  destruct (zdir g z) eqn:Ez; cbn [gguide with_guide]; rewrite fold_fill.
  - assert (Eq : existsb (fun i => (getIdx g (mkMI x1 i z) <=? getIdx g p) && (getIdx g p <=? getIdx g (mkMI x2 i z)))
                 (zrange y1 y2) = in_rect p x1 y1 x2 y2 z).
    { apply Bool.eq_iff_eq_true. rewrite existsb_exists. split.
      - intros (i & Hi & H). apply zrange_in in Hi.
        assert (mz p = z).
        { pose proof Hv as (Vx & Vy & Vz). unfold getIdx in H. cbn [mx my mz] in H. rewrite Ez in H.
          rewrite <- !Z.mul_assoc in H.
          pose proof (cell_range (mx p) (my p) (nx g) (ny g) Vx Vy).
          pose proof (cell_range (my p) (mx p) (ny g) (nx g) Vy Vx).
          pose proof (cell_range x1 i (nx g) (ny g) ltac:(lia) ltac:(lia)).
          pose proof (cell_range x2 i (nx g) (ny g) ltac:(lia) ltac:(lia)).
          rewrite (Z.mul_comm (ny g) (nx g)) in *.
          destruct (zdir g (mz p)); nia. }
        subst z. unfold getIdx in H. cbn [mx my mz] in H. rewrite Ez in H. rewrite <- !Z.mul_assoc in H.
        destruct Hv as (Vx & Vy & Vz).
        destruct (row_unique (nx g) (ny g) (mx p) (my p) x1 x2 i (mz p) (mz p)) as (A & B & C); try lia.
        unfold in_rect. lia.
      - unfold in_rect. intros H. exists (my p). split; [apply zrange_in; lia|].
        assert (mz p = z) by lia. subst z. unfold getIdx. cbn [mx my mz]. rewrite Ez. lia. }
    rewrite Eq. reflexivity.
  - assert (Eq : existsb (fun i => (getIdx g (mkMI i y1 z) <=? getIdx g p) && (getIdx g p <=? getIdx g (mkMI i y2 z)))
                 (zrange x1 x2) = in_rect p x1 y1 x2 y2 z).
    { apply Bool.eq_iff_eq_true. rewrite existsb_exists. split.
      - intros (i & Hi & H). apply zrange_in in Hi.
        assert (mz p = z).
        { pose proof Hv as (Vx & Vy & Vz). unfold getIdx in H. cbn [mx my mz] in H. rewrite Ez in H.
          rewrite <- !Z.mul_assoc in H.
          pose proof (cell_range (mx p) (my p) (nx g) (ny g) Vx Vy).
          pose proof (cell_range (my p) (mx p) (ny g) (nx g) Vy Vx).
          pose proof (cell_range y1 i (ny g) (nx g) ltac:(lia) ltac:(lia)).
          pose proof (cell_range y2 i (ny g) (nx g) ltac:(lia) ltac:(lia)).
          rewrite (Z.mul_comm (ny g) (nx g)) in *.
          destruct (zdir g (mz p)); nia. }
        subst z. unfold getIdx in H. cbn [mx my mz] in H. rewrite Ez in H. rewrite <- !Z.mul_assoc in H.
        destruct Hv as (Vx & Vy & Vz).
        rewrite (Z.mul_comm (nx g) (ny g)) in H.
        destruct (row_unique (ny g) (nx g) (my p) (mx p) y1 y2 i (mz p) (mz p)) as (A & B & C); try lia.
        unfold in_rect. lia.
      - unfold in_rect. intros H. exists (mx p). split; [apply zrange_in; lia|].
        assert (mz p = z) by lia. subst z. unfold getIdx. cbn [mx my mz]. rewrite Ez. lia. }
    rewrite Eq. reflexivity.
Qed.
Lemma writeGuide_shape g x1 y1 x2 y2 z v : same_shape g (writeGuide g x1 y1 x2 y2 z v) /\
  gbits (writeGuide g x1 y1 x2 y2 z v) = gbits g /\ gsrc (writeGuide g x1 y1 x2 y2 z v) = gsrc g /\
  gdst (writeGuide g x1 y1 x2 y2 z v) = gdst g /\ gprev (writeGuide g x1 y1 x2 y2 z v) = gprev g.
Proof.
  unfold writeGuide. destruct (_ || _); [repeat split|]. destruct (zdir g z); repeat split.
Qed.
Lemma covered_rect g p b l : grid_sorted g -> valid g p -> In l (gzs g) ->
  let '(x1, y1, x2, y2) := getIdxBox g b in
  (in_rect p x1 y1 x2 y2 (Z.of_nat (lower_bound (gzs g) l)) = true <-> covered g p (b, l)).
Proof.
  intros (Sx & Sy & Sz) (Vx & Vy & Vz) Hl. unfold getIdxBox. unfold covered, in_box. cbn [fst snd].
  unfold getPoint; cbn [px py]. unfold in_rect, getLayerNum.
  pose proof (idx_interval (gxs g) (bleft b) (bright b) (mx p) Sx Vx) as Ix.
  pose proof (idx_interval (gys g) (bbottom b) (btop b) (my p) Sy Vy) as Iy.
  assert (Iz : mz p = Z.of_nat (lower_bound (gzs g) l) <-> nth (Z.to_nat (mz p)) (gzs g) 0 = l).
  { split.
    - intros ->. rewrite Nat2Z.id. apply nth_lb; assumption.
    - intros <-. symmetry. apply lb_of_nat_nth; assumption. }
  unfold bleft, bright, bbottom, btop in *.
  rewrite !andb_true_iff, !Z.leb_le, Z.eqb_eq, Iz. tauto.
Qed.
Lemma guide_helper_shape gs : forall g v, same_shape g (guide_helper g gs v) /\
  gbits (guide_helper g gs v) = gbits g /\ gsrc (guide_helper g gs v) = gsrc g /\
  gdst (guide_helper g gs v) = gdst g /\ gprev (guide_helper g gs v) = gprev g.
Proof.
  induction gs as [|[b l] gs IH]; intros g v; [repeat split|].
  unfold guide_helper. cbn [fold_left]. destruct (getIdxBox g b) as [[[x1 y1] x2] y2].
  destruct (writeGuide_shape g x1 y1 x2 y2 (Z.of_nat (lower_bound (gzs g) l)) v) as (S & A1 & A2 & A3 & A4).
  destruct (IH (writeGuide g x1 y1 x2 y2 (Z.of_nat (lower_bound (gzs g) l)) v) v) as (S' & B1 & B2 & B3 & B4).
  unfold guide_helper in *. split; [eapply same_shape_trans; eassumption|]. repeat split; congruence.
Qed.
Lemma covered_shape g h p gd : same_shape g h -> covered g p gd <-> covered h p gd.
Proof. intros (A & B & C & _). unfold covered, getPoint, getLayerNum. rewrite A, B, C. reflexivity. Qed.
Lemma lb_lt l v : In v l -> sorted_lt l -> (lower_bound l v < length l)%nat.
Proof. intros H Hs. apply (In_nth l v 0) in H as (k & Hk & <-). rewrite lower_bound_nth by assumption. assumption. Qed.
Lemma guide_helper_spec gs : forall g v p, grid_sorted g -> valid g p ->
  (forall gd, In gd gs -> In (snd gd) (gzs g)) ->
  (gguide (guide_helper g gs v) (getIdx g p) = v <-> (Exists (covered g p) gs \/ gguide g (getIdx g p) = v)).
Proof.
  induction gs as [|[b l] gs IH]; intros g v p Hs Hv Hl.
  - cbn. split; [auto|]. intros [H|H]; [inversion H|assumption].
  - unfold guide_helper. cbn [fold_left].
    pose proof (covered_rect g p b l Hs Hv (Hl _ (or_introl eq_refl))) as HC.
    destruct (getIdxBox g b) as [[[x1 y1] x2] y2] eqn:EB.
    set (z := Z.of_nat (lower_bound (gzs g) l)) in *. set (g1 := writeGuide g x1 y1 x2 y2 z v).
    destruct (writeGuide_shape g x1 y1 x2 y2 z v) as (S & _). fold g1 in S.
    assert (S0 := S). destruct S0 as (Sa & Sb & Sc & Sd).
    fold (guide_helper g1 gs v). rewrite (getIdx_shape g g1 p S).
    rewrite (IH g1 v p).
    2:{ unfold grid_sorted in *. rewrite <- Sa, <- Sb, <- Sc. assumption. }
    2:{ apply (valid_shape g g1 p S). assumption. }
    2:{ intros gd Hin. rewrite <- Sc. apply Hl. right; assumption. }
    rewrite <- (getIdx_shape g g1 p S). unfold g1.
    assert (Hb : 0 <= x1 /\ x2 < nx g /\ 0 <= y1 /\ y2 < ny g /\ 0 <= z < nz g).
    { unfold getIdxBox in EB. inversion EB. pose proof (upper_bound_le (gxs g) (bright b)).
      pose proof (upper_bound_le (gys g) (btop b)). pose proof (lb_lt (gzs g) l (Hl _ (or_introl eq_refl)) (proj2 (proj2 Hs))).
      unfold nx, ny, nz, z. lia. }
    rewrite writeGuide_spec by (auto; lia). fold g1.
    assert (HX : Exists (covered g1 p) gs <-> Exists (covered g p) gs).
    { rewrite !Exists_exists. split; intros (gd & Hin & H); exists gd; (split; [assumption|]);
        apply (covered_shape g g1 p gd S); assumption. }
    rewrite HX, Exists_cons.
    destruct (in_rect p x1 y1 x2 y2 z) eqn:Er.
    + split; [|auto]. intros _. left; left. apply HC. reflexivity.
    + split; [tauto|]. intros [[C|C]|C]; auto. apply HC in C. congruence.
Qed.

(* ---- back-pointers, source and destination flags ---- *)
Lemma dir_code_of d : dir_of_code (dir_code d) = d.
Proof. destruct d; reflexivity. Qed.
Lemma getPrevDir_set g p q d : valid g p -> valid g q ->
  getPrevDir (setPrevDir g p d) q = if midx_eq_dec q p then d else getPrevDir g q.
Proof.
  intros Hp Hq. unfold getPrevDir, setPrevDir. cbn [gprev with_prev].
  change (getIdx (with_prev g _) q) with (getIdx g q).
  destruct (midx_eq_dec q p) as [->|Hne].
  - set (b := getIdx g p). unfold upd.
    replace (3 * b =? 3 * b + 2) with false by lia. replace (3 * b =? 3 * b + 1) with false by lia.
    replace (3 * b =? 3 * b) with true by lia. replace (3 * b + 1 =? 3 * b + 2) with false by lia.
    replace (3 * b + 1 =? 3 * b + 1) with true by lia. replace (3 * b + 2 =? 3 * b + 2) with true by lia.
    destruct d; reflexivity.
  - assert (getIdx g q <> getIdx g p) by (intros E; apply Hne, (getIdx_inj g); assumption).
    unfold upd. repeat match goal with |- context [?a =? ?b] => replace (a =? b) with false by lia end. reflexivity.
Qed.
Lemma flag_set g p q (f : Z -> bool) v : valid g p -> valid g q ->
  upd f (getIdx g p) v (getIdx g q) = if midx_eq_dec q p then v else f (getIdx g q).
Proof.
  intros Hp Hq. unfold upd. destruct (midx_eq_dec q p) as [->|Hne].
  - rewrite Z.eqb_refl. reflexivity.
  - destruct (getIdx g q =? getIdx g p) eqn:E; [|reflexivity].
    destruct Hne. apply (getIdx_inj g); auto; lia.
Qed.
