(* The search with its costs refines the abstract search of FareAbs. *)
From Verif Require Import Base Stl GeomModel GeomSpec GridModel GridSpec GridProofs GridProofs2 MazeModel MazeSpec MazeAbs MazeProofs FareModel FareSpec FareAbs.

Lemma stop_wpos s ds : wpos (s, ds) = stop s ds.
Proof. induction ds as [|d r IH]; [reflexivity|]. cbn [stop]. rewrite <- IH. reflexivity. Qed.
Lemma stops_wpts s ds : wpts (s, ds) = stops s ds.
Proof.
  unfold wpts. cbn [fst snd]. induction ds as [|d r IH]; [reflexivity|]. cbn [stops wpts_aux].
  rewrite IH, stop_wpos. reflexivity.
Qed.

(* ---- the cost functions do not look at the stored directions ---- *)
Section Static.
Variables (F : fenv) (d1 d2 : midx) (center : point).
Lemma static_point g h p : static g h -> getPoint h p = getPoint g p.
Proof. intros ((A & B & _) & _). unfold getPoint. rewrite A, B. reflexivity. Qed.
Lemma static_len g h p d : static g h -> getEdgeLength F h p d = getEdgeLength F g p d.
Proof. intros ((A & B & _) & _). unfold getEdgeLength. destruct (correct p d). rewrite A, B. reflexivity. Qed.
Lemma static_layer g h z : static g h -> getLayerNum h z = getLayerNum g z.
Proof. intros ((A & B & C & _) & _). unfold getLayerNum. rewrite C. reflexivity. Qed.
Lemma static_est g h p d : static g h -> getEstCost F h p d1 d2 d = getEstCost F g p d1 d2 d.
Proof.
  intros S. unfold getEstCost, bend_cnt, min_x, min_y, est_penalty, zdir.
  pose proof (fun p => static_point g h p S) as P. rewrite !P. destruct S as ((A & B & C & D) & _). rewrite D. reflexivity.
Qed.
Lemma static_next g h e d : static g h -> fnext F d1 d2 center h e d = fnext F d1 d2 center g e d.
Proof.
  intros S. unfold fnext. rewrite (static_est g h _ _ S), (static_len g h _ _ S), (static_point g h _ S).
  pose proof (fun p => static_idx g h p S) as I.
  assert (C : getNextPathCost F h e d = getNextPathCost F g e d).
  { unfold getNextPathCost. rewrite (static_len g h _ _ S), (static_layer g h _ S).
    assert (X1 : hasGridCost h (epos e) d = hasGridCost g (epos e) d).
    { unfold hasGridCost. destruct (correct (epos e) d). rewrite (static_idx g h _ S). destruct S as (_ & <- & _). reflexivity. }
    assert (X2 : hasDRCCost h (epos e) d = hasDRCCost g (epos e) d).
    { unfold hasDRCCost. rewrite !I. destruct S as (_ & <- & _). reflexivity. }
    assert (X3 : hasMarkerCost h (epos e) d = hasMarkerCost g (epos e) d).
    { unfold hasMarkerCost. rewrite !I. destruct S as (_ & <- & _). reflexivity. }
    assert (X4 : hasShapeCost h (epos e) d = hasShapeCost g (epos e) d).
    { unfold hasShapeCost, isOverrideShapeCost. destruct d; cbn [correctU reverse fst]; rewrite !I; destruct S as (_ & <- & _); reflexivity. }
    assert (X5 : isBlocked h (epos e) d = isBlocked g (epos e) d).
    { unfold isBlocked. destruct (correct (epos e) d). rewrite (static_isValid g h _ S), (static_idx g h _ S). destruct S as (_ & <- & _). reflexivity. }
    assert (X6 : hasGuide h (epos e) d = hasGuide g (epos e) d).
    { unfold hasGuide. rewrite (static_idx g h _ S). destruct S as (_ & _ & _ & _ & <-). reflexivity. }
    rewrite X1, X2, X3, X4, X5, X6. reflexivity. }
  rewrite C. reflexivity.
Qed.
End Static.

(* ---- lengths ---- *)
Section Lengths.
Variables (F : fenv) (g : gg).
Hypothesis FO : fare_ok F g.
Hypothesis EI : edges_inside g.
Lemma xs_next i : 0 <= i -> i + 1 < nx g -> nth (Z.to_nat i) (gxs g) 0 <= nth (Z.to_nat (i + 1)) (gxs g) 0.
Proof. intros A B. destruct FO as ((S & _) & _). apply (sorted_lt_le _ S); unfold nx in *; lia. Qed.
Lemma ys_next i : 0 <= i -> i + 1 < ny g -> nth (Z.to_nat i) (gys g) 0 <= nth (Z.to_nat (i + 1)) (gys g) 0.
Proof. intros A B. destruct FO as ((_ & S & _) & _). apply (sorted_lt_le _ S); unfold ny in *; lia. Qed.
Lemma hop_len p d : d <> DUnk -> hasEdge g p d = true -> getEdgeLength F g p d = hop F g p d.
Proof.
  intros D E. destruct (EI p d D E) as [(A1 & A2 & A3) (B1 & B2 & B3)].
  assert (H : forall z, 0 <= z -> z + 1 < nz g -> fe_height F z <= fe_height F (z + 1)) by apply FO.
  unfold getEdgeLength, hop, getPoint. destruct d; cbn [correct step mx my mz px py] in *; try congruence; rewrite ?Z.sub_diag; cbn [Z.abs].
  - specialize (H (mz p - 1) ltac:(lia) ltac:(lia)). replace (mz p - 1 + 1) with (mz p) in * by lia. lia.
  - pose proof (ys_next (my p - 1) ltac:(lia) ltac:(lia)) as Y. replace (my p - 1 + 1) with (my p) in * by lia. lia.
  - pose proof (xs_next (mx p - 1) ltac:(lia) ltac:(lia)) as Y. replace (mx p - 1 + 1) with (mx p) in * by lia. lia.
  - pose proof (xs_next (mx p) ltac:(lia) ltac:(lia)) as Y. lia.
  - pose proof (ys_next (my p) ltac:(lia) ltac:(lia)) as Y. lia.
  - specialize (H (mz p) ltac:(lia) ltac:(lia)). lia.
Qed.
Lemma hop_nn p d : 0 <= hop F g p d.
Proof. unfold hop. lia. Qed.

Definition edge_part (p : midx) (d : dir) : Z :=
  let len := getEdgeLength F g p d in
  len + (if hasGridCost g p d then GRIDCOST * len else 0) + (if hasDRCCost g p d then fe_drc F * len else 0) +
  (if hasMarkerCost g p d then fe_marker F * len else 0) + (if hasShapeCost g p d then SHAPECOST * len else 0) +
  (if isBlocked g p d then BLOCKCOST * fe_width F (getLayerNum g (mz p)) * 20 else 0) + (if negb (hasGuide g p d) then GUIDECOST * len else 0).
Lemma edge_part_price p d : d <> DUnk -> hasEdge g p d = true -> edge_part p d = edge_price F g p d.
Proof.
  intros D E. unfold edge_part, edge_price. rewrite (hop_len p d D E). unfold GRIDCOST, SHAPECOST, BLOCKCOST, GUIDECOST.
  destruct (hasGridCost g p d), (hasDRCCost g p d), (hasMarkerCost g p d), (hasShapeCost g p d), (isBlocked g p d), (hasGuide g p d); cbn [negb]; ring.
Qed.
Lemma edge_price_hop p d : hop F g p d <= edge_price F g p d.
Proof.
  destruct FO as (_ & _ & C1 & C2 & C3 & _). pose proof (hop_nn p d). specialize (C3 (getLayerNum g (mz p))).
  unfold edge_price.
  set (m := (if hasGridCost g p d then 2 else 0) + (if hasDRCCost g p d then fe_drc F else 0) +
                 (if hasMarkerCost g p d then fe_marker F else 0) + (if hasShapeCost g p d then 8 else 0) +
                 (if hasGuide g p d then 0 else 1)).
  assert (0 <= m) by (unfold m; destruct (hasGridCost g p d), (hasDRCCost g p d), (hasMarkerCost g p d), (hasShapeCost g p d), (hasGuide g p d); lia).
  replace (1 + _ + _ + _ + _ + _) with (1 + m) by (unfold m; lia).
  destruct (isBlocked g p d); nia.
Qed.
Lemma edge_part_hop p d : d <> DUnk -> hasEdge g p d = true -> hop F g p d <= edge_part p d.
Proof. intros D E. rewrite (edge_part_price p d D E). apply edge_price_hop. Qed.

(* ---- the estimate ---- *)
Variables d1 d2 : midx.
Definition h0 (p : midx) : Z := min_x g p d1 d2 + min_y g p d1 d2 + min_z F p d1 d2.
Definition hb (p : midx) (d : dir) : Z := bend_cnt F g p d1 d2 d.
Lemma est_split p d : getEstCost F g p d1 d2 d = h0 p + hb p d.
Proof.
  destruct FO as (_ & _ & _ & _ & _ & P). unfold getEstCost, est_penalty, h0, hb. rewrite P. cbn [andb]. lia.
Qed.
Lemma h0_nonneg p : 0 <= h0 p.
Proof. unfold h0, min_x, min_y, min_z. repeat apply Z.add_nonneg_nonneg; apply Z.le_max_r. Qed.
Lemma hb_bounds p d : 0 <= hb p d <= 2.
Proof.
  unfold hb, bend_cnt.
  generalize (min_x g p d1 d2 =? 0), (min_y g p d1 d2 =? 0), (min_z F p d1 d2 =? 0). intros a b c.
  destruct a, b, c, d; cbn; lia.
Qed.
Lemma hb_first p : hb p DUnk = 0.
Proof. unfold hb, bend_cnt. cbn. rewrite !andb_false_r. reflexivity. Qed.
Lemma h0_hop p d : h0 p <= hop F g p d + h0 (step p d) /\ h0 (step p d) <= hop F g p d + h0 p.
Proof.
  assert (L : forall a b x y, Z.max (Z.max (a - x) (x - b)) 0 <= Z.abs (y - x) + Z.max (Z.max (a - y) (y - b)) 0) by (intros; lia).
  assert (AB : forall a b, Z.abs (a - b) = Z.abs (b - a)) by (clear; intros; lia).
  unfold h0, min_x, min_y, min_z, hop. split.
  - pose proof (L (px (getPoint g d1)) (px (getPoint g d2)) (px (getPoint g p)) (px (getPoint g (step p d)))) as A.
    pose proof (L (py (getPoint g d1)) (py (getPoint g d2)) (py (getPoint g p)) (py (getPoint g (step p d)))) as B.
    pose proof (L (fe_height F (mz d1)) (fe_height F (mz d2)) (fe_height F (mz p)) (fe_height F (mz (step p d)))) as C.
    clear AB L. repeat match goal with |- context [Z.max ?a 0] => generalize dependent (Z.max a 0); intros end.
    repeat match goal with |- context [Z.abs ?a] => generalize dependent (Z.abs a); intros end. lia.
  - pose proof (L (px (getPoint g d1)) (px (getPoint g d2)) (px (getPoint g (step p d))) (px (getPoint g p))) as A.
    pose proof (L (py (getPoint g d1)) (py (getPoint g d2)) (py (getPoint g (step p d))) (py (getPoint g p))) as B.
    pose proof (L (fe_height F (mz d1)) (fe_height F (mz d2)) (fe_height F (mz (step p d))) (fe_height F (mz p))) as C.
    rewrite (AB (px (getPoint g p))) in A. rewrite (AB (py (getPoint g p))) in B. rewrite (AB (fe_height F (mz p))) in C. clear AB L.
    repeat match goal with |- context [Z.max ?a 0] => generalize dependent (Z.max a 0); intros end.
    repeat match goal with |- context [Z.abs ?a] => generalize dependent (Z.abs a); intros end. lia.
Qed.
Definition same_axis (a b : dir) : Prop := is_x_dir a = is_x_dir b /\ is_y_dir a = is_y_dir b /\ is_via_dir a = is_via_dir b.
Lemma axis_same p d : 
  (is_x_dir d = false -> min_x g (step p d) d1 d2 = min_x g p d1 d2) /\
  (is_y_dir d = false -> min_y g (step p d) d1 d2 = min_y g p d1 d2) /\
  (is_via_dir d = false -> min_z F (step p d) d1 d2 = min_z F p d1 d2).
Proof. unfold min_x, min_y, min_z, getPoint. destruct d; cbn; repeat split; intros; congruence. Qed.
(* the estimate drops by no more than a step costs, bends included *)
Lemma est_step p l d : d <> DUnk ->
  hb p l + h0 p <= hop F g p d + (if negb (dir_eqb l d) && negb (dir_eqb l DUnk) then 1 else 0) + h0 (step p d) + hb (step p d) d.
Proof.
  intros D. pose proof (h0_hop p d) as [H _].
  destruct (dir_eq_dec l DUnk) as [-> | L].
  { rewrite hb_first. pose proof (hb_bounds (step p d) d). cbn. rewrite andb_false_r. lia. }
  replace (dir_eqb l DUnk) with false by (symmetry; apply dir_eqb_neq; assumption). rewrite andb_true_r.
  destruct (axis_same p d) as (X & Y & Z).
  enough (hb p l <= (if negb (dir_eqb l d) then 1 else 0) + hb (step p d) d) by lia.
  unfold hb, bend_cnt. clear H.
  destruct d; try congruence; cbn [is_x_dir is_y_dir is_via_dir] in X, Y, Z;
    rewrite ?(X eq_refl), ?(Y eq_refl), ?(Z eq_refl); clear;
    repeat match goal with |- context [?a =? 0] => generalize (a =? 0); intros end;
    repeat match goal with b : bool |- _ => destruct b end;
    destruct l; cbn; lia.
Qed.
End Lengths.
