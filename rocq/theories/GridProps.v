(* C11 - C16, C41: the routing grid. *)
From Coq Require Import Permutation.
From Verif Require Import Base Stl GeomModel GeomSpec GridModel GridSpec GridProofs GridProofs2.

(* C11 *)
Theorem C11_index_in_range g p : valid g p -> 0 <= getIdx g p < nx g * ny g * nz g.
Proof. exact (getIdx_range g p). Qed.
Print Assumptions C11_index_in_range.
Theorem C11_index_injective g p q : valid g p -> valid g q -> getIdx g p = getIdx g q -> p = q.
Proof. exact (getIdx_inj g p q). Qed.
Print Assumptions C11_index_injective.

(* C12: every operation changes exactly the one attribute it names, at the one point it names *)
Theorem C12_operation_effect g o :
  op_safe g o ->
  rest_same g (gstep g o) /\
  (op_enabled g o ->
     read (gstep g o) (op_point o) (op_attr o) = op_value o (read g (op_point o) (op_attr o))) /\
  (forall q a, valid g q -> (op_enabled g o -> (q, a) <> (op_point o, op_attr o)) ->
     read (gstep g o) q a = read g q a).
Proof. exact (gstep_ok g o). Qed.
Print Assumptions C12_operation_effect.
(* the public queries are functions of the attributes alone *)
Theorem C12_queries_read_attributes g p d :
  d <> DUnk ->
  hasEdge g p d = isValid g (owner p d) && (read g (owner p d) (by_dir AEdgeE AEdgeN AEdgeU d) =? 1) /\
  isBlocked g p d = isValid g (owner p d) && (read g (owner p d) (by_dir ABlockE ABlockN ABlockU d) =? 1) /\
  hasGridCost g p d = (read g (owner p d) (by_dir AGridE AGridN AGridU d) =? 1) /\
  hasDRCCost g p d = negb ((if planar d then read g (step p d) ADrcX else read g (owner p d) ADrcU) =? 0) /\
  hasMarkerCost g p d = negb ((if planar d then read g (step p d) AMarkX else read g (owner p d) AMarkU) =? 0) /\
  hasShapeCost g p d = (if planar d then negb (read g (step p d) AShapeX =? 0)
    else (read g (owner p d) AOverride =? 0) && negb (read g (owner p d) AShapeU =? 0)).
Proof.
  intros Hd. repeat split;
  [exact (hasEdge_read g p d Hd)|exact (isBlocked_read g p d Hd)|exact (hasGridCost_read g p d Hd)
  |exact (hasDRCCost_read g p d Hd)|exact (hasMarkerCost_read g p d Hd)|exact (hasShapeCost_read g p d Hd)].
Qed.
Print Assumptions C12_queries_read_attributes.
Theorem C12_words_stay_64bit g o : words_ok g -> words_ok (gstep g o).
Proof. exact (gstep_words g o). Qed.
Print Assumptions C12_words_stay_64bit.
Theorem C12_backpointers_and_flags g p q d :
  valid g p -> valid g q ->
  getPrevDir (setPrevDir g p d) q = (if midx_eq_dec q p then d else getPrevDir g q) /\
  isSrc (setSrc g p) q = (if midx_eq_dec q p then true else isSrc g q) /\
  isSrc (resetSrc g p) q = (if midx_eq_dec q p then false else isSrc g q) /\
  isDst (setDst g p) q = (if midx_eq_dec q p then true else isDst g q) /\
  isDst (resetDst g p) q = (if midx_eq_dec q p then false else isDst g q).
Proof.
  intros Hp Hq. split; [exact (getPrevDir_set g p q d Hp Hq)|].
  repeat split; exact (flag_set g p q _ _ Hp Hq).
Qed.
Print Assumptions C12_backpointers_and_flags.

(* C13 *)
Theorem C13_same_from_both_ends g p d :
  d <> DUnk ->
  hasEdge g (step p d) (opp d) = hasEdge g p d /\
  isBlocked g (step p d) (opp d) = isBlocked g p d /\
  hasGridCost g (step p d) (opp d) = hasGridCost g p d.
Proof. exact (fun H => conj (hasEdge_sym g p d H) (conj (isBlocked_sym g p d H) (hasGridCost_sym g p d H))). Qed.
Print Assumptions C13_same_from_both_ends.
Theorem C13_via_costs_same_from_both_ends g p d :
  d = DU \/ d = DD ->
  hasDRCCost g (step p d) (opp d) = hasDRCCost g p d /\
  hasMarkerCost g (step p d) (opp d) = hasMarkerCost g p d /\
  hasShapeCost g (step p d) (opp d) = hasShapeCost g p d.
Proof.
  intros H. apply via_costs_sym; destruct H as [-> | ->]; (reflexivity || discriminate).
Qed.
Print Assumptions C13_via_costs_same_from_both_ends.
(* adding an edge succeeds exactly when it is allowed, and is then visible from both ends;
   removing it from either end removes it *)
Theorem C13_add_remove_visible g p d b i :
  d <> DUnk ->
  (snd (addEdge g p d b i) = true <-> edge_allowed g p d b i) /\
  (edge_allowed g p d b i ->
     let g1 := gstep g (AddEdge p d b i) in
     hasEdge g1 p d = true /\ hasEdge g1 (step p d) (opp d) = true /\
     let g2 := gstep g1 (RemoveEdge (step p d) (opp d)) in
     hasEdge g2 p d = false /\ hasEdge g2 (step p d) (opp d) = false).
Proof.
  intros Hd. split; [exact (addEdge_result g p d b i Hd)|]. intros Ha.
  assert (Ho : opp d <> DUnk) by (destruct d; cbn; congruence).
  pose proof (gstep_ok g (AddEdge p d b i) I) as ([S _] & A & _). cbn zeta.
  set (g1 := gstep g (AddEdge p d b i)) in *.
  assert (He : hasEdge g1 p d = true).
  { rewrite hasEdge_read by assumption. apply andb_true_iff. split.
    - apply isValid_iff, (valid_shape g g1 _ S). apply edge_owner_valid; apply Ha.
    - pose proof (A (conj Hd Ha)) as E. cbn [op_attr op_point op_value] in E. rewrite E. reflexivity. }
  split; [exact He|]. split; [rewrite hasEdge_sym; assumption|].
  pose proof (gstep_ok g1 (RemoveEdge (step p d) (opp d)) I) as ([S2 _] & A2 & _).
  set (g2 := gstep g1 _) in *.
  assert (He2 : hasEdge g2 p d = false).
  { rewrite hasEdge_read by assumption. apply andb_false_iff. right.
    cbn [op_attr op_point op_value op_enabled] in A2.
    rewrite owner_step, by_dir_opp, step_step in A2 by assumption.
    rewrite A2; [reflexivity|]. split; [assumption|].
    split; apply (valid_shape g g1 _ S); apply Ha. }
  split; [exact He2|]. rewrite hasEdge_sym; assumption.
Qed.
Print Assumptions C13_add_remove_visible.
(* after any history an edge never leaves the grid *)
Theorem C13_edges_stay_inside g ops :
  Forall (op_safe g) ops -> edges_inside g -> edges_inside (grun g ops).
Proof. exact (grun_edges_inside ops g). Qed.
Print Assumptions C13_edges_stay_inside.

(* C14: contributions S added and later taken back, in any interleaving with other contributions,
   leave every attribute of every point as the other contributions alone would *)
Theorem C14_ripup_restores g S others ops q a :
  Permutation ops (S ++ map undo S ++ others) ->
  Forall (fun o => cost_op o /\ valid g (op_point o)) ops ->
  no_limit g ops -> no_limit g others -> valid g q ->
  read (grun g ops) q a = read (grun g others) q a.
Proof.
  intros HP HF HN HN' Hq.
  assert (HF' : Forall (fun o => cost_op o /\ valid g (op_point o)) others).
  { apply Forall_forall. intros o Ho. rewrite Forall_forall in HF. apply HF.
    apply (Permutation_in _ (Permutation_sym HP)). apply in_or_app; right. apply in_or_app; right. assumption. }
  rewrite (no_limit_net ops g q a Hq HF HN), (no_limit_net others g q a Hq HF' HN').
  rewrite (net_perm _ _ _ _ HP), !net_app, net_undo. lia.
Qed.
Print Assumptions C14_ripup_restores.
(* at the limit adding and taking back does not restore the counter *)
Theorem C14_limit_refuted :
  exists g p, valid g p /\ words_ok g /\
    read (grun g [AddDRCPlanar p; SubDRCPlanar p]) p ADrcX <> read g p ADrcX.
Proof.
  exists (mkGG [0] [0] [2] [true] (fun _ => 255 * 2 ^ 16) (fun _ => false) (fun _ => false) (fun _ => false) (fun _ => false)),
         (mkMI 0 0 0).
  split; [unfold valid, on_grid; cbn; lia|]. split; [intros i; cbn; lia|]. vm_compute. discriminate.
Qed.
Print Assumptions C14_limit_refuted.

(* C15 *)
Definition empty_grid : gg := mkGG [0; 100] [0; 100] [2] [true] (fun _ => 0) (fun _ => false)
  (fun _ => false) (fun _ => false) (fun _ => false).
Theorem C15_counter_wraps_refuted :
  let p := mkMI 1 0 0 in
  valid empty_grid p /\
  read (grun empty_grid (repeat (AddDRCPlanar p) 255)) p ADrcX = 255 /\
  read (grun empty_grid (repeat (AddDRCPlanar p) 256)) p ADrcX = 0 /\
  read (grun empty_grid (repeat (AddMarkerPlanar p) 25)) p AMarkX = 250 /\
  read (grun empty_grid (repeat (AddMarkerPlanar p) 26)) p AMarkX = 0.
Proof. split; [unfold valid, on_grid; cbn; lia|]. vm_compute. repeat split. Qed.
Print Assumptions C15_counter_wraps_refuted.
(* below the limit the counter grows by exactly the increment *)
Theorem C15_counter_exact_below_limit_partial g o k :
  op_safe g o -> op_enabled g o ->
  (forall v, op_value o v = Z.min (v + k) 256 mod 256) ->
  0 <= k -> 0 <= read g (op_point o) (op_attr o) -> read g (op_point o) (op_attr o) + k < 256 ->
  read (gstep g o) (op_point o) (op_attr o) = read g (op_point o) (op_attr o) + k.
Proof.
  intros Hs He Hv Hk H0 H1. destruct (gstep_ok g o Hs) as (_ & A & _). rewrite A, Hv by assumption.
  rewrite Z.min_l by lia. apply Z.mod_small. lia.
Qed.
Print Assumptions C15_counter_exact_below_limit_partial.

(* C16 *)
Theorem C16_index_of_coordinate g p :
  grid_sorted g -> valid g p -> getMazeIdx g (getPoint g p) (getLayerNum g (mz p)) = p.
Proof.
  intros (Sx & Sy & Sz) (Vx & Vy & Vz). unfold getMazeIdx, getPoint, getLayerNum. cbn [px py].
  rewrite !lb_of_nat_nth by assumption. destruct p; reflexivity.
Qed.
Print Assumptions C16_index_of_coordinate.
Theorem C16_coordinate_of_index g pt l :
  grid_sorted g -> In (px pt) (gxs g) -> In (py pt) (gys g) -> In l (gzs g) ->
  let p := getMazeIdx g pt l in
  valid g p /\ getPoint g p = pt /\ getLayerNum g (mz p) = l.
Proof.
  intros (Sx & Sy & Sz) Hx Hy Hl. cbn zeta. unfold getMazeIdx, getPoint, getLayerNum, valid, on_grid. cbn [mx my mz].
  rewrite !Nat2Z.id, !nth_lb by assumption.
  pose proof (lb_lt _ _ Hx Sx). pose proof (lb_lt _ _ Hy Sy). pose proof (lb_lt _ _ Hl Sz).
  unfold nx, ny, nz. destruct pt. split; [lia|auto].
Qed.
Print Assumptions C16_coordinate_of_index.
Theorem C16_membership g pt l :
  grid_sorted g ->
  (hasMazeIdx g pt l = true <-> In (px pt) (gxs g) /\ In (py pt) (gys g) /\ In l (gzs g)).
Proof.
  intros (Sx & Sy & Sz). unfold hasMazeIdx. rewrite !andb_true_iff, !bin_search_iff by assumption. tauto.
Qed.
Print Assumptions C16_membership.
Theorem C16_index_box_exact g b p :
  grid_sorted g -> valid g p ->
  let '(x1, y1, x2, y2) := getIdxBox g b in
  (x1 <= mx p <= x2 /\ y1 <= my p <= y2 <-> in_box (getPoint g p) b).
Proof.
  intros (Sx & Sy & Sz) (Vx & Vy & Vz). unfold getIdxBox, in_box, getPoint. cbn [px py].
  pose proof (idx_interval (gxs g) (bleft b) (bright b) (mx p) Sx Vx) as Ix.
  pose proof (idx_interval (gys g) (bbottom b) (btop b) (my p) Sy Vy) as Iy.
  unfold bleft, bright, bbottom, btop in *. tauto.
Qed.
Print Assumptions C16_index_box_exact.

(* C41 *)
Theorem C41_guides_mark_exactly g gs p :
  grid_sorted g -> valid g p -> (forall gd, In gd gs -> In (snd gd) (gzs g)) ->
  (forall i, gguide g i = false) ->
  (gguide (guide_helper g gs true) (getIdx g p) = true <-> Exists (covered g p) gs).
Proof.
  intros Hs Hv Hl H0. rewrite (guide_helper_spec gs g true p Hs Hv Hl). rewrite H0. split; [|auto].
  intros [H|H]; [assumption|discriminate].
Qed.
Print Assumptions C41_guides_mark_exactly.
Theorem C41_guides_cleared g gs p :
  grid_sorted g -> valid g p -> (forall gd, In gd gs -> In (snd gd) (gzs g)) ->
  (forall i, gguide g i = false) ->
  gguide (guide_helper (guide_helper g gs true) gs false) (getIdx g p) = false.
Proof.
  intros Hs Hv Hl H0. set (g1 := guide_helper g gs true).
  destruct (guide_helper_shape gs g true) as (S & _). fold g1 in S. assert (S0 := S). destruct S0 as (Sa & Sb & Sc & Sd).
  rewrite (getIdx_shape g g1 p S). apply guide_helper_spec.
  - unfold grid_sorted in *. rewrite <- Sa, <- Sb, <- Sc. assumption.
  - apply (valid_shape g g1 p S). assumption.
  - intros gd Hin. rewrite <- Sc. auto.
  - rewrite <- (getIdx_shape g g1 p S).
    destruct (gguide g1 (getIdx g p)) eqn:E; [|right; reflexivity]. left.
    apply (guide_helper_spec gs g true p Hs Hv Hl) in E. destruct E as [E|E]; [|rewrite H0 in E; discriminate].
    rewrite Exists_exists in *. destruct E as (gd & Hin & C). exists gd. split; [assumption|].
    apply (covered_shape g g1 p gd S). assumption.
Qed.
Print Assumptions C41_guides_cleared.
Theorem C41_guides_touch_nothing_else g gs v :
  same_shape g (guide_helper g gs v) /\ gbits (guide_helper g gs v) = gbits g /\
  gsrc (guide_helper g gs v) = gsrc g /\ gdst (guide_helper g gs v) = gdst g /\
  gprev (guide_helper g gs v) = gprev g.
Proof. exact (guide_helper_shape gs g v). Qed.
Print Assumptions C41_guides_touch_nothing_else.

(* non-trivial instances *)
Definition demo_grid : gg := mkGG [0; 100; 250] [10; 20] [2; 4] [true; false] (fun _ => 0) (fun _ => false)
  (fun _ => false) (fun _ => false) (fun _ => false).
Example demo_sorted : grid_sorted demo_grid.
Proof.
  unfold grid_sorted, sorted_lt; cbn; repeat split; intros [|[|[|i]]] [|[|[|j]]] A B; cbn in *; lia.
Qed.
Example demo_edges_inside : edges_inside demo_grid.
Proof.
  intros p d Hd H. rewrite hasEdge_read in H by assumption.
  apply andb_true_iff in H as [_ H]. exfalso. revert H. unfold read, demo_grid; cbn [gbits].
  rewrite Z.div_0_l by (destruct d; cbn; lia). rewrite Z.mod_0_l by (destruct d; cbn; lia). discriminate.
Qed.
Example demo_history :
  let p := mkMI 2 1 1 in let b := mkBox (mkPt 0 0) (mkPt 300 300) in
  edge_allowed demo_grid p DW b true /\
  hasEdge (grun demo_grid [AddEdge p DW b true; AddDRCPlanar p; AddShapeVia p]) (mkMI 1 1 1) DE = true /\
  read (grun demo_grid [AddEdge p DW b true; AddDRCPlanar p; AddShapeVia p]) p ADrcX = 1.
Proof. cbn zeta. split; [vm_compute; repeat split; try discriminate; intros [H _]; discriminate|]. vm_compute. auto. Qed.
Example demo_ripup :
  let p := mkMI 2 1 1 in let q := mkMI 0 0 0 in
  let S := [AddDRCPlanar p; AddShapeVia q] in let others := [AddDRCPlanar p; AddDRCVia q] in
  let ops := [AddDRCPlanar p; AddDRCPlanar p; AddDRCVia q; SubDRCPlanar p; AddShapeVia q; SubShapeVia q] in
  Permutation ops (S ++ map undo S ++ others) /\
  no_limit demo_grid ops /\ no_limit demo_grid others.
Proof.
  cbn zeta. split.
  - cbn. apply perm_skip.
    apply (Permutation_trans (l' := [AddDRCVia (mkMI 0 0 0); AddDRCPlanar (mkMI 2 1 1); SubDRCPlanar (mkMI 2 1 1); AddShapeVia (mkMI 0 0 0); SubShapeVia (mkMI 0 0 0)]));
      [apply perm_swap|].
    apply Permutation_sym. apply (Permutation_cons_app [AddDRCVia (mkMI 0 0 0); AddDRCPlanar (mkMI 2 1 1); SubDRCPlanar (mkMI 2 1 1)]). cbn.
    apply (Permutation_cons_app [AddDRCVia (mkMI 0 0 0); AddDRCPlanar (mkMI 2 1 1)]). cbn.
    apply (Permutation_cons_app [AddDRCVia (mkMI 0 0 0); AddDRCPlanar (mkMI 2 1 1)] []). cbn. apply perm_swap.
  - vm_compute. repeat split; intros; discriminate.
Qed.
Example demo_guides :
  let gs := [(mkBox (mkPt 50 0) (mkPt 260 15), 2); (mkBox (mkPt 0 0) (mkPt 0 20), 4)] in
  map (fun p => gguide (guide_helper demo_grid gs true) (getIdx demo_grid p))
      [mkMI 0 0 0; mkMI 1 0 0; mkMI 2 0 0; mkMI 2 1 0; mkMI 0 1 1; mkMI 1 1 1] = [false; true; true; false; true; false].
Proof. vm_compute. reflexivity. Qed.
