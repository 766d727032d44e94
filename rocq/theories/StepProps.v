(* The shape checks of the checker: narrow metal (C108), short steps (C109), wire ends between short steps
   (C111), metal that is not a rectangle (C112), metal off the manufacturing grid (C113), small holes (C114);
   and that nothing else is reported (C110). *)
From Coq Require Import Arith.
From Verif Require Import Base Stl GeomModel GcModel GcSpec GcProofs GcProofs2 GcProofs3 CutModel CutProofs2 EolModel EolSpec EolProofs
  EolProofs3 EolProofs4 StepModel StepSpec StepProofs StepProofs2 StepProofs3 StepProofs4 StepProofs5.

Lemma found_reported V ps ms P m : (forall P, In P ps -> good_poly P) -> 0 < sv_mgrid V -> In P ps -> shape_found V P m ->
  reports (check_shapes V ps ms) m /\ incl ms (check_shapes V ps ms).
Proof. intros GP G I F. destruct (check_shapes_grows V ps ms GP G) as (A & B & _). split; [|exact A]. apply B. exists P. auto. Qed.

(* ================================================================ C108 *)
(* routed metal narrower than the minimum width, in either direction, lies in a reported rectangle *)
Theorem C108_thin_metal_reported V ps ms P x y :
  (forall P, In P ps -> good_poly P) -> 0 < sv_mgrid V -> In P ps ->
  thin P (sv_minwidth V) x y -> ~ fixed_at V P x y ->
  exists b, square_in x y b /\ reports (check_shapes V ps ms) (report_on V P (sv_width_id V) b) /\ incl ms (check_shapes V ps ms).
Proof.
  intros GP G I T NF. destruct (GP P I) as (CH & CV & _ & _ & _).
  destruct T as [(l & r & Hx & W & M & N1 & N2)|(l & r & Hx & W & M & N1 & N2)].
  - destruct (proj1 (CH x y) (M x Hx)) as (b & Ib & S). exists b. split; [exact S|].
    apply found_reported with (P := P); auto. left. exists b. split; [exact Ib|].
    split; [|split; [exists x, y; auto|reflexivity]].
    assert (A : forall x', bleft b <= x' < bright b -> metal_at P x' y).
    { intros x' H. apply CH. exists b. split; [exact Ib|]. unfold square_in in *. lia. }
    unfold square_in in S. destruct (Z.le_gt_cases l (bleft b)); [|exfalso; apply N1, A; lia].
    destruct (Z.le_gt_cases (bright b) r); [lia|]. exfalso. apply N2, A. lia.
  - destruct (proj1 (CV x y) (M y Hx)) as (b & Ib & S). exists b. split; [exact S|].
    apply found_reported with (P := P); auto. right. left. exists b. split; [exact Ib|].
    split; [|split; [exists x, y; auto|reflexivity]].
    assert (A : forall y', bbottom b <= y' < btop b -> metal_at P x y').
    { intros y' H. apply CV. exists b. split; [exact Ib|]. unfold square_in in *. lia. }
    unfold square_in in S. destruct (Z.le_gt_cases l (bbottom b)); [|exfalso; apply N1, A; lia].
    destruct (Z.le_gt_cases (btop b) r); [lia|]. exfalso. apply N2, A. lia.
Qed.
Print Assumptions C108_thin_metal_reported.

(* ================================================================ C109 *)
(* MINSTEP mt_len MAXEDGES K, the last MINSTEP statement of the layer: more than K short edges in a row *)
Lemma layer_step_last stmts s : layer_step (stmts ++ [s]) = Some (lef_step s).
Proof. unfold layer_step. rewrite fold_left_app. reflexivity. Qed.

(* the whole row between two long edges: the report is the smallest box around its corners *)
Theorem C109_row_reported V ps ms P stmts s K c i k b :
  (forall P, In P ps -> good_poly P) -> 0 < sv_mgrid V -> In P ps ->
  sv_step V = layer_step (stmts ++ [s]) -> mt_edges s = Some K -> 0 <= K ->
  In c (s_outlines P) -> whole_row (mt_len s) c i k -> K < Z.of_nat k -> row_routed c i k ->
  hull (row_corners c i k) b ->
  reports (check_shapes V ps ms) (report_on V P (mt_id s) b) /\ incl ms (check_shapes V ps ms).
Proof.
  intros GP G I R ME K0 Ic W Kk Rt H. rewrite layer_step_last in R. unfold lef_step in R. rewrite ME in R.
  apply found_reported with (P := P); auto. right. right. left. eexists _, c. split; [exact R|]. split; [exact Ic|].
  exists i, k. cbn [ms_len ms_id]. split; [exact W|]. split; [lia|]. split; [exact Rt|]. split; [split; [reflexivity|right; cbn [ms_maxedges]; lia]|].
  unfold row_marker, shape_marker, report_on. f_equal. eapply hull_unique; [exact H|]. apply hull_extents. discriminate.
Qed.
Print Assumptions C109_row_reported.

(* any K + 1 or more short edges in a row, on an outline with two long edges, are inside a reported box *)
Theorem C109_short_steps_reported V ps ms P stmts s K c i k :
  (forall P, In P ps -> good_poly P) -> 0 < sv_mgrid V -> In P ps ->
  sv_step V = layer_step (stmts ++ [s]) -> mt_edges s = Some K -> 0 <= K ->
  In c (s_outlines P) -> two_long (mt_len s) c -> short_row (mt_len s) c i k -> K < Z.of_nat k -> row_routed c i k ->
  exists b, reports (check_shapes V ps ms) (report_on V P (mt_id s) b) /\ incl ms (check_shapes V ps ms) /\
    forall j, (j <= k)%nat -> inside (o_high (edge_at c (i + j))) b.
Proof.
  intros GP G I R ME K0 Ic TL SR Kk Rt. destruct (extend_row (mt_len s) c i k TL SR) as (i' & k' & d & W & Kk' & Dk & At).
  assert (H : hull (row_corners c i' k') (extents (row_corners c i' k'))) by (apply hull_extents; discriminate).
  exists (extents (row_corners c i' k')).
  assert (Rt' : row_routed c i' k').
  { destruct Rt as (j & Hj & F). exists (d + j)%nat. split; [lia|]. rewrite Nat.add_assoc, <- At. exact F. }
  assert (Kk2 : K < Z.of_nat k') by lia.
  destruct (C109_row_reported V ps ms P stmts s K c i' k' _ GP G I R ME K0 Ic W Kk2 Rt' H) as [A B].
  split; [exact A|]. split; [exact B|]. intros j Hj. apply (proj1 H). unfold row_corners. apply in_map_iff.
    exists (d + j)%nat. split; [rewrite At, Nat.add_assoc; reflexivity|]. apply in_seq. lia.
Qed.
Print Assumptions C109_short_steps_reported.

(* statements without MAXEDGES (INSIDECORNER, OUTSIDECORNER, STEP, LENGTHSUM, or none of them) are never enforced *)
Theorem C109_other_types_refuted V P stmts s ms :
  good_poly P -> sv_step V = layer_step (stmts ++ [s]) -> mt_edges s = None -> forall m, In m (check_step V P ms) -> In m ms.
Proof.
  intros GP R ME m I. destruct (check_step_grows V P ms GP) as (_ & _ & A). destruct (A m I) as [H|(con & c & E & _ & i & k & _ & _ & _ & (T & _) & _)]; [exact H|].
  exfalso. rewrite layer_step_last in R. unfold lef_step in R. rewrite ME in R. rewrite R in E. injection E as <-. discriminate T.
Qed.
Print Assumptions C109_other_types_refuted.

(* ================================================================ C111 *)
(* LEF58_MINSTEP with NOBETWEENEOL: the end of a wire between two short edges *)
Theorem C111_end_between_steps_reported V ps ms P r c i b :
  (forall P, In P ps -> good_poly P) -> 0 < sv_mgrid V -> In P ps ->
  In r (sv_step58 V) -> s8_eol r <> -1 -> In c (s_outlines P) -> c <> [] -> eol_between r c i -> hull (end_corners c i) b ->
  reports (check_shapes V ps ms) (report_on V P (s8_id r) b) /\ incl ms (check_shapes V ps ms).
Proof.
  intros GP G I Ir N Ic Nc E H. apply found_reported with (P := P); auto. right. right. right. left. exists r, c, i.
  repeat (split; [assumption|]). f_equal. eapply hull_unique; [exact H|apply hull_extents; discriminate].
Qed.
Print Assumptions C111_end_between_steps_reported.

(* ================================================================ C112 *)
Lemma window_pts e a b c d x y : window e a b c d x y <->
  (a <= along e (mkPt x y) <= b /\ c <= ahead e (mkPt x y) <= d) /\ (a <= along e (mkPt (x + 1) (y + 1)) <= b /\ c <= ahead e (mkPt (x + 1) (y + 1)) <= d).
Proof. unfold window. split; [intros H; split; apply H; auto|]. intros [A B] p [-> | ->]; assumption. Qed.
Lemma concave_not_rect P c i : good_poly P -> In c (s_outlines P) -> c <> [] -> concave c i ->
  forall b, ~ (forall x y, metal_at P x y <-> square_in x y b).
Proof.
  intros GP Ic Nc Cv b Hb. destruct (proj1 (proj2 (proj2 (proj2 (proj2 (proj2 (proj2 GP)))))) c Ic) as [CO Sd].
  set (e := edge_at c i) in *. set (n := edge_at c (i + 1)) in *. assert (Ie : In e c) by (apply edge_at_in, Nc). assert (In_ : In n c) by (apply edge_at_in, Nc).
  pose proof (edge_at_meets c i CO Nc : o_high e = o_low n) as M. pose proof (proj1 CO e Ie) as Se. pose proof (proj1 CO n In_) as Sn.
  unfold concave in Cv. fold e n in Cv.
  assert (B1 : forall x y, behind e x y -> square_in x y b) by (intros x y H; apply Hb, (Sd e x y Ie), H).
  assert (B2 : forall x y, behind n x y -> square_in x y b) by (intros x y H; apply Hb, (Sd n x y In_), H).
  assert (B3 : forall x y, window e 0 (len e) 0 1 x y -> ~ square_in x y b) by (intros x y H K; apply Hb in K; exact (proj2 (Sd e x y Ie) H K)).
  clear - M Se Sn Cv B1 B2 B3. unfold behind in *. unfold ahead in Cv.
  destruct e as [n1 [x1 y1] [x2 y2] f1], n as [n2 [x3 y3] [x4 y4] f2]. unfold straight in *. cbn [o_low o_high px py] in *. injection M as <- <-.
  assert (W1 : forall x y a b c d, window (mkOE n1 (mkPt x1 y1) (mkPt x2 y2) f1) a b c d x y <->
     (let s := Z.sgn (x2 - x1) in let t := Z.sgn (y2 - y1) in
      (a <= s * (x - x1) + t * (y - y1) <= b /\ c <= t * (x - x1) - s * (y - y1) <= d) /\
      (a <= s * (x + 1 - x1) + t * (y + 1 - y1) <= b /\ c <= t * (x + 1 - x1) - s * (y + 1 - y1) <= d))) by (intros; apply window_pts).
  assert (W2 : forall x y a b c d, window (mkOE n2 (mkPt x2 y2) (mkPt x4 y4) f2) a b c d x y <->
     (let s := Z.sgn (x4 - x2) in let t := Z.sgn (y4 - y2) in
      (a <= s * (x - x2) + t * (y - y2) <= b /\ c <= t * (x - x2) - s * (y - y2) <= d) /\
      (a <= s * (x + 1 - x2) + t * (y + 1 - y2) <= b /\ c <= t * (x + 1 - x2) - s * (y + 1 - y2) <= d))) by (intros; apply window_pts).
  unfold len, along in B1, B2, B3. cbn [o_low o_high px py] in *.
  setoid_rewrite W1 in B1. setoid_rewrite W1 in B3. setoid_rewrite W2 in B2. clear W1 W2. cbv zeta in *. unfold square_in in *.
  assert (Z0 : forall a b, a = b -> Z.sgn (b - a) = 0) by (intros a b' ->; rewrite Z.sub_diag; reflexivity).
  assert (Zp : forall a b, a < b -> Z.sgn (b - a) = 1) by (intros; apply Z.sgn_pos; lia).
  assert (Zn : forall a b, b < a -> Z.sgn (b - a) = -1) by (intros; apply Z.sgn_neg; lia).
  destruct Se as [[E1 D1]|[D1 E1]]; destruct Sn as [[E2 D2]|[D2 E2]].
  - rewrite (Z0 x1 x2 E1) in *. lia.
  - rewrite (Z0 x1 x2 E1), (Z0 y2 y4 E2) in *.
    destruct (Z.lt_total y1 y2) as [Y|[Y|Y]]; [|lia|].
    + rewrite (Zp y1 y2 Y) in *. assert (X : x2 < x4) by lia. rewrite (Zp x2 x4 X) in *.
      specialize (B1 (x2 - 1) (y2 - 1) ltac:(lia)). specialize (B2 x2 y2 ltac:(lia)). specialize (B3 x2 (y2 - 1) ltac:(lia)). lia.
    + rewrite (Zn y1 y2 Y) in *. assert (X : x4 < x2) by lia. rewrite (Zn x2 x4 X) in *.
      specialize (B1 x2 y2 ltac:(lia)). specialize (B2 (x2 - 1) (y2 - 1) ltac:(lia)). specialize (B3 (x2 - 1) y2 ltac:(lia)). lia.
  - rewrite (Z0 y1 y2 E1), (Z0 x2 x4 E2) in *.
    destruct (Z.lt_total x1 x2) as [X|[X|X]]; [|lia|].
    + rewrite (Zp x1 x2 X) in *. assert (Y : y4 < y2) by lia. rewrite (Zn y2 y4 Y) in *.
      specialize (B1 (x2 - 1) y2 ltac:(lia)). specialize (B2 x2 (y2 - 1) ltac:(lia)). specialize (B3 (x2 - 1) (y2 - 1) ltac:(lia)). lia.
    + rewrite (Zn x1 x2 X) in *. assert (Y : y2 < y4) by lia. rewrite (Zp y2 y4 Y) in *.
      specialize (B1 x2 (y2 - 1) ltac:(lia)). specialize (B2 (x2 - 1) y2 ltac:(lia)). specialize (B3 x2 y2 ltac:(lia)). lia.
  - rewrite (Z0 y1 y2 E1) in *. lia.
Qed.
(* around every inner corner with routed metal, all metal of the polygon is in reported rectangles *)
Theorem C112_inner_corner_reported V ps ms P con c i x y :
  (forall P, In P ps -> good_poly P) -> 0 < sv_mgrid V -> In P ps ->
  sv_rectonly V = Some con -> In c (s_outlines P) -> c <> [] -> concave c i ->
  let w := around (o_high (edge_at c i)) (sv_minwidth V) in
  (exists x' y', square_in x' y' w /\ metal_at P x' y' /\ ~ fixed_at V P x' y') ->
  square_in x y w -> metal_at P x y ->
  exists b, square_in x y b /\ reports (check_shapes V ps ms) (report_on V P con b) /\ incl ms (check_shapes V ps ms).
Proof.
  intros GP G I R Ic Nc Cv w F Sw M. pose proof (GP P I) as (_ & _ & CM & CW & _).
  destruct (proj1 (CW w x y) (conj M Sw)) as (b & Ib & S). exists b. split; [exact S|].
  apply found_reported with (P := P); auto. do 4 right. left. exists con, c, i, b. fold w.
  split; [exact R|]. split; [|split; [exact Ic|split; [exact Nc|split; [exact Cv|split; [exact F|split; [exact Ib|reflexivity]]]]]].
  intros L. destruct (s_maxrects P) as [|b0 [|? ?]] eqn:E; try discriminate L.
  apply (concave_not_rect P c i (GP P I) Ic Nc Cv b0). intros x' y'. rewrite (CM x' y'). split.
  - intros (b' & [<- |[]] & H). exact H.
  - intros H. exists b0. split; [left; reflexivity|exact H].
Qed.
Print Assumptions C112_inner_corner_reported.

(* ================================================================ C113 *)
(* routed metal at an edge that is not on the manufacturing grid is in a reported rectangle *)
Theorem C113_off_grid_reported V ps ms P c e x y :
  (forall P, In P ps -> good_poly P) -> 0 < sv_mgrid V -> In P ps ->
  In c (s_outlines P) -> In e c -> off_grid_edge (sv_mgrid V) e -> behind e x y -> routed_at V P x y ->
  exists b, square_in x y b /\ reports (check_shapes V ps ms) (report_on V P (sv_grid_id V) b) /\ incl ms (check_shapes V ps ms).
Proof.
  intros GP G I Ic Ie O B R. pose proof (GP P I) as (_ & _ & CM & _ & _ & _ & CO & _). destruct (CO c Ic) as [[St _] Sd].
  destruct (Sd e x y Ie) as [M _]. destruct (proj1 (CM x y) (M B)) as (b & Ib & S). exists b. split; [exact S|].
  apply found_reported with (P := P); auto. do 5 right. left. exists b. split; [exact Ib|].
  split; [|split; [exists x, y; auto|reflexivity]].
  intros (G1 & G2 & G3 & G4). pose proof (St e Ie) as Se.
  assert (Fr : forall x' y', square_in x' y' b -> ~ window e 0 (len e) 0 1 x' y').
  { intros x' y' S' W. apply (proj2 (Sd e x' y' Ie) W). apply CM. eauto. }
  clear - O B S G1 G2 G3 G4 Se Fr. unfold behind in B. rewrite window_pts in B.
  assert (Fr' : forall x' y', square_in x' y' b -> ~ ((0 <= along e (mkPt x' y') <= len e /\ 0 <= ahead e (mkPt x' y') <= 1) /\
     (0 <= along e (mkPt (x' + 1) (y' + 1)) <= len e /\ 0 <= ahead e (mkPt (x' + 1) (y' + 1)) <= 1))).
  { intros x' y' S' H. apply (Fr x' y' S'). apply window_pts. exact H. }
  clear Fr. unfold len in *. destruct e as [n1 [x1 y1] [x2 y2] f1]. unfold along, ahead, straight, off_grid_edge, square_in in *. cbn [o_low o_high px py] in *.
  assert (Z0 : forall a b, a = b -> Z.sgn (b - a) = 0) by (intros a b' ->; rewrite Z.sub_diag; reflexivity).
  assert (Zp : forall a b, a < b -> Z.sgn (b - a) = 1) by (intros; apply Z.sgn_pos; lia).
  assert (Zn : forall a b, b < a -> Z.sgn (b - a) = -1) by (intros; apply Z.sgn_neg; lia).
  destruct Se as [[E1 D1]|[D1 E1]].
  - rewrite (Z0 x1 x2 E1) in *. destruct O as [[_ O]|[O _]]; [|lia]. destruct (Z.lt_total y1 y2) as [Y|[Y|Y]]; [|lia|].
    + rewrite (Zp y1 y2 Y) in *. destruct (Z.eq_dec (bright b) x1) as [E|E]; [rewrite E in G2; contradiction|]. apply (Fr' x2 y); lia.
    + rewrite (Zn y1 y2 Y) in *. destruct (Z.eq_dec (bleft b) x1) as [E|E]; [rewrite E in G1; contradiction|]. apply (Fr' (x2 - 1) y); lia.
  - rewrite (Z0 y1 y2 E1) in *. destruct O as [[O _]|[_ O]]; [lia|]. destruct (Z.lt_total x1 x2) as [X|[X|X]]; [|lia|].
    + rewrite (Zp x1 x2 X) in *. destruct (Z.eq_dec (bbottom b) y1) as [E|E]; [rewrite E in G3; contradiction|]. apply (Fr' x (y2 - 1)); lia.
    + rewrite (Zn x1 x2 X) in *. destruct (Z.eq_dec (btop b) y1) as [E|E]; [rewrite E in G4; contradiction|]. apply (Fr' x y2); lia.
Qed.
Print Assumptions C113_off_grid_reported.

(* ================================================================ C114 *)
(* a hole that encloses less area than a MINENCLOSEDAREA rule asks for, in a polygon with routed metal *)
Theorem C114_small_hole_reported V ps ms P h con area n b :
  (forall P, In P ps -> good_poly P) -> 0 < sv_mgrid V -> In P ps ->
  In h (s_holes P) -> In (con, area) (sv_holes V) -> encloses h n -> n < area ->
  (exists x y, metal_at P x y /\ routed_at V P x y) -> h <> [] -> hull h b ->
  reports (check_shapes V ps ms) (report_on V P con b) /\ incl ms (check_shapes V ps ms).
Proof.
  intros GP G I Ih Ic E L R Nh H. pose proof (GP P I) as (_ & _ & _ & _ & _ & _ & _ & HP). destruct (HP h Ih) as [HR HS].
  apply found_reported with (P := P); auto. do 6 right. exists h, con, area. split; [exact Ih|]. split; [exact Ic|].
  split; [rewrite (hole_area h n HR HS E); exact L|]. split; [exact R|]. f_equal. eapply hull_unique; [exact H|apply hull_extents; exact Nh].
Qed.
Print Assumptions C114_small_hole_reported.

(* ================================================================ C110 *)
Lemma encloses_some h : h <> [] -> rectilinear h -> exists n, encloses h n.
Proof.
  intros N R. exists (Z.of_nat (length (filter (fun p => negb (winding h (fst p) (snd p) =? 0)) (cells (extents h))))).
  exists (filter (fun p => negb (winding h (fst p) (snd p) =? 0)) (cells (extents h))). split; [apply NoDup_filter, cells_NoDup|].
  split; [|reflexivity]. intros x y. rewrite filter_In. cbn [fst snd]. rewrite negb_true_iff, Z.eqb_neq. split; [tauto|].
  intros W. split; [|exact W]. apply cells_square. destruct h as [|p rest]; [contradiction|]. apply winding_inside; [apply rectilinear_chain, R|exact W].
Qed.
(* every report is about one polygon, and is metal or a place that breaks a rule *)
Theorem C110_shape_reports_real V ps ms stmts m :
  (forall P, In P ps -> good_poly P) -> 0 < sv_mgrid V ->
  sv_step V = layer_step stmts -> (forall s K, In s stmts -> mt_edges s = Some K -> 0 <= K) ->
  (forall P, In P ps -> ~ In [] (s_holes P)) ->
  In m (check_shapes V ps ms) -> In m ms \/
  exists P con b, In P ps /\ m = report_on V P con b /\
  ( (con = sv_width_id V /\ (forall x y, square_in x y b -> thin P (sv_minwidth V) x y) /\ exists x y, square_in x y b /\ ~ fixed_at V P x y)
  \/ (exists s K c i k, In s stmts /\ mt_edges s = Some K /\ con = mt_id s /\ In c (s_outlines P) /\
        whole_row (mt_len s) c i k /\ K < Z.of_nat k /\ row_routed c i k /\ hull (row_corners c i k) b)
  \/ (exists r c i, In r (sv_step58 V) /\ s8_eol r <> -1 /\ con = s8_id r /\ In c (s_outlines P) /\ eol_between r c i /\ hull (end_corners c i) b)
  \/ (exists c i, sv_rectonly V = Some con /\ In c (s_outlines P) /\ concave c i /\
        (forall x y, square_in x y b -> metal_at P x y /\ square_in x y (around (o_high (edge_at c i)) (sv_minwidth V))) /\
        exists x y, square_in x y (around (o_high (edge_at c i)) (sv_minwidth V)) /\ metal_at P x y /\ ~ fixed_at V P x y)
  \/ (con = sv_grid_id V /\ (forall x y, square_in x y b -> metal_at P x y) /\ (exists x y, square_in x y b /\ routed_at V P x y) /\
        ~ (on_grid (sv_mgrid V) (bleft b) /\ on_grid (sv_mgrid V) (bright b) /\ on_grid (sv_mgrid V) (bbottom b) /\ on_grid (sv_mgrid V) (btop b)))
  \/ (exists h n area, In h (s_holes P) /\ In (con, area) (sv_holes V) /\ encloses h n /\ n < area /\ hull h b /\
        exists x y, metal_at P x y /\ routed_at V P x y) ).
Proof.
  intros GP G R KK NH I. destruct (check_shapes_grows V ps ms GP G) as (_ & _ & A). destruct (A m I) as [H|(P & IP & F)]; [auto|]. right.
  pose proof (GP P IP) as (CH & CV & CM & CW & BH & BV & CO & HO).
  destruct F as [F|[F|[F|[F|[F|[F|F]]]]]].
  - destruct F as (r & Ir & W & E & ->). exists P, (sv_width_id V), r. split; [exact IP|]. split; [reflexivity|]. left.
    split; [reflexivity|]. split; [|exact E]. intros x y S. left. destruct (BH r Ir) as [NE B]. exists (bleft r), (bright r).
    unfold square_in in S. destruct (B y ltac:(lia)) as [N1 N2]. split; [lia|]. split; [exact W|]. split; [|split; assumption].
    intros x' H. apply CH. exists r. split; [exact Ir|unfold square_in; lia].
  - destruct F as (r & Ir & W & E & ->). exists P, (sv_width_id V), r. split; [exact IP|]. split; [reflexivity|]. left.
    split; [reflexivity|]. split; [|exact E]. intros x y S. right. destruct (BV r Ir) as [NE B]. exists (bbottom r), (btop r).
    unfold square_in in S. destruct (B x ltac:(lia)) as [N1 N2]. split; [lia|]. split; [exact W|]. split; [|split; assumption].
    intros x' H. apply CV. exists r. split; [exact Ir|unfold square_in; lia].
  - destruct F as (con & c & E & Ic & i & k & W & K1 & Rt & (T & Mx) & ->).
    destruct stmts as [|s stmts _] using rev_ind; [rewrite R in E; discriminate E|].
    rewrite R, layer_step_last in E. injection E as <-. exists P, (mt_id s), (extents (row_corners c i k)). split; [exact IP|].
    unfold lef_step in *. destruct (mt_edges s) as [K|] eqn:EK; [|discriminate T]. split; [reflexivity|]. right. left.
    exists s, K, c, i, k. cbn [ms_len ms_maxedges] in *. assert (Is : In s (stmts ++ [s])) by (rewrite in_app_iff; right; left; reflexivity).
    specialize (KK s K Is EK). split; [exact Is|]. split; [exact EK|]. split; [reflexivity|]. split; [exact Ic|]. split; [exact W|].
    split; [lia|]. split; [exact Rt|]. apply hull_extents. discriminate.
  - destruct F as (r & c & i & Ir & N & Ic & Nc & E & ->). exists P, (s8_id r), (extents (end_corners c i)). split; [exact IP|]. split; [reflexivity|].
    right. right. left. exists r, c, i. repeat (split; [assumption || reflexivity|]). apply hull_extents. discriminate.
  - destruct F as (con & c & i & b & E & _ & Ic & Nc & Cv & Ex & Ib & ->). exists P, con, b. split; [exact IP|]. split; [reflexivity|].
    do 3 right. left. exists c, i. repeat (split; [assumption|]). split; [|exact Ex]. intros x y S. apply (CW _ x y). eauto.
  - destruct F as (r & Ir & O & Ex & ->). exists P, (sv_grid_id V), r. split; [exact IP|]. split; [reflexivity|]. do 4 right. left.
    split; [reflexivity|]. split; [intros x y S; apply CM; eauto|]. split; [exact Ex|exact O].
  - destruct F as (h & con & area & Ih & Ic & L & Ex & ->). exists P, con, (extents h). split; [exact IP|]. split; [reflexivity|]. do 5 right.
    assert (Nh : h <> []) by (intros ->; exact (NH P IP Ih)). destruct (HO h Ih) as [HR HS]. destruct (encloses_some h Nh HR) as [n En].
    exists h, n, area. split; [exact Ih|]. split; [exact Ic|]. split; [exact En|]. split; [rewrite <- (hole_area h n HR HS En); exact L|].
    split; [apply hull_extents, Nh|exact Ex].
Qed.
Print Assumptions C110_shape_reports_real.

(* ================================================================ examples *)
Definition bx4 (a b c d : Z) : box := mkBox (mkPt a b) (mkPt c d).
Definition sqb (b : box) : bool := (bleft b <? bright b) && (bbottom b <? btop b).
(* a wire with a stub on top *)
Definition stub_pts := [mkPt 0 0; mkPt 100 0; mkPt 100 20; mkPt 50 20; mkPt 50 30; mkPt 40 30; mkPt 40 20; mkPt 0 20].
Definition stub : spoly :=
  mkSP 1 [bx4 0 0 100 20; bx4 40 20 50 30] [contour (fun _ _ => false) 1 stub_pts] []
    [bx4 0 0 100 20; bx4 40 20 50 30] [bx4 0 0 40 20; bx4 40 0 50 30; bx4 50 0 100 20] [bx4 0 0 100 20; bx4 40 0 50 30]
    (fun w => filter sqb (map (box_and w) [bx4 0 0 100 20; bx4 40 0 50 30])).
(* a ring *)
Definition ring_pts := [mkPt 10 10; mkPt 10 20; mkPt 20 20; mkPt 20 10].
Definition ring_max := [bx4 0 0 30 10; bx4 0 20 30 30; bx4 0 0 10 30; bx4 20 0 30 30].
Definition ring : spoly :=
  mkSP 2 ring_max [contour (fun _ _ => false) 2 (rect_points (bx4 0 0 30 30)); contour (fun _ _ => false) 2 ring_pts] [ring_pts]
    [bx4 0 0 30 10; bx4 0 20 30 30; bx4 0 10 10 20; bx4 20 10 30 20] [bx4 0 0 10 30; bx4 20 0 30 30; bx4 10 0 20 10; bx4 10 20 20 30]
    ring_max (fun w => filter sqb (map (box_and w) ring_max)).
(* minimum width 15, MINSTEP 15 MAXEDGES 2, NOBETWEENEOL 12, RECTONLY, grid 20, MINENCLOSEDAREA 200; no fixed metal *)
Definition demo_step := [mkMT 20 99 None None (Some 0); mkMT 22 15 None (Some 5) (Some 2)].
Definition demo_env : senv :=
  mkSV 4 15 21 (layer_step demo_step) [mkS8 23 15 12] (Some 24) 20 25 [(26, 200)] (fun _ => [])
    (fun n => if n =? 1 then s_metal stub else s_metal ring).

Lemma metal_clip l w x y : (exists b, In b (filter sqb (map (box_and w) l)) /\ square_in x y b) <-> ((exists b, In b l /\ square_in x y b) /\ square_in x y w).
Proof.
  split.
  - intros (b & I & S). apply filter_In in I as [I _]. apply in_map_iff in I as (a & <- & Ia).
    unfold square_in, box_and in *. destruct a as [[? ?] [? ?]], w as [[? ?] [? ?]]. cbn in *. split; [|lia].
    eexists. split; [exact Ia|cbn; lia].
  - intros ((a & Ia & S) & Sw). exists (box_and w a). split.
    + apply filter_In. split; [apply in_map; exact Ia|]. unfold sqb, square_in, box_and in *. destruct a as [[? ?] [? ?]], w as [[? ?] [? ?]]. cbn in *. lia.
    + unfold square_in, box_and in *. destruct a as [[? ?] [? ?]], w as [[? ?] [? ?]]. cbn in *. lia.
Qed.
Lemma in_boxes a l x y : (exists b, In b (a :: l) /\ square_in x y b) <-> square_in x y a \/ exists b, In b l /\ square_in x y b.
Proof.
  split; [intros (b & [<- |I] & S); [left; exact S|right; eauto]|]. intros [S|(b & I & S)]; [exists a|exists b]; cbn; auto.
Qed.
Lemma in_none x y : (exists b, In b (@nil box) /\ square_in x y b) <-> False.
Proof. split; [intros (b & [] & _)|tauto]. Qed.
Ltac sq := unfold metal_at; cbn [stub ring ring_max s_metal s_hslabs s_vslabs s_maxrects]; unfold ring_max; rewrite ?in_boxes, ?in_none; unfold square_in, bx4, bleft, bright, bbottom, btop; cbn [ll ur px py].
Ltac sgns := unfold len, along, ahead, mk_edge; cbn [o_low o_high px py];
  repeat match goal with |- context [Z.sgn ?z] => let v := eval vm_compute in (Z.sgn z) in change (Z.sgn z) with v end.
Ltac edges I := cbn [contour edges_from stub_pts ring_pts rect_points bx4 map] in I; repeat (destruct I as [<- |I]); [..|destruct I].
Lemma stub_good : good_poly stub.
Proof.
  unfold good_poly, covers. split; [intros x y; sq; lia|]. split; [intros x y; sq; lia|]. split; [intros x y; sq; lia|].
  split. { intros w x y. cbn [stub s_max_in]. rewrite metal_clip. sq. lia. }
  split. { intros b I. cbn in I. destruct I as [<- |[<- |[]]]; (split; [vm_compute; auto|]); intros y; sq; lia. }
  split. { intros b I. cbn in I. destruct I as [<- |[<- |[<- |[]]]]; (split; [vm_compute; auto|]); intros y; sq; lia. }
  split; [|intros h []]. intros c [<- |[]]. split.
  - apply contour_closed. intros i p q E1 E2. do 8 (destruct i as [|i]; [cbn in E1, E2; injection E1 as <-; injection E2 as <-; cbn; lia|]). destruct i; discriminate E1.
  - intros e x y I. unfold behind. rewrite !window_pts. edges I; sgns; sq; lia.
Qed.
Lemma ring_good : good_poly ring.
Proof.
  unfold good_poly, covers. split; [intros x y; sq; lia|]. split; [intros x y; sq; lia|]. split; [intros x y; sq; lia|].
  split. { intros w x y. cbn [ring s_max_in]. rewrite metal_clip. sq. lia. }
  split. { intros b I. cbn in I. destruct I as [<- |[<- |[<- |[<- |[]]]]]; (split; [vm_compute; auto|]); intros y; sq; lia. }
  split. { intros b I. cbn in I. destruct I as [<- |[<- |[<- |[<- |[]]]]]; (split; [vm_compute; auto|]); intros y; sq; lia. }
  assert (RH : rectilinear ring_pts).
  { intros i p q E1 E2. do 4 (destruct i as [|i]; [cbn in E1, E2; injection E1 as <-; injection E2 as <-; cbn; lia|]). destruct i; discriminate E1. }
  split.
  - intros c [<- |[<- |[]]]; (split; [apply contour_closed; first [exact RH|apply rect_rectilinear; vm_compute; auto]|]);
      intros e x y I; unfold behind; rewrite !window_pts; edges I; sgns; sq; lia.
  - intros h [<- |[]]. split; [exact RH|]. left. intros x y. cbn. unfold passes. cbn [px py].
    repeat match goal with |- context [?a <? ?b] => destruct (Z.ltb_spec a b) | |- context [?a <=? ?b] => destruct (Z.leb_spec a b) end; cbn; lia.
Qed.
Lemma demo_good P : In P [stub; ring] -> good_poly P.
Proof. intros [<- |[<- |[]]]; [exact stub_good|exact ring_good]. Qed.
Definition stub_line := contour (fun _ _ => false) 1 stub_pts.
Ltac lits := vm_compute; intuition discriminate.

(* the stub is 10 wide *)
Example C108_nonvacuous : (forall P, In P [stub; ring] -> good_poly P) /\ 0 < sv_mgrid demo_env /\ thin stub (sv_minwidth demo_env) 45 25 /\
  ~ fixed_at demo_env stub 45 25 /\ In (mkMk (bx4 40 20 50 30) 4 21 1 1) (check_shapes demo_env [stub; ring] []).
Proof.
  split; [exact demo_good|]. split; [reflexivity|]. split; [|split; [intros (b & [] & _)|vm_compute; tauto]].
  left. exists 40, 50. cbn [sv_minwidth demo_env]. split; [lia|]. split; [lia|]. split; [|split].
  - intros x'. sq. lia.
  - sq. lia.
  - sq. lia.
Qed.
(* three short edges around it *)
Example C109_nonvacuous : sv_step demo_env = layer_step ([mkMT 20 99 None None (Some 0)] ++ [mkMT 22 15 None (Some 5) (Some 2)]) /\
  In stub_line (s_outlines stub) /\ whole_row 15 stub_line 2 3 /\ two_long 15 stub_line /\ short_row 15 stub_line 2 3 /\ 2 < Z.of_nat 3 /\
  row_routed stub_line 2 3 /\ hull (row_corners stub_line 2 3) (bx4 40 20 50 30) /\
  In (mkMk (bx4 40 20 50 30) 4 22 1 1) (check_shapes demo_env [stub; ring] []).
Proof.
  assert (S : short_row 15 stub_line 2 3).
  { intros j H. do 4 (destruct j as [|j]; [try lia; vm_compute; reflexivity|]). lia. }
  split; [reflexivity|]. split; [left; reflexivity|].
  split; [split; [cbn; lia|]; split; [exact S|]; split; lits|]. split; [exists 0%nat, 1%nat; split; [cbn; lia|]; split; [cbn; lia|]; split; [discriminate|]; split; lits|].
  split; [exact S|]. split; [reflexivity|]. split; [exists 0%nat; split; [lia|reflexivity]|].
  split; [|vm_compute; tauto]. exact (hull_extents (row_corners stub_line 2 3) ltac:(discriminate)).
Qed.
(* a small square with four short edges, where no two are allowed in a row: no report of the rule *)
Definition small : spoly :=
  mkSP 1 [bx4 0 0 10 10] [contour (fun _ _ => false) 1 (rect_points (bx4 0 0 10 10))] [] [bx4 0 0 10 10] [bx4 0 0 10 10] [bx4 0 0 10 10]
    (fun w => filter sqb (map (box_and w) [bx4 0 0 10 10])).
Lemma small_good : good_poly small.
Proof.
  assert (SQ : forall x y, metal_at small x y <-> square_in x y (bx4 0 0 10 10)).
  { intros x y. unfold metal_at. cbn [small s_metal]. rewrite in_boxes, in_none. tauto. }
  unfold good_poly, covers. cbn [small s_hslabs s_vslabs s_maxrects s_max_in s_outlines s_holes].
  split; [intros x y; rewrite in_boxes, in_none, SQ; tauto|]. split; [intros x y; rewrite in_boxes, in_none, SQ; tauto|]. split; [intros x y; rewrite in_boxes, in_none, SQ; tauto|].
  split; [intros w x y; rewrite metal_clip, in_boxes, in_none, SQ; tauto|].
  split; [intros b [<- |[]]; split; [lits|]; intros y; rewrite !SQ; sq; lia|]. split; [intros b [<- |[]]; split; [lits|]; intros y; rewrite !SQ; sq; lia|].
  split; [|intros h []]. intros c [<- |[]]. split; [apply contour_closed, rect_rectilinear; lits|].
  intros e x y I. unfold behind. rewrite !window_pts, SQ. edges I; sgns; sq; lia.
Qed.
Theorem C109_small_shape_refuted : exists V P s K c, good_poly P /\ sv_step V = layer_step [s] /\ mt_edges s = Some K /\ In c (s_outlines P) /\
  (forall e, In e c -> len e < mt_len s /\ o_fixed e = false) /\ K < Z.of_nat (length c) /\
  forall b, ~ reports (check_shapes V [P] []) (report_on V P (mt_id s) b).
Proof.
  exists (mkSV 4 5 21 (layer_step [mkMT 22 15 None None (Some 1)]) [] None 5 25 [] (fun _ => []) (fun _ => [bx4 0 0 10 10])), small,
    (mkMT 22 15 None None (Some 1)), 1, (contour (fun _ _ => false) 1 (rect_points (bx4 0 0 10 10))).
  split; [exact small_good|]. split; [reflexivity|]. split; [reflexivity|]. split; [left; reflexivity|].
  split; [intros e I; edges I; lits|]. split; [reflexivity|]. intros b (m & I & _). vm_compute in I. exact I.
Qed.
Print Assumptions C109_small_shape_refuted.
(* of two MINSTEP statements of a layer, the first is forgotten *)
Theorem C109_earlier_statement_refuted : exists V P s s' K c i k, good_poly P /\ sv_step V = layer_step [s; s'] /\ mt_edges s = Some K /\ In c (s_outlines P) /\
  whole_row (mt_len s) c i k /\ K < Z.of_nat k /\ row_routed c i k /\
  forall b, ~ reports (check_shapes V [P] []) (report_on V P (mt_id s) b).
Proof.
  exists (mkSV 4 5 21 (layer_step [mkMT 20 15 None None (Some 2); mkMT 22 10 None None (Some 2)]) [] None 5 25 [] (fun _ => []) (fun _ => [])), stub,
    (mkMT 20 15 None None (Some 2)), (mkMT 22 10 None None (Some 2)), 2, stub_line, 2%nat, 3%nat.
  split; [exact stub_good|]. split; [reflexivity|]. split; [reflexivity|]. split; [left; reflexivity|].
  pose proof C109_nonvacuous as (_ & _ & W & _ & _ & _ & R & _).
  split; [exact W|]. split; [reflexivity|]. split; [exact R|]. intros b (m & I & _). vm_compute in I. exact I.
Qed.
Print Assumptions C109_earlier_statement_refuted.
(* the statement without MAXEDGES is read, and not enforced on the stub *)
Example C109_other_types_nonvacuous : exists s, mt_edges s = None /\ mt_type s = Some MOutside /\ good_poly stub /\ short_row (mt_len s) stub_line 2 3 /\
  check_step (mkSV 4 5 21 (layer_step ([] ++ [s])) [] None 5 25 [] (fun _ => []) (fun _ => [])) stub [] = [].
Proof. exists (mkMT 22 15 (Some MOutside) None None). split; [reflexivity|]. split; [reflexivity|]. split; [exact stub_good|]. split; [|reflexivity]. exact (let '(conj _ (conj _ (conj _ (conj _ (conj sr _))))) := C109_nonvacuous in sr). Qed.
(* all kinds of reports occur; a wide rectangle on the grid has none *)
Example C110_nonvacuous : sv_step demo_env = layer_step demo_step /\ (forall s K, In s demo_step -> mt_edges s = Some K -> 0 <= K) /\
  (forall P, In P [stub; ring] -> good_poly P /\ ~ In [] (s_holes P)) /\
  (forall con, In con [21; 22; 23; 24; 25; 26] -> exists m, In m (check_shapes demo_env [stub; ring] []) /\ mcon m = con) /\
  check_shapes (mkSV 4 10 21 (layer_step [mkMT 22 10 None None (Some 1)]) [mkS8 23 10 12] (Some 24) 5 25 [(26, 200)] (fun _ => []) (fun _ => [bx4 0 0 10 10])) [small] [] = [].
Proof.
  split; [reflexivity|]. split; [intros s K [<- |[<- |[]]] E; injection E as <-; lia|].
  split; [intros P I; split; [apply demo_good, I|]; destruct I as [<- |[<- |[]]]; lits|]. split; [|vm_compute; reflexivity].
  intros con I. cbn in I. destruct I as [<- |[<- |[<- |[<- |[<- |[<- |[]]]]]]];
  [exists (mkMk (bx4 40 20 50 30) 4 21 1 1)|exists (mkMk (bx4 40 20 50 30) 4 22 1 1)|exists (mkMk (bx4 40 20 50 30) 4 23 1 1)|
   exists (mkMk (bx4 35 5 65 20) 4 24 1 1)|exists (mkMk (bx4 40 0 50 30) 4 25 1 1)|exists (mkMk (bx4 10 10 20 20) 4 26 2 2)];
  (split; [vm_compute; tauto|reflexivity]).
Qed.
Example C111_nonvacuous : In (mkS8 23 15 12) (sv_step58 demo_env) /\ eol_between (mkS8 23 15 12) stub_line 3 /\
  hull (end_corners stub_line 3) (bx4 40 20 50 30) /\ In (mkMk (bx4 40 20 50 30) 4 23 1 1) (check_shapes demo_env [stub; ring] []).
Proof.
  split; [left; reflexivity|]. split; [lits|]. split; [|vm_compute; tauto]. exact (hull_extents (end_corners stub_line 3) ltac:(discriminate)).
Qed.
Example C112_nonvacuous : concave stub_line 2 /\ o_high (edge_at stub_line 2) = mkPt 50 20 /\
  (exists x y, square_in x y (around (mkPt 50 20) 15) /\ metal_at stub x y /\ ~ fixed_at demo_env stub x y) /\
  square_in 60 19 (around (mkPt 50 20) 15) /\ metal_at stub 60 19 /\
  In (mkMk (bx4 35 5 65 20) 4 24 1 1) (check_shapes demo_env [stub; ring] []).
Proof.
  assert (M : metal_at stub 60 19) by (sq; lia). split; [lits|]. split; [reflexivity|]. split; [|split; [lits|split; [exact M|vm_compute; tauto]]].
  exists 60, 19. split; [lits|]. split; [exact M|]. intros (b & [] & _).
Qed.
Example C113_nonvacuous : In (edge_at stub_line 3) stub_line /\ off_grid_edge 20 (edge_at stub_line 3) /\ behind (edge_at stub_line 3) 49 25 /\
  routed_at demo_env stub 49 25 /\ In (mkMk (bx4 40 0 50 30) 4 25 1 1) (check_shapes demo_env [stub; ring] []).
Proof.
  split; [vm_compute; tauto|]. split; [left; split; [reflexivity|]; intros (k & H); cbn in H; lia|].
  split; [unfold behind; rewrite window_pts; lits|]. split; [|vm_compute; tauto]. exists (bx4 40 20 50 30). split; [right; left; reflexivity|lits].
Qed.
Example C114_nonvacuous : In ring_pts (s_holes ring) /\ encloses ring_pts 100 /\ 100 < 200 /\ hull ring_pts (bx4 10 10 20 20) /\
  (exists x y, metal_at ring x y /\ routed_at demo_env ring x y) /\ In (mkMk (bx4 10 10 20 20) 4 26 2 2) (check_shapes demo_env [stub; ring] []).
Proof.
  split; [left; reflexivity|].
  assert (NE : ring_pts <> []) by discriminate. destruct (proj2 (proj2 (proj2 (proj2 (proj2 (proj2 (proj2 ring_good)))))) ring_pts (or_introl eq_refl)) as [R S].
  destruct (encloses_some ring_pts NE R) as [n E]. pose proof (hole_area ring_pts n R S E) as A. vm_compute in A. subst n.
  split; [exact E|]. split; [reflexivity|]. split; [exact (hull_extents ring_pts NE)|]. split; [|vm_compute; tauto].
  exists 0, 0. split; [sq; lia|]. exists (bx4 0 0 30 10). split; [left; reflexivity|lits].
Qed.
