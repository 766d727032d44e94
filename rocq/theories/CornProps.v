(* Corner spacing: corners closer to other metal than the layer asks for are reported (C115), nothing else is
   (C116), and two rectangles that face each other diagonally are (C117). *)
From Coq Require Import Arith.
From Verif Require Import Base Stl GeomModel GeomSpec TechModel TechSpec GcModel GcSpec GcProofs GcProofs3 CutModel CutProofs2
  EolModel EolSpec EolProofs4 StepModel StepSpec StepProofs4 CornModel CornSpec CornProofs CornProofs2 CornProofs3 CornProofs4 CornProofs5.

(* ================================================================ C115 *)
Theorem C115_corner_reported V stmts pins ms pin c i s a b :
  good_kenv V -> kv_rules V = layer_corner stmts -> (forall pin c, In pin pins -> In c pin -> closed_outline c) ->
  In pin pins -> In c pin -> c <> [] -> In s stmts -> good_cstmt s -> In a (kv_rects V) -> In b (kv_rects V) ->
  gnet a = o_net (edge_at c (i + 2)) ->
  breaks_corner s (edge_at c i) (edge_at c (i + 1)) (edge_at c (i + 2)) (edge_at c (i + 3)) (gbox a) (gbox b) ->
  routed_pair V (o_low (edge_at c (i + 2))) a b ->
  reports (check_corners V pins ms) (corner_violation V s (edge_at c (i + 2)) b) /\ incl ms (check_corners V pins ms).
Proof.
  intros. split; [eapply check_complete with (a := a) (pin := pin); eassumption|]. destruct (check_corners_grows V pins ms) as [A _]. exact A.
Qed.
Print Assumptions C115_corner_reported.

(* statements that give a horizontal and a vertical spacing, for two widths or more, are never enforced *)
Theorem C115_two_spacings_refuted V stmts pins ms :
  kv_rules V = layer_corner stmts -> (forall s, In s stmts -> two_spacings s) ->
  forall m, In m (check_corners V pins ms) -> In m ms.
Proof. apply two_spacings_silent. Qed.
Print Assumptions C115_two_spacings_refuted.

Definition bxc (x0 y0 x1 y1 : Z) : box := mkBox (mkPt x0 y0) (mkPt x1 y1).
Definition nofix : point -> point -> bool := fun _ _ => false.
Definition outline (n : Z) (b : box) : list oedge := contour nofix n (rect_points b).
Definition demo_V (stmts : list cstmt) (rs : list (Z * box)) : kenv :=
  mkKV 2 (layer_corner stmts) (map (fun p => mkGR (fst p) (snd p) (fst p) false) rs) (fun _ => []).
(* a statement with one width and two spacings: the horizontal one is used in both directions, and shapes
   nearer than the vertical one are not reported *)
Theorem C115_one_row_two_spacings_refuted : exists s a b w hspc vspc,
  q_rows s = [[w; hspc; vspc]] /\ q_convex s = true /\ q_eol s = None /\ w < box_width a /\
  0 < gap_x a b < hspc /\ 0 < gap_y a b < vspc /\
  check_corners (demo_V [s] [(1, a); (2, b)]) [[outline 1 a]; [outline 2 b]] [] = [].
Proof.
  exists (mkCS 9 true None false [[0; 10; 50]]), (bxc 0 0 100 100), (bxc 105 130 205 230), 0, 10, 50.
  repeat (split; [first [reflexivity|vm_compute; intuition discriminate]|]). vm_compute. reflexivity.
Qed.
Print Assumptions C115_one_row_two_spacings_refuted.
(* CONCAVECORNER at the inner corner of an L: no maximal rectangle has its corner there, and metal in the
   notch is not reported *)
Definition ell_points : list point := [mkPt 0 0; mkPt 100 0; mkPt 100 50; mkPt 50 50; mkPt 50 100; mkPt 0 100].
Definition ell : list oedge := contour nofix 1 ell_points.
Definition concave_stmt : cstmt := mkCS 9 false None false [[0; 20]].
Definition notch : box := bxc 60 60 90 90.
Theorem C115_concave_refuted :
  good_cstmt concave_stmt /\ (forall w, asks concave_stmt w 20) /\ closed_outline ell /\ q_convex concave_stmt = false /\
  turns_out (edge_at ell 2) (edge_at ell 3) /\ ~ inside (o_low (edge_at ell 3)) notch /\ near 20 (edge_at ell 2) (edge_at ell 3) notch /\
  check_corners (demo_V [concave_stmt] [(1, bxc 0 0 100 50); (1, bxc 0 0 50 100); (2, notch)]) [[ell]; [outline 2 notch]] [] = [].
Proof.
  split.
  { split; [discriminate|]. split; [repeat constructor; exists 0, 20; reflexivity|]. split; [intros [|?] [|?] L L2; cbn in *; lia|]. split; [intros [|?] [|?] L L2; cbn in *; lia|]. intros w E. discriminate. }
  split. { intros w. exists 0%nat. split; [|reflexivity]. split; [cbn; lia|]. split; [auto|]. intros j Hj Hl. cbn in Hl. lia. }
  split. { apply contour_closed. intros i p q. destruct i as [|[|[|[|[|[|i]]]]]]; cbn [length Nat.eqb nth_error ell_points]; try (intros E1 E2; injection E1 as <-; injection E2 as <-; cbn [px py]; lia). intros E. destruct i; discriminate. }
  split; [reflexivity|]. split; [reflexivity|]. split; [vm_compute; intuition discriminate|].
  split; [exists (mkPt 60 60); vm_compute; intuition discriminate|]. vm_compute. reflexivity.
Qed.
Print Assumptions C115_concave_refuted.

(* ================================================================ C116 *)
Theorem C116_corner_reports_real V stmts pins ms m :
  good_kenv V -> kv_rules V = layer_corner stmts -> (forall s, In s stmts -> good_cstmt s \/ two_spacings s) ->
  (forall pin c, In pin pins -> In c pin -> closed_outline c) ->
  In m (check_corners V pins ms) -> In m ms \/
  exists pin c i s a b, In pin pins /\ In c pin /\ c <> [] /\ In s stmts /\ good_cstmt s /\ In a (kv_rects V) /\ In b (kv_rects V) /\
    gnet a = o_net (edge_at c (i + 2)) /\
    breaks_corner s (edge_at c i) (edge_at c (i + 1)) (edge_at c (i + 2)) (edge_at c (i + 3)) (gbox a) (gbox b) /\
    routed_pair V (o_low (edge_at c (i + 2))) a b /\ m = corner_violation V s (edge_at c (i + 2)) b.
Proof. intros G R S C. apply check_sound; assumption. Qed.
Print Assumptions C116_corner_reports_real.

(* EXCEPTSAMENET is ignored: two shapes of one net are reported *)
Theorem C116_same_net_refuted : exists s a b m,
  q_exceptnet s = true /\ good_cstmt s /\
  check_corners (demo_V [s] [(1, a); (1, b)]) [[outline 1 a; outline 1 b]] [] = [m] /\ msrc1 m = 1 /\ msrc2 m = 1.
Proof.
  exists (mkCS 9 true None true [[0; 20]]), (bxc 0 0 100 100), (bxc 110 110 210 210). eexists.
  split; [reflexivity|]. split; [|vm_compute; auto].
  split; [discriminate|]. split; [repeat constructor; exists 0, 20; reflexivity|]. split; [intros [|?] [|?] L L2; cbn in *; lia|]. split; [intros [|?] [|?] L L2; cbn in *; lia|]. intros w E. discriminate.
Qed.
Print Assumptions C116_same_net_refuted.
(* a CONVEXCORNER rule is meant for shapes without common run length; two wires in line, with a common run
   length of their whole width, are reported *)
Theorem C116_aligned_refuted : exists s a b m,
  q_convex s = true /\ good_cstmt s /\ run_length a b = box_width a /\ 0 < run_length a b /\
  In m (check_corners (demo_V [s] [(1, a); (2, b)]) [[outline 1 a]; [outline 2 b]] []).
Proof.
  exists (mkCS 9 true None false [[0; 20]]), (bxc 0 0 500 50), (bxc 510 0 1000 50). eexists.
  split; [reflexivity|]. split; [|split; [reflexivity|split; [reflexivity|vm_compute; left; reflexivity]]].
  split; [discriminate|]. split; [repeat constructor; exists 0, 20; reflexivity|]. split; [intros [|?] [|?] L L2; cbn in *; lia|]. split; [intros [|?] [|?] L L2; cbn in *; lia|]. intros w E. discriminate.
Qed.
Print Assumptions C116_aligned_refuted.

(* ================================================================ C117 *)
Lemma corner_square a b p : solidb a -> solidb b -> In p (rect_points a) ->
  exists x y, square_in x y a /\ square_in x y (my_bloat (between (pt_box p) b) (box_width a)).
Proof.
  intros [A1 A2] [B1 B2] I. unfold box_width, my_bloat, between, pt_box, square_in, bleft, bright, bbottom, btop in *. cbn [ll ur px py].
  destruct I as [<- |[<- |[<- |[<- |[]]]]]; cbn [ll ur px py];
  [exists (px (ll a)), (py (ll a))|exists (px (ur a) - 1), (py (ll a))|exists (px (ur a) - 1), (py (ur a) - 1)|exists (px (ll a)), (py (ur a) - 1)]; unfold bleft, bright, bbottom, btop; lia.
Qed.
(* two rectangles that face each other diagonally, at least one of them routed; the wire is not narrower than
   the EXCEPTEOL width *)
Theorem C117_diagonal_pair_reported V stmts pins ms fx s d a b :
  good_kenv V -> kv_rules V = layer_corner stmts -> (forall pin c, In pin pins -> In c pin -> closed_outline c) ->
  In s stmts -> good_cstmt s -> q_convex s = true -> In a (kv_rects V) -> In b (kv_rects V) ->
  In [contour fx (gnet a) (rect_points (gbox a))] pins ->
  (forall w, q_eol s = Some w -> w <= box_width (gbox a)) ->
  asks s (box_width (gbox a)) d -> corner_to_corner d (gbox a) (gbox b) ->
  gfixed a = false -> (forall f x y, In f (kv_fixed V (gnet a)) -> square_in x y f -> ~ square_in x y (gbox a)) ->
  reports (check_corners V pins ms) (mkMk (between (gbox a) (gbox b)) (kv_lnum V) (q_id s) (gnet a) (gnet b)).
Proof.
  intros GV RV CO Is Gs Cv Ia Ib Ip El As CC Fa NF. pose proof (GV a Ia) as Sa. pose proof (GV b Ib) as Sb.
  destruct (ctc_breaks fx (gnet a) (gbox a) Sa s (gbox b) d Sb Cv El As CC) as (i & Br & Bt & Ins & Ipt).
  set (c := contour fx (gnet a) (rect_points (gbox a))) in *.
  assert (Nt : o_net (edge_at c (i + 2)) = gnet a) by apply rect_edge_ends.
  replace (mkMk _ _ _ _ _) with (corner_violation V s (edge_at c (i + 2)) b).
  2: { unfold corner_violation. rewrite Bt, Nt. reflexivity. }
  eapply check_complete with (a := a) (pin := [c]); try eassumption; [left; reflexivity|discriminate|symmetry; exact Nt|].
  split; [intros [F _]; congruence|]. left.
  destruct (corner_square (gbox a) (gbox b) _ Sa Sb Ipt) as (x & y & S1 & S2). exists x, y. split; [exact S1|]. split; [exact S2|].
  intros (f & If & Sf). exact (NF f x y If Sf S1).
Qed.
Print Assumptions C117_diagonal_pair_reported.

(* ================================================================ examples *)
Definition spc_stmt : cstmt := mkCS 9 true (Some 60) false [[0; 20]; [150; 40]].
Definition demo_a : box := bxc 0 0 100 100.
Definition demo_b : box := bxc 110 115 300 200.
Definition demo : kenv := demo_V [spc_stmt] [(1, demo_a); (2, demo_b)].
Definition demo_pins : list (list (list oedge)) := [[outline 1 demo_a]; [outline 2 demo_b]].
Lemma spc_good : good_cstmt spc_stmt.
Proof.
  split; [discriminate|]. split; [repeat constructor; eexists _, _; reflexivity|].
  split; [intros [|[|?]] [|[|?]] L L'; cbn in *; lia|]. split; [intros [|[|?]] [|[|?]] L L'; cbn in *; lia|]. intros w E. injection E as <-. lia.
Qed.
Lemma demo_good : good_kenv demo.
Proof. intros r [<- |[<- |[]]]; vm_compute; auto. Qed.
Lemma demo_closed : forall pin c, In pin demo_pins -> In c pin -> closed_outline c.
Proof.
  intros pin c [<- |[<- |[]]] [<- |[]]; apply contour_closed, rect_rectilinear; vm_compute; auto.
Qed.
(* the hypotheses of C117, hence of C115, hold of two squares; the two reports of the pair coincide *)
Example C117_example :
  good_kenv demo /\ kv_rules demo = layer_corner [spc_stmt] /\ (forall pin c, In pin demo_pins -> In c pin -> closed_outline c) /\
  good_cstmt spc_stmt /\ (forall w, q_eol spc_stmt = Some w -> w <= box_width demo_a) /\
  asks spc_stmt (box_width demo_a) 20 /\ corner_to_corner 20 demo_a demo_b /\
  check_corners demo demo_pins [] = [mkMk (bxc 100 100 110 115) 2 9 1 2].
Proof.
  split; [exact demo_good|]. split; [reflexivity|]. split; [exact demo_closed|]. split; [exact spc_good|].
  split; [intros w E; injection E as <-; vm_compute; discriminate|].
  split. { exists 0%nat. split; [|reflexivity]. split; [cbn; lia|]. split; [auto|]. intros j Hj Hl. destruct j as [|[|j]]; cbn in *; lia. }
  split; [vm_compute; intuition discriminate|]. vm_compute. reflexivity.
Qed.
Example C115_example : exists i, breaks_corner spc_stmt (edge_at (outline 1 demo_a) i) (edge_at (outline 1 demo_a) (i + 1))
    (edge_at (outline 1 demo_a) (i + 2)) (edge_at (outline 1 demo_a) (i + 3)) demo_a demo_b /\
  routed_pair demo (o_low (edge_at (outline 1 demo_a) (i + 2))) (mkGR 1 demo_a 1 false) (mkGR 2 demo_b 2 false).
Proof.
  destruct C117_example as (_ & _ & _ & _ & El & As & CC & _).
  destruct (ctc_breaks nofix 1 demo_a ltac:(vm_compute; auto) spc_stmt demo_b 20 ltac:(vm_compute; auto) eq_refl El As CC) as (i & Br & _ & _ & Ip).
  exists i. split; [exact Br|]. split; [intros [H _]; discriminate|]. left.
  destruct (corner_square demo_a demo_b _ ltac:(vm_compute; auto) ltac:(vm_compute; auto) Ip) as (x & y & S1 & S2).
  exists x, y. split; [exact S1|]. split; [exact S2|]. intros (f & [] & _).
Qed.
(* a rectangle at the inner corner of a stair, and metal in the stair: the CONCAVECORNER rule is enforced *)
Definition stair : list oedge :=
  contour nofix 1 [mkPt 0 0; mkPt 60 0; mkPt 60 40; mkPt 100 40; mkPt 100 50; mkPt 60 50; mkPt 60 100; mkPt 50 100; mkPt 50 50; mkPt 0 50].
Definition stair_b : box := bxc 70 60 90 80.
Example C115_concave_example : let V := demo_V [concave_stmt] [(1, bxc 0 0 60 50); (1, bxc 0 40 100 50); (1, bxc 50 0 60 100); (2, stair_b)] in
  turns_out (edge_at stair 4) (edge_at stair 5) /\
  (exists a, In a (kv_rects V) /\ at_corner (edge_at stair 4) (edge_at stair 5) (gbox a)) /\
  check_corners V [[stair]; [outline 2 stair_b]] [] = [mkMk (bxc 60 50 70 60) 2 9 1 2].
Proof.
  cbv zeta. split; [reflexivity|]. split; [|vm_compute; reflexivity].
  exists (mkGR 1 (bxc 0 0 60 50) 1 false). split; [left; reflexivity|]. split; [vm_compute; intuition discriminate|].
  apply rect_all. vm_compute. intuition discriminate.
Qed.
(* nothing is reported where the gaps are the spacing asked for *)
Example C116_example :
  check_corners (demo_V [spc_stmt] [(1, demo_a); (2, bxc 120 115 300 200)]) [[outline 1 demo_a]; [outline 2 (bxc 120 115 300 200)]] [] = [].
Proof. vm_compute. reflexivity. Qed.
(* the hypothesis of C115_two_spacings_refuted *)
Example C115_two_spacings_example : two_spacings (mkCS 9 true None false [[0; 20; 30]; [150; 40; 50]]) /\
  corner_to_corner 20 demo_a demo_b.
Proof. split; [split; [cbn; lia|repeat constructor]|vm_compute; intuition discriminate]. Qed.
(* a statement in which the number of spacings changes before the last width is given up: it changes nothing *)
Theorem C115_ragged_refuted : forall s r rest r1 before after, q_rows s = r :: rest -> In r1 (removelast rest) -> Z.of_nat (length r1) <> Z.min (Z.of_nat (length r)) 3 ->
  layer_corner (before ++ s :: after) = layer_corner (before ++ after).
Proof.
  intros s r rest r1 before after E I N. unfold layer_corner. rewrite !flat_map_app. f_equal. cbn [flat_map]. replace (lef_corner s) with (@None crule); [reflexivity|].
  symmetry. unfold lef_corner. replace (entries (q_rows s)) with (@None Z); [reflexivity|]. symmetry. unfold entries. rewrite E. destruct rest as [|r' rest]; [destruct I|].
  cbv zeta. destruct (forallb _ _) eqn:F; [|reflexivity]. rewrite forallb_forall in F. specialize (F r1 I). apply Z.eqb_eq in F. contradiction.
Qed.
Print Assumptions C115_ragged_refuted.
Example c115_ragged : layer_corner [mkCS 9 true None false [[0; 20; 20]; [50; 30]; [90; 40; 40]]] = [] /\ layer_corner [mkCS 9 true None false [[0; 20]; [50; 30]; [90; 40]]] <> [].
Proof. split; [reflexivity|discriminate]. Qed.
