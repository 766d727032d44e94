From Coq Require Import Arith.
From Verif Require Import Base Stl GeomModel GeomSpec TechModel TechSpec TechProofs GcModel GcSpec GcProofs GcProofs2 GcProofs3 CutModel CutProofs2
  EolModel EolSpec EolProofs EolProofs3 EolProofs4 StepModel StepSpec StepProofs2 StepProofs3 StepProofs4 CornModel CornSpec CornProofs CornProofs2 CornProofs3 CornProofs4.

(* ---- the outline of a rectangle ---- *)
Section Rect.
Variables (fx : point -> point -> bool) (n : Z) (a : box).
Hypothesis Sa : solidb a.
Let c := contour fx n (rect_points a).
Lemma rect_edge_ahead i z :
  ahead (edge_at c i) z = match (i mod 4)%nat with 0%nat => bbottom a - py z | 1%nat => px z - bright a | 2%nat => py z - btop a | _ => bleft a - px z end.
Proof.
  destruct Sa as [S1 S2]. unfold edge_at. change (length c) with 4%nat. pose proof (Nat.mod_upper_bound i 4 ltac:(lia)) as L.
  set (j := (i mod 4)%nat) in *. clearbody j.
  destruct j as [|[|[|[|j]]]]; [| | | |lia]; unfold c, rect_points; cbn [contour edges_from nth]; unfold mk_edge, ahead; cbn [o_low o_high px py].
  - rewrite Z.sub_diag, (Z.sgn_pos (bright a - bleft a)) by lia. change (Z.sgn 0) with 0. lia.
  - rewrite Z.sub_diag, (Z.sgn_pos (btop a - bbottom a)) by lia. change (Z.sgn 0) with 0. lia.
  - rewrite Z.sub_diag, (Z.sgn_neg (bleft a - bright a)) by lia. change (Z.sgn 0) with 0. lia.
  - rewrite Z.sub_diag, (Z.sgn_neg (bbottom a - btop a)) by lia. change (Z.sgn 0) with 0. lia.
Qed.
Lemma rect_edge_ends i : let e := edge_at c i in
  o_net e = n /\ o_low e = nth (i mod 4) (rect_points a) (mkPt 0 0) /\ o_high e = nth ((i + 1) mod 4) (rect_points a) (mkPt 0 0).
Proof.
  cbv zeta. unfold edge_at. change (length c) with 4%nat. pose proof (Nat.mod_upper_bound i 4 ltac:(lia)) as L.
  rewrite <- (Nat.add_mod_idemp_l i 1 4) by lia. set (j := (i mod 4)%nat) in *. clearbody j.
  destruct j as [|[|[|[|j]]]]; [| | | |lia]; unfold c, rect_points; cbn; auto.
Qed.
Lemma rect_edge_len i : box_width a <= len (edge_at c i).
Proof.
  destruct Sa as [S1 S2]. unfold len, along, box_width. destruct (rect_edge_ends i) as (_ & -> & ->). pose proof (Nat.mod_upper_bound i 4 ltac:(lia)) as L.
  rewrite <- (Nat.add_mod_idemp_l i 1 4) by lia. set (j := (i mod 4)%nat) in *. clearbody j. unfold rect_points.
  destruct j as [|[|[|[|j]]]]; [| | | |lia].
  - change ((0 + 1) mod 4)%nat with 1%nat. cbn [nth px py]. rewrite (Z.sgn_pos (bright a - bleft a)), Z.sub_diag by lia. lia.
  - change ((1 + 1) mod 4)%nat with 2%nat. cbn [nth px py]. rewrite (Z.sgn_pos (btop a - bbottom a)), Z.sub_diag by lia. lia.
  - change ((2 + 1) mod 4)%nat with 3%nat. cbn [nth px py]. rewrite (Z.sgn_neg (bleft a - bright a)), Z.sub_diag by lia. lia.
  - change ((3 + 1) mod 4)%nat with 0%nat. cbn [nth px py]. rewrite (Z.sgn_neg (bbottom a - btop a)), Z.sub_diag by lia. lia.
Qed.
Lemma ctc_breaks s b d : solidb b -> q_convex s = true -> (forall w, q_eol s = Some w -> w <= box_width a) ->
  asks s (box_width a) d -> corner_to_corner d a b ->
  exists i, breaks_corner s (edge_at c i) (edge_at c (i + 1)) (edge_at c (i + 2)) (edge_at c (i + 3)) a b /\
    between (pt_box (o_low (edge_at c (i + 2)))) b = between a b /\ inside (o_low (edge_at c (i + 2))) a /\ In (o_low (edge_at c (i + 2))) (rect_points a).
Proof.
  intros Sb Cv El As ([X0 Xd] & [Y0 Yd] & M). unfold gap_x, gap_y in *.
  assert (NE : forall i w, q_eol s = Some w -> ~ at_end w (edge_at c i) (edge_at c (i + 1)) (edge_at c (i + 2)) (edge_at c (i + 3))).
  { intros i w E [[_ L]|[_ L]]; specialize (El w E); [pose proof (rect_edge_len (i + 2))|pose proof (rect_edge_len (i + 1))]; lia. }
  unfold breaks_corner. rewrite Cv. 
  destruct (Z.le_gt_cases (bright a) (bleft b)) as [Hx|Hx]; [|assert (Hx' : bright b <= bleft a) by lia];
  (destruct (Z.le_gt_cases (btop a) (bbottom b)) as [Hy|Hy]; [|assert (Hy' : btop b <= bbottom a) by lia]).
  - exists 0%nat. split; [|]; [split; [split; [|split; [|split; [|intros w E; apply NE, E]]]|split; [|split]]|].
    all: destruct Sa as [A1 A2], Sb as [B1 B2].
    + unfold turns_in. rewrite rect_edge_ahead. destruct (rect_edge_ends (0+2)) as (_ & _ & ->). cbn. lia.
    + intros (q & q' & I & I' & H & H'). rewrite rect_edge_ahead in H, H'. cbn in H, H'. revert H. revert q I. apply (proj2 (rect_all (fun q => px q - bright a < 0 -> False) b)). cbn [px py]. lia.
    + intros (q & q' & I & I' & H & H'). rewrite rect_edge_ahead in H, H'. cbn in H, H'. revert H. revert q I. apply (proj2 (rect_all (fun q => py q - btop a < 0 -> False) b)). cbn [px py]. lia.
    + destruct (rect_edge_ends (0+2)) as (_ & -> & _). unfold inside. cbn. lia.
    + split; [destruct (rect_edge_ends (0+2)) as (_ & -> & _); unfold inside; cbn; lia|]. apply rect_all. rewrite !rect_edge_ahead. cbn. lia.
    + exists d. split; [exact As|]. exists (mkPt (bleft b) (bbottom b)). rewrite !rect_edge_ahead. unfold inside. cbn. lia.
    + destruct (rect_edge_ends (0+2)) as (_ & -> & _). split; [unfold between, pt_box; cbn; clear -A1 A2 B1 B2 Hx Hy; unfold bleft, bright, bbottom, btop in *; cbn; f_equal; f_equal; lia|].
      split; [unfold inside; cbn; lia|cbn; tauto].
  - exists 3%nat. split; [|]; [split; [split; [|split; [|split; [|intros w E; apply NE, E]]]|split; [|split]]|].
    all: destruct Sa as [A1 A2], Sb as [B1 B2].
    + unfold turns_in. rewrite rect_edge_ahead. destruct (rect_edge_ends (3+2)) as (_ & _ & ->). cbn. lia.
    + intros (q & q' & I & I' & H & H'). rewrite rect_edge_ahead in H, H'. cbn in H, H'. revert H. revert q I. apply (proj2 (rect_all (fun q => bbottom a - py q < 0 -> False) b)). cbn [px py]. lia.
    + intros (q & q' & I & I' & H & H'). rewrite rect_edge_ahead in H, H'. cbn in H, H'. revert H. revert q I. apply (proj2 (rect_all (fun q => px q - bright a < 0 -> False) b)). cbn [px py]. lia.
    + destruct (rect_edge_ends (3+2)) as (_ & -> & _). unfold inside. cbn. lia.
    + split; [destruct (rect_edge_ends (3+2)) as (_ & -> & _); unfold inside; cbn; lia|]. apply rect_all. rewrite !rect_edge_ahead. cbn. lia.
    + exists d. split; [exact As|]. exists (mkPt (bleft b) (btop b)). rewrite !rect_edge_ahead. unfold inside. cbn. lia.
    + destruct (rect_edge_ends (3+2)) as (_ & -> & _). split; [unfold between, pt_box; cbn; clear -A1 A2 B1 B2 Hx Hy'; unfold bleft, bright, bbottom, btop in *; cbn; f_equal; f_equal; lia|].
      split; [unfold inside; cbn; lia|cbn; tauto].
  - exists 1%nat. split; [|]; [split; [split; [|split; [|split; [|intros w E; apply NE, E]]]|split; [|split]]|].
    all: destruct Sa as [A1 A2], Sb as [B1 B2].
    + unfold turns_in. rewrite rect_edge_ahead. destruct (rect_edge_ends (1+2)) as (_ & _ & ->). cbn. lia.
    + intros (q & q' & I & I' & H & H'). rewrite rect_edge_ahead in H, H'. cbn in H, H'. revert H. revert q I. apply (proj2 (rect_all (fun q => py q - btop a < 0 -> False) b)). cbn [px py]. lia.
    + intros (q & q' & I & I' & H & H'). rewrite rect_edge_ahead in H, H'. cbn in H, H'. revert H. revert q I. apply (proj2 (rect_all (fun q => bleft a - px q < 0 -> False) b)). cbn [px py]. lia.
    + destruct (rect_edge_ends (1+2)) as (_ & -> & _). unfold inside. cbn. lia.
    + split; [destruct (rect_edge_ends (1+2)) as (_ & -> & _); unfold inside; cbn; lia|]. apply rect_all. rewrite !rect_edge_ahead. cbn. lia.
    + exists d. split; [exact As|]. exists (mkPt (bright b) (bbottom b)). rewrite !rect_edge_ahead. unfold inside. cbn. lia.
    + destruct (rect_edge_ends (1+2)) as (_ & -> & _). split; [unfold between, pt_box; cbn; clear -A1 A2 B1 B2 Hx' Hy; unfold bleft, bright, bbottom, btop in *; cbn; f_equal; f_equal; lia|].
      split; [unfold inside; cbn; lia|cbn; tauto].
  - exists 2%nat. split; [|]; [split; [split; [|split; [|split; [|intros w E; apply NE, E]]]|split; [|split]]|].
    all: destruct Sa as [A1 A2], Sb as [B1 B2].
    + unfold turns_in. rewrite rect_edge_ahead. destruct (rect_edge_ends (2+2)) as (_ & _ & ->). cbn. lia.
    + intros (q & q' & I & I' & H & H'). rewrite rect_edge_ahead in H, H'. cbn in H, H'. revert H. revert q I. apply (proj2 (rect_all (fun q => bleft a - px q < 0 -> False) b)). cbn [px py]. lia.
    + intros (q & q' & I & I' & H & H'). rewrite rect_edge_ahead in H, H'. cbn in H, H'. revert H. revert q I. apply (proj2 (rect_all (fun q => bbottom a - py q < 0 -> False) b)). cbn [px py]. lia.
    + destruct (rect_edge_ends (2+2)) as (_ & -> & _). unfold inside. cbn. lia.
    + split; [destruct (rect_edge_ends (2+2)) as (_ & -> & _); unfold inside; cbn; lia|]. apply rect_all. rewrite !rect_edge_ahead. cbn. lia.
    + exists d. split; [exact As|]. exists (mkPt (bright b) (btop b)). rewrite !rect_edge_ahead. unfold inside. cbn. lia.
    + destruct (rect_edge_ends (2+2)) as (_ & -> & _). split; [unfold between, pt_box; cbn; clear -A1 A2 B1 B2 Hx' Hy'; unfold bleft, bright, bbottom, btop in *; cbn; f_equal; f_equal; lia|].
      split; [unfold inside; cbn; lia|cbn; tauto].
Qed.
End Rect.
