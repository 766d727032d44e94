From Coq Require Import Arith.
From Verif Require Import Base Stl GeomModel TechModel TechSpec TechProofs GcModel GcSpec GcProofs GcProofs2 GcProofs3 CutModel CutProofs2
  EolModel EolSpec EolProofs EolProofs3 EolProofs4 StepModel StepSpec StepProofs2 StepProofs3 StepProofs4 CornModel CornSpec CornProofs.

Definition solidb (b : box) : Prop := bleft b < bright b /\ bbottom b < btop b.
(* conditions on points of the four corners as conditions on the sides *)
Lemma rect_all (F : point -> Prop) b : (forall q, In q (rect_points b) -> F q) <->
  F (mkPt (bleft b) (bbottom b)) /\ F (mkPt (bright b) (bbottom b)) /\ F (mkPt (bright b) (btop b)) /\ F (mkPt (bleft b) (btop b)).
Proof.
  unfold rect_points. split; [intros H; repeat split; apply H; cbn; tauto|]. intros (A & B & C & D) q [<- |[<- |[<- |[<- |[]]]]]; assumption.
Qed.
Lemma rect_ex (F : point -> Prop) b : (exists q, In q (rect_points b) /\ F q) <->
  F (mkPt (bleft b) (bbottom b)) \/ F (mkPt (bright b) (bbottom b)) \/ F (mkPt (bright b) (btop b)) \/ F (mkPt (bleft b) (btop b)).
Proof.
  unfold rect_points. split.
  - intros (q & [<- |[<- |[<- |[<- |[]]]]] & H); auto.
  - intros [H|[H|[H|H]]]; eexists; (split; [|exact H]); cbn; tauto.
Qed.
Section Frame.
Variables (d : cdir) (x0 y0 : Z).
Hypothesis Dd : d <> NoDir.
Let X := fx d x0.
Let Y := fy d y0.
Lemma frame_overlap b : solidb b ->
  (match d with NE => (x0 =? bright b) && (y0 =? btop b) | SE => (x0 =? bright b) && (y0 =? bbottom b)
     | SW => (x0 =? bleft b) && (y0 =? bbottom b) | NW => (x0 =? bleft b) && (y0 =? btop b) | NoDir => false end = true <->
   inside (mkPt x0 y0) b /\ forall q, In q (rect_points b) -> X q <= 0 /\ Y q <= 0).
Proof.
  intros [S1 S2]. rewrite rect_all. unfold inside, X, Y. cbn [px py]. destruct d; try contradiction; cbn [fx fy px py]; lia.
Qed.
Lemma frame_side_x b : solidb b -> (bleft b < x0 /\ x0 < bright b) <-> exists q q', In q (rect_points b) /\ In q' (rect_points b) /\ X q < 0 /\ 0 < X q'.
Proof.
  intros [S1 S2]. unfold X. split.
  - intros H. destruct d; try contradiction; cbn [fx].
    + exists (mkPt (bleft b) (bbottom b)), (mkPt (bright b) (bbottom b)). cbn; intuition lia.
    + exists (mkPt (bright b) (bbottom b)), (mkPt (bleft b) (bbottom b)). cbn; intuition lia.
    + exists (mkPt (bright b) (bbottom b)), (mkPt (bleft b) (bbottom b)). cbn; intuition lia.
    + exists (mkPt (bleft b) (bbottom b)), (mkPt (bright b) (bbottom b)). cbn; intuition lia.
  - intros (q & q' & I & I' & H & H'). assert (B : forall z, In z (rect_points b) -> px z = bleft b \/ px z = bright b) by (apply rect_all; cbn; tauto).
    pose proof (B q I). pose proof (B q' I'). destruct d; try contradiction; cbn [fx] in *; lia.
Qed.
Lemma frame_side_y b : solidb b -> (bbottom b < y0 /\ y0 < btop b) <-> exists q q', In q (rect_points b) /\ In q' (rect_points b) /\ Y q < 0 /\ 0 < Y q'.
Proof.
  intros [S1 S2]. unfold Y. split.
  - intros H. destruct d; try contradiction; cbn [fy].
    + exists (mkPt (bleft b) (bbottom b)), (mkPt (bright b) (btop b)). cbn; intuition lia.
    + exists (mkPt (bleft b) (bbottom b)), (mkPt (bright b) (btop b)). cbn; intuition lia.
    + exists (mkPt (bright b) (btop b)), (mkPt (bleft b) (bbottom b)). cbn; intuition lia.
    + exists (mkPt (bright b) (btop b)), (mkPt (bleft b) (bbottom b)). cbn; intuition lia.
  - intros (q & q' & I & I' & H & H'). assert (B : forall z, In z (rect_points b) -> py z = bbottom b \/ py z = btop b) by (apply rect_all; cbn; tauto).
    pose proof (B q I). pose proof (B q' I'). destruct d; try contradiction; cbn [fy] in *; lia.
Qed.
Definition qbox (mx my : Z) : box :=
  match d with
  | NE => mkBox (mkPt x0 y0) (mkPt (x0 + mx) (y0 + my))
  | SE => mkBox (mkPt x0 (y0 - my)) (mkPt (x0 + mx) y0)
  | SW => mkBox (mkPt (x0 - mx) (y0 - my)) (mkPt x0 y0)
  | NW => mkBox (mkPt (x0 - mx) y0) (mkPt x0 (y0 + my))
  | NoDir => mkBox (mkPt x0 y0) (mkPt x0 y0)
  end.
Lemma frame_near b mx my dd : solidb b -> dd <= mx -> dd <= my ->
  (exists z, inside z b /\ 0 <= X z < dd /\ 0 <= Y z < dd) <->
  box_overlaps (qbox mx my) b true = true /\ Z.max (deltaX (between (pt_box (mkPt x0 y0)) b)) (deltaY (between (pt_box (mkPt x0 y0)) b)) < dd.
Proof.
  intros [S1 S2] Lx Ly. unfold X, Y, inside, box_overlaps, between, qbox, pt_box. bx b. bxs. split.
  - intros ([zx zy] & I & Hx & Hy). cbn [px py] in *. split.
    + apply negb_true_iff, orb_false_iff. rewrite !orb_false_iff, Z.ltb_ge, Z.ltb_ge, !Z.gtb_ltb, !Z.ltb_ge.
      destruct d; try contradiction; cbn [fx fy px py ll ur] in *; lia.
    + destruct d; try contradiction; cbn [fx fy px py] in *; lia.
  - intros [O D]. apply negb_true_iff, orb_false_iff in O. rewrite !orb_false_iff, Z.ltb_ge, Z.ltb_ge, !Z.gtb_ltb, !Z.ltb_ge in O.
    exists (mkPt (Z.max bxl (Z.min bxh x0)) (Z.max byl (Z.min byh y0))). cbn [px py].
    destruct d; try contradiction; cbn [fx fy px py ll ur] in *; lia.
Qed.
End Frame.

(* ---- one corner, one rectangle, one rule ---- *)
Section Pair.
Variables (V : kenv) (c : list oedge).
Hypothesis CO : closed_outline c.
Hypothesis Nc : c <> [].
Hypothesis GV : good_kenv V.
Lemma corner_facts i : let k := corner_at c i in
  straight (c_pp k) /\ straight (c_p k) /\ straight (c_n k) /\ straight (c_nn k) /\
  o_high (c_pp k) = o_low (c_p k) /\ o_high (c_p k) = o_low (c_n k) /\ o_high (c_n k) = o_low (c_nn k).
Proof.
  cbv zeta. unfold corner_at. cbn [c_pp c_p c_n c_nn].
  assert (St : forall j, straight (edge_at c j)) by (intros j; apply (proj1 CO), edge_at_in, Nc).
  repeat (split; [apply St|]). split; [apply edge_at_meets; assumption|].
  split; [replace (i + 2)%nat with (i + 1 + 1)%nat by lia; apply edge_at_meets; assumption|].
  replace (i + 3)%nat with (i + 2 + 1)%nat by lia. apply edge_at_meets; assumption.
Qed.
Definition pair_cond (k : corner) (con : crule) (a b : grect) : Prop :=
  gnet a = o_net (c_n k) /\ corner_overlap k (gbox a) = true /\ k_samexy con = true /\
  Z.max (deltaX (gen_intersect (pt_box (c_pt k)) (gbox b))) (deltaY (gen_intersect (pt_box (c_pt k)) (gbox b))) < k_find con (rwidth a) /\
  gfixed b && gfixed a = false /\ near_routed V (gen_intersect (pt_box (c_pt k)) (gbox b)) a || near_routed V (gen_intersect (pt_box (c_pt k)) (gbox b)) b = true.
Definition corner_mark (k : corner) (con : crule) (b : grect) : marker :=
  mkMk (gen_intersect (pt_box (c_pt k)) (gbox b)) (kv_lnum V) (k_id con) (o_net (c_n k)) (gnet b).
Lemma add_grows1 ms m : grows (fun x => x = m) ms (add_marker ms m).
Proof.
  split; [apply add_marker_incl|]. split; [intros x ->; apply add_marker_reports|]. intros x I. apply add_marker_inv in I. tauto.
Qed.
Lemma corner_loop_grows k b con : forall objs ms,
  grows (fun m => (exists a, In a objs /\ pair_cond k con a b) /\ m = corner_mark k con b) ms (corner_loop V k b con objs ms).
Proof.
  induction objs as [|a rest IH]; intros ms; cbn [corner_loop].
  { apply grows_none. intros m ((a & [] & _) & _). }
  assert (Skip : ~ pair_cond k con a b -> grows (fun m => (exists a', In a' (a :: rest) /\ pair_cond k con a' b) /\ m = corner_mark k con b) ms (corner_loop V k b con rest ms)).
  { intros N. eapply grows_ext; [|apply IH]. intros m. cbn beta. split; intros ((a' & I & P) & E); (split; [|exact E]).
    - exists a'. split; [right; exact I|exact P].
    - destruct I as [<- |I]; [contradiction|]. eauto. }
  unfold pair_cond in Skip at 1.
  destruct (gnet a =? o_net (c_n k)) eqn:E1; cbn [negb]; [|apply Skip; intros (A & _); apply Z.eqb_neq in E1; contradiction].
  destruct (corner_overlap k (gbox a)) eqn:E2; cbn [negb]; [|apply Skip; intros (_ & A & _); discriminate].
  destruct (k_samexy con) eqn:E3; [|apply Skip; intros (_ & _ & A & _); discriminate]. cbv zeta.
  destruct (Z.leb_spec (k_find con (rwidth a)) (Z.max (deltaX (gen_intersect (pt_box (c_pt k)) (gbox b))) (deltaY (gen_intersect (pt_box (c_pt k)) (gbox b))))) as [E4|E4];
    [apply Skip; intros (_ & _ & _ & A & _); lia|].
  destruct (gfixed b && gfixed a) eqn:E5; [apply Skip; intros (_ & _ & _ & _ & A & _); discriminate|].
  destruct (near_routed V _ a || near_routed V _ b) eqn:E6; cbn [negb]; [|apply Skip; intros (_ & _ & _ & _ & _ & A); discriminate].
  eapply grows_ext; [|apply add_grows1]. intros m. cbn beta. split; [|intros [_ ->]; reflexivity]. intros ->. split; [|reflexivity].
  exists a. split; [left; reflexivity|]. unfold pair_cond. apply Z.eqb_eq in E1. auto 10.
Qed.
End Pair.
