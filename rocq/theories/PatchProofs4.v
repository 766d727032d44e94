(* Proofs about minimum-area patches: the area of a straight wire with its vias and its patch. *)
From Verif Require Import Base Stl GeomModel GridModel PatchModel PatchSpec PatchProofs3.

Definition cbox (ax ay : Z) : box := mkBox (mkPt (- ax) (- ay)) (mkPt ax ay).
Definition pbox (horz left : bool) (len h : Z) : box :=
  if horz then (if left then mkBox (mkPt (- len) (- h)) (mkPt 0 h) else mkBox (mkPt 0 (- h)) (mkPt len h))
  else (if left then mkBox (mkPt (- h) (- len)) (mkPt h 0) else mkBox (mkPt (- h) 0) (mkPt h len)).
Definition dist (p q : point) : Z := Z.abs (px p - px q) + Z.abs (py p - py q).
Lemma vend_swap h a b : vend h a b -> vend h b a.
Proof. unfold vend. lia. Qed.
Lemma half2 h : Z.quot (2 * h) 2 = h.
Proof. rewrite Z.mul_comm. apply Z.quot_mul. lia. Qed.

Section Geom.
Variables (S : Z -> Z -> Prop) (h len ax ay bx by_ : Z) (p o : point) (horz left : bool).
Hypotheses (Hh : 0 < h) (HA : vend h ax ay) (HB : vend h bx by_).
Hypotheses (Hw : forall x y, sq_in (wire_box (2 * h) p o) x y -> S x y)
  (Ha : forall x y, sq_at (cbox ax ay) p x y -> S x y) (Hb : forall x y, sq_at (cbox bx by_) o x y -> S x y).
Hypothesis (Hs : py p = py o \/ px p = px o).

Ltac geo := unfold R, frame, flip, sq_at, sq_in, cbox, pbox, wire_box, dist, bleft, bright, bbottom, btop in *; rewrite ?half2 in *.
Lemma wire_sq x y : py p = py o -> Z.min (px p) (px o) <= x < Z.max (px p) (px o) -> py p - h <= y < py p + h -> S x y.
Proof. intros E H1 H2. apply Hw. geo. rewrite E, Z.eqb_refl. cbn [ll ur px py]. rewrite E in H2. lia. Qed.
Lemma wire_sq_v x y : px p = px o -> Z.min (py p) (py o) <= y < Z.max (py p) (py o) -> px p - h <= x < px p + h -> S x y.
Proof.
  intros E H1 H2. apply Hw. geo. destruct (Z.eqb_spec (py p) (py o)) as [Ey|Ny]; [rewrite Ey in H1; lia|].
  cbn [ll ur px py]. lia.
Qed.
Lemma near_sq x y : px p - ax <= x < px p + ax -> py p - ay <= y < py p + ay -> S x y.
Proof. intros. apply Ha. geo. cbn [ll ur px py]. lia. Qed.
Lemma far_sq x y : px o - bx <= x < px o + bx -> py o - by_ <= y < py o + by_ -> S x y.
Proof. intros. apply Hb. geo. cbn [ll ur px py]. lia. Qed.

Lemma area_none : covers (2 * h * dist p o + 2 * ax * ay + 2 * bx * by_) S.
Proof.
  destruct (Z.eq_dec (py p) (py o)) as [Ey|Ny].
  - apply (covers_frame _ false (px o <? px p) false (px p) (py p)).
    assert (D : dist p o = Z.abs (px p - px o)) by (unfold dist; lia). rewrite D.
    apply canon_none; [exact Hh|lia|exact HA|exact HB| | |]; intros u v H; unfold R, frame, flip in *; unfold vend in *.
    + destruct (Z.ltb_spec (px o) (px p)); apply wire_sq; lia.
    + destruct (Z.ltb_spec (px o) (px p)); apply near_sq; lia.
    + destruct (Z.ltb_spec (px o) (px p)); apply far_sq; lia.
  - destruct Hs as [Hs'|Hx]; [congruence|].
    apply (covers_frame _ true (py o <? py p) false (px p) (py p)).
    assert (D : dist p o = Z.abs (py p - py o)) by (unfold dist; lia). rewrite D.
    replace (2 * ax * ay) with (2 * ay * ax) by lia. replace (2 * bx * by_) with (2 * by_ * bx) by lia.
    apply canon_none; [exact Hh|lia|apply vend_swap, HA|apply vend_swap, HB| | |]; intros u v H; unfold R, frame, flip in *; unfold vend in *.
    + destruct (Z.ltb_spec (py o) (py p)); apply wire_sq_v; lia.
    + destruct (Z.ltb_spec (py o) (py p)); apply near_sq; lia.
    + destruct (Z.ltb_spec (py o) (py p)); apply far_sq; lia.
Qed.

Hypotheses (HP : 0 <= len) (Hp : forall x y, sq_at (pbox horz left len h) p x y -> S x y).
Hypothesis (Hside : if horz then (if left then px p <= px o else px o <= px p) else (if left then py p <= py o else py o <= py p)).
Hypothesis (Hone : h <= ax \/ h <= bx).
Lemma patch_sq_h x y : horz = true -> (if left then px p - len <= x < px p else px p <= x < px p + len) -> py p - h <= y < py p + h -> S x y.
Proof. intros Eh H1 H2. apply Hp. geo. rewrite Eh. destruct left; cbn [ll ur px py]; lia. Qed.
Lemma patch_sq_v x y : horz = false -> (if left then py p - len <= y < py p else py p <= y < py p + len) -> px p - h <= x < px p + h -> S x y.
Proof. intros Eh H1 H2. apply Hp. geo. rewrite Eh. destruct left; cbn [ll ur px py]; lia. Qed.

Lemma area_patch : covers (2 * h * len + 2 * h * dist p o + Z.min (2 * ax * ay) (2 * bx * by_)) S.
Proof.
  pose proof patch_sq_h as PH. pose proof patch_sq_v as PV.
  destruct horz eqn:Eh.
  - destruct (Z.eq_dec (py p) (py o)) as [Ey|Ny].
    + apply (covers_frame _ false left false (px p) (py p)).
      assert (D : dist p o = Z.abs (px p - px o)) by (unfold dist; lia). rewrite D.
      eapply covers_le; [apply (canon_along (frame false left false (px p) (py p) S) h (Z.abs (px p - px o)) len bx by_)| |auto]; auto; try lia.
      * intros u v H; unfold R, frame, flip in *; apply PH; [reflexivity| |lia]; destruct left; lia.
      * intros u v H; unfold R, frame, flip in *; destruct left; cbv beta iota in *; apply wire_sq; lia.
      * intros u v H; unfold R, frame, flip in *; unfold vend in *; destruct left; cbv beta iota in *; apply far_sq; lia.
    + destruct Hs as [Hs'|Hx]; [congruence|].
      apply (covers_frame _ false left (py o <? py p) (px p) (py p)).
      assert (D : dist p o = Z.abs (py p - py o)) by (unfold dist; lia). rewrite D.
      apply canon_across; auto; try lia; intros u v H; unfold R, frame, flip in *.
      * apply PH; [reflexivity|destruct left; lia|destruct (Z.ltb_spec (py o) (py p)); lia].
      * destruct (Z.ltb_spec (py o) (py p)), left; cbv beta iota in *; apply wire_sq_v; lia.
      * destruct (Z.ltb_spec (py o) (py p)), left; cbv beta iota in *; apply near_sq; lia.
      * destruct (Z.ltb_spec (py o) (py p)), left; cbv beta iota in *; apply far_sq; lia.
  - destruct (Z.eq_dec (px p) (px o)) as [Ex|Nx].
    + apply (covers_frame _ true left false (px p) (py p)).
      assert (D : dist p o = Z.abs (py p - py o)) by (unfold dist; lia). rewrite D.
      eapply covers_le; [apply (canon_along (frame true left false (px p) (py p) S) h (Z.abs (py p - py o)) len by_ bx)| |auto]; auto using vend_swap; try lia.
      * intros u v H; unfold R, frame, flip in *; apply PV; [reflexivity| |lia]; destruct left; lia.
      * intros u v H; unfold R, frame, flip in *; destruct left; cbv beta iota in *; apply wire_sq_v; lia.
      * intros u v H; unfold R, frame, flip in *; unfold vend in *; destruct left; cbv beta iota in *; apply far_sq; lia.
    + destruct Hs as [Ey|Hs']; [|congruence].
      apply (covers_frame _ true left (px o <? px p) (px p) (py p)).
      assert (D : dist p o = Z.abs (px p - px o)) by (unfold dist; lia). rewrite D.
      replace (2 * ax * ay) with (2 * ay * ax) by lia. replace (2 * bx * by_) with (2 * by_ * bx) by lia.
      apply canon_across; auto using vend_swap; try lia; try (unfold vend in *; lia); intros u v H; unfold R, frame, flip in *.
      * apply PV; [reflexivity|destruct left; lia|destruct (Z.ltb_spec (px o) (px p)); lia].
      * destruct (Z.ltb_spec (px o) (px p)), left; cbv beta iota in *; apply wire_sq; lia.
      * destruct (Z.ltb_spec (px o) (px p)), left; cbv beta iota in *; apply near_sq; lia.
      * destruct (Z.ltb_spec (px o) (px p)), left; cbv beta iota in *; apply far_sq; lia.
Qed.
End Geom.
