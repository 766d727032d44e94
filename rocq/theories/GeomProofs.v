From Verif Require Import Base GeomModel GeomSpec.
From Coq Require Import String.

Ltac pts := repeat match goal with
  | p : point |- _ => destruct p as [?x ?y]
  | b : box |- _ => destruct b as [?l ?u]
  | t : xform |- _ => destruct t as [?dx ?dy ?o]
  end.
Ltac geo := unfold in_box, normalised, solid, box_width, box_length, box_transform, box_of_pts, box_set,
  xf_update, xf_revert, pt_transform, bleft, bright, bbottom, btop, orient_map, padd, rot90, mirrorX, mirrorY
  in *; cbn [px py ll ur xo yo ori] in *.

Lemma transform_spec p t :
  pt_transform p t = padd (mkPt (xo t) (yo t)) (orient_map (ori t) p).
Proof. pts. match goal with o : orient |- _ => destruct o end; geo; f_equal; lia. Qed.

Lemma transform_revert p t : pt_transform (pt_transform p t) (xf_revert t) = p.
Proof. pts. match goal with o : orient |- _ => destruct o end; geo; f_equal; lia. Qed.
Lemma revert_transform p t : pt_transform (pt_transform p (xf_revert t)) t = p.
Proof. pts. match goal with o : orient |- _ => destruct o end; geo; f_equal; lia. Qed.
Lemma transform_isometry p q t : dist2 (pt_transform p t) (pt_transform q t) = dist2 p q.
Proof. pts. unfold dist2. match goal with o : orient |- _ => destruct o end; geo; ring. Qed.

Lemma box_set_normalised a b c d : normalised (box_set a b c d).
Proof. geo; zcases; lia. Qed.
Lemma box_of_pts_covers a b :
  normalised (box_of_pts a b) /\ in_box a (box_of_pts a b) /\ in_box b (box_of_pts a b) /\
  (forall c, normalised c -> in_box a c -> in_box b c ->
     forall p, in_box p (box_of_pts a b) -> in_box p c).
Proof. pts; geo. repeat split; zcases; cbn [px py] in *; try lia; pts; geo; lia. Qed.

Lemma box_transform_points b t p : normalised b ->
  (in_box p (box_transform b t) <-> exists q, in_box q b /\ p = pt_transform q t).
Proof.
  intros Hn. split.
  - intros H. exists (pt_transform p (xf_revert t)). rewrite revert_transform. split; [|reflexivity].
    pts. match goal with o : orient |- _ => destruct o end; geo; zcases; cbn [px py] in *; lia.
  - intros (q & Hq & ->). pts. match goal with o : orient |- _ => destruct o end; geo; zcases; cbn [px py] in *; lia.
Qed.
Lemma box_transform_normalised b t : normalised (box_transform b t).
Proof. apply box_set_normalised. Qed.
Lemma box_transform_dims b t : normalised b ->
  box_width (box_transform b t) = box_width b /\ box_length (box_transform b t) = box_length b.
Proof. intros Hn. pts. match goal with o : orient |- _ => destruct o end; geo; zcases; cbn [px py] in *; lia. Qed.

Lemma contains_pt_spec b p :
  (box_contains_pt b p true = true <-> in_box p b) /\
  (box_contains_pt b p false = true <-> in_interior2 (2 * px p) (2 * py p) b).
Proof. unfold box_contains_pt, in_interior2; pts; geo. lia. Qed.

Lemma contains_box_spec a b : normalised b ->
  (box_contains_box a b true = true <-> (forall p, in_box p b -> in_box p a)) /\
  (box_contains_box a b false = true <->
     (forall p, in_box p b -> in_interior2 (2 * px p) (2 * py p) a)).
Proof.
  intros Hn. unfold box_contains_box, in_interior2. split; split.
  - pts; geo; intros; lia.
  - intros H. pose proof (H (ll b)). pose proof (H (ur b)). pts; geo; lia.
  - pts; geo; intros; lia.
  - intros H. pose proof (H (ll b)). pose proof (H (ur b)). pts; geo; lia.
Qed.

Lemma overlaps_inc_spec a b : normalised a -> normalised b ->
  (box_overlaps a b true = true <-> exists p, in_box p a /\ in_box p b).
Proof.
  intros Ha Hb. unfold box_overlaps. split.
  - intros H. exists (mkPt (Z.max (bleft a) (bleft b)) (Z.max (bbottom a) (bbottom b))).
    pts; geo; lia.
  - intros (p & H1 & H2). pts; geo; lia.
Qed.
Lemma overlaps_exc_spec a b : solid a -> solid b ->
  (box_overlaps a b false = true <-> exists x2 y2, in_interior2 x2 y2 a /\ in_interior2 x2 y2 b).
Proof.
  intros Ha Hb. unfold box_overlaps, in_interior2. split.
  - intros H. exists (2 * Z.max (bleft a) (bleft b) + 1), (2 * Z.max (bbottom a) (bbottom b) + 1).
    pts; geo; lia.
  - intros (x & y & H1 & H2). pts; geo; lia.
Qed.

Lemma sq_mono x y : 0 <= x -> x <= Z.abs y -> x * x <= y * y.
Proof. intros. rewrite <- (Z.abs_square y). nia. Qed.

Lemma pt2box_spec p b : normalised b ->
  is_min_dist2 (fun q => q = p) (fun q => in_box q b) (pt2boxDistSquare p b).
Proof.
  intros Hn. split.
  - exists p, (mkPt (Z.max (bleft b) (Z.min (px p) (bright b)))
                    (Z.max (bbottom b) (Z.min (py p) (btop b)))).
    split; [reflexivity|]. split; [pts; geo; lia|].
    unfold dist2, pt2boxDistSquare. pts; geo.
    f_equal; match goal with |- ?a * ?a = ?b * ?b => assert (a = b \/ a = - b) as [->| ->] by lia end; ring.
  - intros q r -> Hr. unfold dist2, pt2boxDistSquare. pts; geo.
    apply Z.add_le_mono; apply sq_mono; lia.
Qed.

Lemma box2box_spec a b : normalised a -> normalised b ->
  is_min_dist2 (fun p => in_box p a) (fun q => in_box q b) (box2boxDistSquare a b).
Proof.
  intros Ha Hb. split.
  - exists (mkPt (Z.min (bright a) (Z.max (bleft a) (bleft b))) (Z.min (btop a) (Z.max (bbottom a) (bbottom b)))).
    exists (mkPt (Z.min (bright b) (Z.max (bleft a) (bleft b))) (Z.min (btop b) (Z.max (bbottom a) (bbottom b)))).
    unfold dist2, box2boxDistSquare, box2boxDx, box2boxDy. pts; geo.
    split; [lia|]. split; [lia|].
    f_equal; match goal with |- ?a * ?a = ?b * ?b => assert (a = b \/ a = - b) as [->| ->] by lia end; ring.
  - intros p q Hp Hq. unfold dist2, box2boxDistSquare, box2boxDx, box2boxDy. pts; geo.
    apply Z.add_le_mono; apply sq_mono; lia.
Qed.
Lemma box2boxNew_eq a b : box2boxDistSquareNew a b = box2boxDistSquare a b.
Proof. reflexivity. Qed.
Lemma box2box_zero a b : normalised a -> normalised b ->
  (box2boxDistSquare a b = 0 <-> box_overlaps a b true = true).
Proof.
  intros Ha Hb. unfold box2boxDistSquare, box2boxDx, box2boxDy, box_overlaps. pts; geo.
  split; intros H.
  - match type of H with ?x * ?x + ?y * ?y = 0 => assert (x = 0 /\ y = 0) by nia end. lia.
  - match goal with |- ?x * ?x + ?y * ?y = 0 => assert (x = 0 /\ y = 0) as [-> ->] by lia end. reflexivity.
Qed.
Lemma bloat_spec b d p : normalised b -> 0 <= d ->
  (in_box p (box_bloat b d) <->
   exists q, in_box q b /\ Z.abs (px p - px q) <= d /\ Z.abs (py p - py q) <= d).
Proof.
  intros Hn Hd. unfold box_bloat. split.
  - intros H. exists (mkPt (Z.max (bleft b) (Z.min (px p) (bright b)))
                    (Z.max (bbottom b) (Z.min (py p) (btop b)))).
    pts; geo; zcases; cbn [px py] in *; lia.
  - intros (q & H). pts; geo; zcases; cbn [px py] in *; lia.
Qed.

Lemma box_set_minmax a b c d :
  box_set a b c d = mkBox (mkPt (Z.min a c) (Z.min b d)) (mkPt (Z.max a c) (Z.max b d)).
Proof. unfold box_set. apply (f_equal2 mkBox); apply (f_equal2 mkPt); zcases; lia. Qed.
Lemma inst_bbox_ll sx sy t : 0 <= sx -> 0 <= sy ->
  inst_bbox (mkBox (mkPt 0 0) (mkPt sx sy)) t =
  mkBox (mkPt (xo t) (yo t))
        (if swaps (ori t) then mkPt (xo t + sy) (yo t + sx) else mkPt (xo t + sx) (yo t + sy)).
Proof.
  intros. unfold inst_bbox, box_transform, box_of_pts. rewrite box_set_minmax.
  destruct t as [dx dy o]. destruct o; cbn [xf_update pt_transform bleft bright bbottom btop px py ll ur xo yo ori swaps];
    apply (f_equal2 mkBox); apply (f_equal2 mkPt); cbn [xf_update pt_transform bleft bright bbottom btop px py ll ur xo yo ori]; lia.
Qed.
Lemma inst_bbox_is_xform ref t :
  inst_bbox ref t = box_transform ref (inst_updated_xform ref t false).
Proof. reflexivity. Qed.

Lemma pt_lt_sto : strict_total_order pt_lt.
Proof.
  unfold strict_total_order, pt_lt. repeat split; intros; pts; cbn [px py] in *; zcases; try lia.
  f_equal; lia.
Qed.
Lemma pt_eq_spec a b : pt_eq a b = true <-> a = b.
Proof. unfold pt_eq. pts. cbn. split; intros H; [f_equal; lia| inversion H; lia]. Qed.
Lemma box_lt_sto : strict_total_order box_lt.
Proof.
  unfold strict_total_order, box_lt, pt_lt, pt_eq. repeat split; intros; pts; cbn [px py ll ur] in *; zcases;
    cbn [negb andb] in *; try lia.
  all: apply (f_equal2 mkBox); apply (f_equal2 mkPt); lia.
Qed.
Lemma mi_lt_sto : strict_total_order mi_lt.
Proof.
  unfold strict_total_order, mi_lt. repeat split; intros;
    repeat match goal with m : midx |- _ => destruct m as [?x ?y ?z] end; cbn [mx my mz] in *; zcases;
    cbn [negb andb] in *; try lia.
  f_equal; lia.
Qed.

Lemma orient_name_roundtrip o : orient_of_name (orient_name o) = o.
Proof. destruct o; reflexivity. Qed.
Lemma orient_name_inj a b : orient_name a = orient_name b -> a = b.
Proof. intros H. rewrite <- (orient_name_roundtrip a), H. apply orient_name_roundtrip. Qed.
Lemma orient_of_name_unknown s : (forall o, s <> orient_name o) -> orient_of_name s = R0.
Proof.
  intros H. unfold orient_of_name.
  repeat match goal with |- context [String.eqb s ?n] =>
    destruct (String.eqb_spec s n) as [->|?] end; try reflexivity; exfalso;
  [apply (H R90)|apply (H R180)|apply (H R270)|apply (H MY)|apply (H MYR90)|apply (H MX)|apply (H MXR90)];
  reflexivity.
Qed.
