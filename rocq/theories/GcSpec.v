(* What the spacing and short checks should report, in terms of shapes and rule tables only. *)
From Verif Require Import Base Stl GeomModel GeomSpec TechSpec GcModel.

(* overlap length of two ranges; negative = minus the gap between them *)
Definition signed_overlap (a b c d : Z) : Z := Z.min b d - Z.max a c.
Definition touching (a b : box) : Prop := exists p, in_box p a /\ in_box p b.
(* two points of the shapes are closer than [v] *)
Definition closer_than (a b : box) (v : Z) : Prop :=
  exists p q, in_box p a /\ in_box q b /\ dist2 p q < v * v.
(* the common part, or the gap, on either axis *)
Definition between (a b : box) : box :=
  let xa := Z.max (bleft a) (bleft b) in let xb := Z.min (bright a) (bright b) in
  let ya := Z.max (bbottom a) (bbottom b) in let yb := Z.min (btop a) (btop b) in
  mkBox (mkPt (Z.min xa xb) (Z.min ya yb)) (mkPt (Z.max xa xb) (Z.max ya yb)).
(* parallel run length of two shapes that do not touch *)
Definition run_length (a b : box) : Z :=
  Z.max (signed_overlap (bleft a) (bright a) (bleft b) (bright b))
        (signed_overlap (bbottom a) (btop a) (bbottom b) (btop b)).

(* A LEF run-length table: sorted headers, rectangular, non-decreasing and non-negative values *)
Definition prl_table_ok (rows cols : list Z) (vals : list (list Z)) : Prop :=
  rows <> [] /\ cols <> [] /\ sorted_le rows /\ sorted_le cols /\ table_shape rows cols vals /\
  table_monotone vals (length rows) (length cols) /\ 0 <= cell vals 0 0.
(* the table entry for width [w] and run length [prl] *)
Definition table_value (rows cols : list Z) (vals : list (list Z)) (w prl v : Z) : Prop :=
  exists i j, last_below rows w i /\ last_below cols prl j /\ v = cell vals i j.
(* width a rule sees: the narrower dimension, or the layer width for obstructions if so configured *)
Definition rule_width (E : genv) (r : grect) : Z :=
  match e_kind E (gnet r), e_minobs E with
  | KObs, true => e_width E
  | _, _ => Z.min (deltaX (gbox r)) (deltaY (gbox r))
  end.
(* spacing required between shapes of different nets *)
Definition required (E : genv) (r1 r2 : grect) (v : Z) : Prop :=
  exists rows cols vals, e_rule E = PrlTable rows cols vals /\ prl_table_ok rows cols vals /\
    table_value rows cols vals (Z.max (rule_width E r1) (rule_width E r2))
      (run_length (gbox r1) (gbox r2)) v.

(* the polygon outline of a rectangle, metal on the left of every edge *)
Definition outline (n : Z) (b : box) : list gedge :=
  [ mkGE n EE (mkPt (bleft b) (bbottom b)) (mkPt (bright b) (bbottom b));
    mkGE n EN (mkPt (bright b) (bbottom b)) (mkPt (bright b) (btop b));
    mkGE n EW (mkPt (bright b) (btop b)) (mkPt (bleft b) (btop b));
    mkGE n ES (mkPt (bleft b) (btop b)) (mkPt (bleft b) (bbottom b)) ].
(* the rectangle is a whole connected piece of its net's metal *)
Definition isolated (E : genv) (r : grect) : Prop :=
  solid (gbox r) /\ incl (outline (gnet r) (gbox r)) (e_edges E).
(* the rectangle is routed metal: not fixed, and no fixed shape of its net overlaps it *)
Definition routed (E : genv) (r : grect) : Prop :=
  gfixed r = false /\
  forall b, In b (e_fixed E (gnet r)) -> box_overlaps b (gbox r) false = false.

(* the same violation: same place, layer and rule, same two owners in either order *)
Definition same_violation (m m' : marker) : Prop :=
  mbox m = mbox m' /\ mlayer m = mlayer m' /\ mcon m = mcon m' /\
  ((msrc1 m = msrc1 m' /\ msrc2 m = msrc2 m') \/ (msrc1 m = msrc2 m' /\ msrc2 m = msrc1 m')).
(* the same up to owners that do not exist (0 = floating metal) *)
Definition same_reported (m m' : marker) : Prop :=
  mbox m = mbox m' /\ mlayer m = mlayer m' /\ mcon m = mcon m' /\
  forall s, s <> 0 -> (s = msrc1 m \/ s = msrc2 m <-> s = msrc1 m' \/ s = msrc2 m').
Definition reports (ms : list marker) (m : marker) : Prop := exists m', In m' ms /\ same_reported m m'.

(* two-width tables: rows in increasing width and run length *)
Definition tw_sorted (hdr : list (Z * Z)) : Prop :=
  forall i j, (i <= j < length hdr)%nat ->
    fst (nth i hdr (0, 0)) <= fst (nth j hdr (0, 0)) /\ snd (nth i hdr (0, 0)) <= snd (nth j hdr (0, 0)).
(* the row LEF prescribes: the last one whose width and run length are both exceeded, else the first *)
Definition tw_row (hdr : list (Z * Z)) (w prl : Z) (i : nat) : Prop :=
  (i < length hdr)%nat /\
  (i = O \/ (fst (nth i hdr (0, 0)) < w /\ snd (nth i hdr (0, 0)) < prl)) /\
  (forall j, (i < j)%nat -> (j < length hdr)%nat ->
     ~ (fst (nth j hdr (0, 0)) < w /\ snd (nth j hdr (0, 0)) < prl)).
