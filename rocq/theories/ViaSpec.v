(* Which via a cut layer should use. *)
From Verif Require Import Base GeomModel GcModel ViaModel.

(* [b] is the smallest box that contains all shapes *)
Definition contains_box (b c : box) : Prop := bleft b <= bleft c /\ bright c <= bright b /\ bbottom b <= bbottom c /\ btop c <= btop b.
Definition smallest_box (b : box) (figs : list (Z * box)) : Prop :=
  (forall f, In f figs -> contains_box b (snd f)) /\ forall c, (forall f, In f figs -> contains_box c (snd f)) -> contains_box c b.
(* a via with one cut, on cut layer l *)
Definition single_cut (l : Z) (v : vdef) : Prop := exists b, v_cut v = [(l, b)].
(* the longer side lies across the direction of the layer; a square lies along vertical layers *)
Definition across (d : ldir) (figs : list (Z * box)) : Prop :=
  match d with
  | DirH => deltaX (bbox_of figs) <= deltaY (bbox_of figs)
  | DirV => deltaY (bbox_of figs) < deltaX (bbox_of figs)
  | DirNone => False
  end.
Definition shorter_side (figs : list (Z * box)) : Z := Z.min (deltaX (bbox_of figs)) (deltaY (bbox_of figs)).

(* [less_by r q] is the order "by r, then by q" *)
Definition then_by (a c : Z) (q : Prop) : Prop := a < c \/ (a = c /\ q).
Definition no_before (P Q : Prop) (q : Prop) : Prop := (~ P /\ Q) \/ ((P <-> Q) /\ q).
(* v is preferred to w: LEF default vias first, then the narrower lower metal, the narrower upper metal, upper metal along its
   layer, the smaller upper metal, the smaller lower metal, lower metal along its layer *)
Section Prefer.
Variable dir : Z -> ldir.
Definition layer1 (v : vdef) : Z := match v_l1 v with (l, _) :: _ => l | [] => 0 end.
Definition layer2 (v : vdef) : Z := match v_l2 v with (l, _) :: _ => l | [] => 0 end.
Definition preferred (v w : vdef) : Prop :=
  no_before (v_default v = false) (v_default w = false)
  (then_by (shorter_side (v_l1 v)) (shorter_side (v_l1 w))
  (then_by (shorter_side (v_l2 v)) (shorter_side (v_l2 w))
  (no_before (across (dir (layer2 v)) (v_l2 v)) (across (dir (layer2 w)) (v_l2 w))
  (then_by (union_area (v_l2 v)) (union_area (v_l2 w))
  (then_by (union_area (v_l1 v)) (union_area (v_l1 w))
  (no_before (across (dir (layer1 v)) (v_l1 v)) (across (dir (layer1 w)) (v_l1 w)) False)))))).
(* the metal does not stick out across the layer further than along it *)
Definition lies_along (d : ldir) (figs : list (Z * box)) : Prop :=
  match d with
  | DirH => deltaY (bbox_of figs) <= deltaX (bbox_of figs)
  | _ => deltaX (bbox_of figs) <= deltaY (bbox_of figs)
  end.
End Prefer.
(* b mirrored at the diagonal *)
Definition mirrored (b c : box) : Prop := bleft c = bbottom b /\ bbottom c = bleft b /\ bright c = btop b /\ btop c = bright b.
Definition complete (v : vdef) : Prop := v_l1 v <> [] /\ v_l2 v <> [].
Definition upright (b : box) : Prop := bleft b <= bright b /\ bbottom b <= btop b.
Definition via_upright (v : vdef) : Prop := forall f, In f (v_l1 v ++ v_l2 v ++ v_cut v) -> upright (snd f).
