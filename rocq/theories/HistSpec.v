(* Places of history costs. *)
From Verif Require Import Base Stl GeomModel GridModel GridSpec HistModel.

(* a wire along the grid, from [m1] to [m2] *)
Definition wire_ok (g : gg) (m1 m2 : midx) : Prop :=
  valid g m1 /\ valid g m2 /\ mz m1 = mz m2 /\ ((my m1 = my m2 /\ mx m1 <= mx m2) \/ (mx m1 = mx m2 /\ my m1 < my m2)).
Definition on_wire (m1 m2 q : midx) : Prop := mx m1 <= mx q <= mx m2 /\ my m1 <= my q <= my m2 /\ mz q = mz m1.
(* a grid point of the wire that is along the wire at most [d] from the marker *)
Definition wire_near (g : gg) (mbox : box) (m1 m2 : midx) (d : Z) (q : midx) : Prop :=
  on_wire m1 m2 q /\
  (my m1 = my m2 -> bleft mbox - d <= px (getPoint g q) <= bright mbox + d) /\
  (my m1 <> my m2 -> bbottom mbox - d <= py (getPoint g q) <= btop mbox + d).
Definition two_points (P : midx -> Prop) : Prop := exists a b, P a /\ P b /\ a <> b.
(* [k] is the least of 1, ..., 6 such that two points of the wire are within k widths of the marker; 6 if there is none *)
Definition reach (g : gg) (mbox : box) (m1 m2 : midx) (w k : Z) : Prop :=
  1 <= k <= 6 /\ (forall j, 1 <= j < k -> ~ two_points (wire_near g mbox m1 m2 (j * w))) /\
  (k < 6 -> two_points (wire_near g mbox m1 m2 (k * w))).
(* inside the route box *)
Definition inside (b : box) (p : point) : Prop := bleft b <= px p <= bright b /\ bbottom b <= py p <= btop b.
(* grid points from the first line at or after the lower left corner of the patch to the first at or after its upper right *)
Definition at_patch (g : gg) (b : box) (lNum : Z) (q : midx) : Prop :=
  mx (getMazeIdx g (ll b) lNum) <= mx q <= mx (getMazeIdx g (ur b) lNum) /\
  my (getMazeIdx g (ll b) lNum) <= my q <= my (getMazeIdx g (ur b) lNum) /\ mz q = mz (getMazeIdx g (ll b) lNum).
(* shapes that lie on the grid *)
Definition fig_ok (g : gg) (lNum : Z) (f : hfig) : Prop :=
  match f with
  | HSeg _ _ w m1 m2 => 0 <= w /\ wire_ok g m1 m2
  | HVia _ _ m => valid g m
  | HPatch _ b => valid g (getMazeIdx g (ll b) lNum) /\ valid g (getMazeIdx g (ur b) lNum)
  end.
Definition marker_ok (g : gg) (m : box * Z * list hfig) : Prop :=
  let '(mbox, lNum, figs) := m in bleft mbox <= bright mbox /\ bbottom mbox <= btop mbox /\ Forall (fig_ok g lNum) figs.
(* price put on a place, planar and via *)
Definition cost_x (s : hstate) (q : midx) : Z := read (hg s) q AMarkX.
Definition cost_v (s : hstate) (q : midx) : Z := read (hg s) q AMarkU.
(* the places with a price are recorded *)
Definition noted_x (s : hstate) : Prop := forall q, valid (hg s) q -> cost_x s q <> 0 -> In q (hp s).
Definition noted_v (s : hstate) : Prop := forall q, valid (hg s) q -> cost_v s q <> 0 -> In q (hv s).
Definition sets_ok (s : hstate) : Prop := NoDup (hp s) /\ NoDup (hv s) /\ Forall (valid (hg s)) (hp s) /\ Forall (valid (hg s)) (hv s).
