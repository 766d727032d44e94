(* Guides as rectangles of global cells. *)
From Verif Require Import Base GeomModel GCellModel GCellSpec GfModel GfSpec.
From Coq Require Import String.

(* a die on a grid that starts inside it: every cell has an area, and C++ division finds the centres *)
Definition axis_good (g : gpat) (lo hi : Z) : Prop :=
  0 < gspacing g /\ 1 <= gcount g /\ 0 <= lo < gstart g + gspacing g /\ gstart g + gspacing g * (gcount g - 1) < hi /\
  lo < hi <= 2147483647.
Definition grid_good (die : box) (xg yg : gpat) : Prop :=
  axis_good xg (bleft die) (bright die) /\ axis_good yg (bbottom die) (btop die).
(* a rectangle of cells: the cells from the lower left to the upper right one *)
Definition cells_ok (xg yg : gpat) (b : box) : Prop :=
  0 <= bleft b <= bright b /\ bright b < gcount xg /\ 0 <= bbottom b <= btop b /\ btop b < gcount yg.
(* the edges of the cells: the grid lines, at the border of the die those of the die *)
Definition low_edge (g : gpat) (lo i : Z) : Z := if i =? 0 then lo else gstart g + i * gspacing g.
Definition high_edge (g : gpat) (hi i : Z) : Z := if i =? gcount g - 1 then hi else gstart g + (i + 1) * gspacing g.
Definition area_of (die : box) (xg yg : gpat) (b : box) : box :=
  mkBox (mkPt (low_edge xg (bleft die) (bleft b)) (low_edge yg (bbottom die) (bbottom b)))
        (mkPt (high_edge xg (bright die) (bright b)) (high_edge yg (btop die) (btop b))).
