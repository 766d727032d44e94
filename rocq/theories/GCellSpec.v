(* Specification vocabulary for the global-cell properties. *)
From Verif Require Import Base GeomModel GeomSpec GCellModel.

(* one axis of a gcell grid against the die interval [lo, hi]: positive pitch, at least one cell,
   the second grid line is not left of the die, the last used grid line is inside the die *)
Definition axis_ok (g : gpat) (lo hi : Z) : Prop :=
  0 < gspacing g /\ 1 <= gcount g /\ lo <= hi /\
  lo <= gstart g + gspacing g /\ gstart g + gspacing g * (gcount g - 1) <= hi.
Definition grid_ok (die : box) (xg yg : gpat) : Prop :=
  axis_ok xg (bleft die) (bright die) /\ axis_ok yg (bbottom die) (btop die).
Definition idx_ok (xg yg : gpat) (i : point) : Prop :=
  0 <= px i < gcount xg /\ 0 <= py i < gcount yg.
(* number of occurrences of a value *)
Definition occ (v : Z) (l : list Z) : Z := Z.of_nat (count_occ Z.eq_dec l v).
