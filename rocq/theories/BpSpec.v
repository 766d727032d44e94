(* Where the boundary pins of clips should be. *)
From Verif Require Import Base GeomModel GCellModel GCellSpec BatchModel ClipModel ClipSpec BpModel.

(* the lines between global cells: line k is the lower edge of cell k, line count the upper edge of the die *)
Definition line (g : gpat) (lo hi k : Z) : Z :=
  if k <=? 0 then lo else if k >=? gcount g then hi else gstart g + gspacing g * k.
(* a wire of track assignment, not a dummy *)
Definition real_wire (die : box) (w : tawire) : Prop :=
  bleft die <= px (tw_b w) /\ bbottom die <= py (tw_b w) /\ px (tw_e w) <= bright die /\ py (tw_e w) <= btop die /\
  ((py (tw_b w) = py (tw_e w) /\ px (tw_b w) + 1 < px (tw_e w)) \/ (px (tw_b w) = px (tw_e w) /\ py (tw_b w) + 1 < py (tw_e w))).
(* wire w runs across the vertical (horizontal) line at X (Y) at point p, coming from strictly below *)
Definition crosses_x (w : tawire) (p : point) : Prop :=
  py (tw_b w) = py (tw_e w) /\ py p = py (tw_b w) /\ px (tw_b w) < px p <= px (tw_e w).
Definition crosses_y (w : tawire) (p : point) : Prop :=
  px (tw_b w) = px (tw_e w) /\ px p = px (tw_b w) /\ py (tw_b w) < py p <= py (tw_e w).
(* coordinate v lies in cells i .. i+size-1: the upper edge belongs to the next cell, except at the die *)
Definition in_cells (g : gpat) (lo hi i size v : Z) : Prop :=
  line g lo hi i <= v /\ (v < line g lo hi (i + size) \/ (gcount g <= i + size /\ v <= hi)).
(* v is a line of the clip: an edge of one of its cells *)
Definition clip_line (g : gpat) (lo hi i size v : Z) : Prop :=
  exists k, i <= k <= i + size /\ 0 <= k <= gcount g /\ v = line g lo hi k.
(* p is on an edge of the clip *)
Definition on_clip_edge (die : box) (xg yg : gpat) (size : Z) (c : clip) (p : point) : Prop :=
  px p = line xg (bleft die) (bright die) (c_i c) \/ px p = line xg (bleft die) (bright die) (c_i c + size) \/
  py p = line yg (bbottom die) (btop die) (c_j c) \/ py p = line yg (bbottom die) (btop die) (c_j c + size).
