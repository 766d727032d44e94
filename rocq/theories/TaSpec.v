(* Independent vocabulary for the track assignment properties. *)
From Verif Require Import Base GeomModel GeomSpec.

(* two boxes have points at Euclidean distance less than [d] *)
Definition closer (a b : box) (d : Z) : Prop :=
  exists p q, in_box p a /\ in_box q b /\ dist2 p q < d * d.

(* position [x] along a track at [loc]; [isH]: tracks run horizontally *)
Definition on_track (isH : bool) (x loc : Z) : point := if isH then mkPt x loc else mkPt loc x.
(* a box moved so that its origin is at [p] *)
Definition moved (b : box) (p : point) : box :=
  mkBox (mkPt (px (ll b) + px p) (py (ll b) + py p)) (mkPt (px (ur b) + px p) (py (ur b) + py p)).
(* the end of a default wire of half width [hw] *)
Definition wire_end (hw : Z) : box := mkBox (mkPt (- hw) (- hw)) (mkPt hw hw).
(* some charged box covers the point *)
Definition charged_at (cs : list box) (p : point) : Prop := exists c, In c cs /\ in_box p c.

(* the extent of a box across / along the tracks *)
Definition across (isH : bool) (b : box) : Z * Z :=
  if isH then (py (ll b), py (ur b)) else (px (ll b), px (ur b)).
Definition extent_along (isH : bool) (b : box) : Z :=
  if isH then px (ur b) - px (ll b) else py (ur b) - py (ll b).
Definition extent_across (isH : bool) (b : box) : Z :=
  if isH then py (ur b) - py (ll b) else px (ur b) - px (ll b).

(* Longest possible parallel run between a shape and a via on the track at [loc]: when the via is
   beside the shape (their ranges across the track are apart) they run along the track, otherwise
   across it.  A wire ([isWire]) may be longer than it looks, so only the via limits the run. *)
Definition longest_run (isH isWire : bool) (b via : box) (loc run : Z) : Prop :=
  let lim f := if isWire then f isH via else Z.min (f isH b) (f isH via) in
  let '(lo, hi) := across isH b in
  let '(vlo, vhi) := across isH via in
  ((hi < vlo + loc \/ vhi + loc < lo) -> run = lim extent_along) /\
  (lo <= vhi + loc /\ vlo + loc <= hi -> run = lim extent_across).
