(* What the DEF after track assignment should contain. *)
From Verif Require Import Base GeomModel ClipModel ClipSpec TwModel.

(* a wire with the default style of its layer: default width, both ends extended by half of it *)
Definition fig_default (lw : Z -> Z) (f : fig) : Prop :=
  match f with FSeg w => ws w = mkSt StExtend (Z.quot (lw (wl w)) 2) StExtend (Z.quot (lw (wl w)) 2) (lw (wl w)) | _ => True end.
(* two vias at one place with one cut layer *)
Definition same_place (vcut : Z -> Z) (f g : fig) : Prop :=
  match f, g with FVia o _ _ d, FVia o' _ _ d' => o = o' /\ vcut d = vcut d' | _, _ => False end.
Definition a_via (f : fig) : Prop := match f with FVia _ _ _ _ => True | _ => False end.
(* a vertical and a horizontal wire of one layer that cross in the middle of both *)
Definition crossing (a c : wire) : Prop :=
  wl a = wl c /\ px (wb a) = px (we a) /\ py (wb c) = py (we c) /\
  px (wb c) < px (wb a) < px (we c) /\ py (wb a) < py (wb c) < py (we a).
