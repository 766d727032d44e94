(* What is relied on about the DEF VIAS section. *)
From Verif Require Import Base GeomModel GfSpec RefModel.
From Coq Require Import String Ascii DecimalString Decimal.

(* the line that opens a section: a keyword, the number of entries, a semicolon *)
Definition section_line (w : string) (n : Z) (s : string) : Prop := int32 n /\ exists t, numeral t n /\ line_of [w; t; ";"%string] s.
(* a line whose first word is [w] *)
Definition starts_with (w s : string) : Prop := exists pre r, s = (pre ++ w ++ r)%string /\ blanks pre /\ (r = EmptyString \/ exists c r', r = String c r' /\ blank_char c).
(* a rectangle of a via in DEF syntax *)
Definition def_rect (lay : string) (b : box) (s : string) : Prop :=
  exists x1 y1 x2 y2, numeral x1 (bleft b) /\ numeral y1 (bbottom b) /\ numeral x2 (bright b) /\ numeral y2 (btop b) /\
    line_of ["+"; "RECT"; lay; "("; x1; y1; ")"; "("; x2; y2; ")"]%string s.
(* a via in DEF syntax: its name, its three rectangles, a semicolon *)
Inductive def_via (v : mvia) : list string -> Prop :=
| def_via_i l0 l1 l2 l3 l4 : line_of ["-"%string; mv_name v] l0 -> def_rect (mv_lay1 v) (mv_box1 v) l1 -> def_rect (mv_cut v) (mv_cbox v) l2 ->
    def_rect (mv_lay2 v) (mv_box2 v) l3 -> line_of [";"%string] l4 -> def_via v [l0; l1; l2; l3; l4].
Definition names_ok (v : mvia) : Prop := word (mv_name v) /\ word (mv_lay1 v) /\ word (mv_cut v) /\ word (mv_lay2 v).
