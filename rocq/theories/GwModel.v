(* Writing the guide file (src/io/io_parser_helper.cpp:928-965 writeGuideFile) and making the guides that are written
   (src/io/io_guide.cpp:798-816).  A file is its list of lines.  Not modelled: a file that cannot be opened. *)
From Verif Require Import Base GeomModel GCellModel.
From Coq Require Import String Ascii DecimalString Decimal.

(* frGuide: begin and end points and layers *)
Record guide := mkGd { gd_b : point; gd_e : point; gd_bl : Z; gd_el : Z }.
Section Gw.
Variable die : box.
Variables xg yg : gpat.
Variable layname : Z -> string.            (* tech->getLayer(...)->getName() *)

(* io_guide.cpp:806-812: the guide of a rectangle of gcells *)
Definition guide_of (r : Z * box) : guide :=
  mkGd (gcell_center die xg yg (ll (snd r))) (gcell_center die xg yg (ur (snd r))) (fst r) (fst r).
(* operator<< of an int *)
Definition dec (z : Z) : string := NilZero.string_of_int (Z.to_int z).
Definition guide_text (x1 y1 x2 y2 : Z) (l : string) : string :=
  (dec x1 ++ " " ++ dec y1 ++ " " ++ dec x2 ++ " " ++ dec y2 ++ " " ++ l)%string.
(* 936-960 *)
Definition write_guide (g : guide) : string :=
  let bbox := gcell_box die xg yg (gcell_idx xg yg (gd_b g)) in
  let ebox := gcell_box die xg yg (gcell_idx xg yg (gd_e g)) in
  if negb (gd_bl g =? gd_el g) then
    guide_text (bleft bbox) (bbottom bbox) (bright bbox) (btop bbox) (layname (gd_bl g) ++ ".5")
  else guide_text (bleft bbox) (bbottom bbox) (bright ebox) (btop ebox) (layname (gd_bl g)).
(* 931-962: the nets by name *)
Definition write_guides (nets : list (string * list guide)) : list string :=
  flat_map (fun n => fst n :: "("%string :: map write_guide (snd n) ++ [")"%string]) nets.
End Gw.
