(* The reference DEF: the input DEF with the vias made by the router (src/io/io_parser_helper.cpp:542-648 writeRefDef).
   A file is its list of lines without the line ends (the last line gets one).  Numbers are printed in decimal;
   the sum of the number of vias is not reduced to 32 bits.  The vias are those added by the router, in the order of
   the technology (543-549).  Opening of files is not modelled. *)
From Verif Require Import Base GeomModel GfModel.
From Coq Require Import String Ascii DecimalString Decimal.
From Coq Require Import List.
Open Scope list_scope.

(* a via made by the router (viaDef->isAddedByRouter()): its name and for its lower, cut and upper layer the name of
   the layer and the box (via.getLayer1BBox, getCutBBox, getLayer2BBox of a via at (0,0)) *)
Record mvia := mkMV { mv_name : string; mv_lay1 : string; mv_box1 : box; mv_cut : string; mv_cbox : box; mv_lay2 : string; mv_box2 : box }.

(* operator<< of an int *)
Definition print_int (z : Z) : string := NilZero.string_of_int (Z.to_int z).
(* 591-593, 594-596, 597-599 and 618-626 *)
Definition rect_line (lay : string) (b : box) : string :=
  ("  + RECT " ++ lay ++ " ( " ++ print_int (bleft b) ++ " " ++ print_int (bbottom b) ++ " )"
   ++ " ( " ++ print_int (bright b) ++ " " ++ print_int (btop b) ++ " )")%string.
(* 584-601, 611-628: one via *)
Definition via_text (v : mvia) : list string :=
  [("- " ++ mv_name v)%string; rect_line (mv_lay1 v) (mv_box1 v); rect_line (mv_cut v) (mv_cbox v); rect_line (mv_lay2 v) (mv_box2 v); "  ;"%string].
(* "\nVIAS n ;\n" *)
Definition vias_head (n : Z) : list string := [EmptyString; ("VIAS " ++ print_int n ++ " ;")%string].

(* iss >> a >> b: the first word and the number at the beginning of the second *)
Definition head_int (s : string) : option (string * Z) :=
  match tokens s with a :: t :: _ => match stoi t with Some b => Some (a, b) | None => None end | _ => None end.
Definition heads (w : string) (s : string) : option Z :=
  match head_int s with Some (a, b) => if String.eqb a w then Some b else None | None => None end.
(* 566-575: the first pass *)
Definition has_vias (lines : list string) : bool := existsb (fun s => match heads "VIAS" s with Some _ => true | None => false end) lines.
(* 581-641: the second pass, one line *)
Definition ref_line (hasvia : bool) (made : list mvia) (s : string) : list string :=
  if negb hasvia then
    match heads "COMPONENTS" s with
    | Some _ => vias_head (Z.of_nat (length made)) ++ flat_map via_text made ++ ["END VIAS"%string; EmptyString] ++ [s]
    | None => [s]
    end
  else match heads "VIAS" s with
       | Some b => vias_head (b + Z.of_nat (length made)) ++ flat_map via_text made
       | None => [s]
       end.
(* 551-647 for REF_OUT_FILE <> DEF_FILE *)
Definition ref_def (made : list mvia) (lines : list string) : list string := flat_map (ref_line (has_vias lines) made) lines.
