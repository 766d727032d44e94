(* The DRC report file (src/dr/FlexDR.cpp:1799-1909 reportDRC, 2003-2005).  A file is its list of lines.  The characters of the
   coordinates are not modelled, only their value: an ostream prints a double with six significant digits. *)
From Verif Require Import Base GeomModel.
From Coq Require Import String Ascii.

(* src/frBaseTypes.h:141-182 frConstraintTypeEnum *)
Inductive ctype : Type :=
| KShort | KArea | KMinWidth | KSpacing | KEol | KEolParallelEdge | KTable | KTablePrl | KTableTw | KL58Table | KL58CutTable
| KL58CutTablePrl | KL58CutTableLayer | KL58CutSpacing | KL58CutParallelWithin | KL58CutAdjacent | KL58CutLayer | KCutSpacing
| KMinStep | KL58MinStep | KMinimumcut | KOffGrid | KMinEnclosedArea | KL58Corner | KL58CornerConcave | KL58CornerConvex
| KL58CornerSpacing | KL58Corner1D | KL58Corner2D | KL58Eol | KL58EolWithin | KL58EolEndToEnd | KL58EolParallelEdge | KL58EolMaxMin
| KCutClass | KNonSufficientMetal | KSamenet | KRightWay | KRectOnly | KRecheck.
(* src/frBaseTypes.h:214-219; IMPLANT and MASTERSLICE as one *)
Inductive ltype : Type := LCut | LRouting | LOther.
(* the objects a violation names *)
Inductive source : Type :=
| SNet (name : string) | SInstTerm (inst term : string) | STerm (name : string) | SInstBlk (inst : string) | SBlk | SUnexpected.
(* frMarker; [mk_srcs] the set of sources in the order of their addresses, None the null pointer *)
Record vmarker := mkVM { vm_con : option ctype; vm_layer : Z; vm_srcs : list (option source); vm_box : box }.

(* a decimal number: its digits and the power of ten they count *)
Definition decimal : Type := Z * Z.
Inductive rline : Type := Text (s : string) | BoxLine (l b r t : decimal) (layer : string).

Section Rpt.
Variable layer_type : Z -> ltype.       (* getTech()->getLayer(n)->getType(), getName() *)
Variable layer_name : Z -> string.
Variable dbu : Z.                       (* getDBUPerUU() *)
(* rounding of a quotient that is half way between two numbers of six digits depends on the double next to it *)
Variable up : Z -> bool.

(* 1815-1865 *)
Definition kind_text (c : ctype) (l : Z) : string :=
  match c with
  | KShort => match layer_type l with LRouting => "Short" | LCut => "CShort" | LOther => "" end
  | KMinWidth => "MinWid" | KSpacing => "MetSpc" | KEol => "EOLSpc" | KTablePrl => "MetSpc" | KCutSpacing => "CutSpc"
  | KMinStep => "MinStp" | KNonSufficientMetal => "NSMet" | KSamenet => "MetSpc" | KOffGrid => "OffGrid"
  | KMinEnclosedArea => "MinHole" | KArea => "MinArea" | KL58Corner => "CornerSpc" | KL58CutSpacing => "CutSpc"
  | KRectOnly => "RectOnly" | KRightWay => "RightWayOnGridOnly" | KL58MinStep => "MinStp"
  | _ => "unknown"
  end%string.
Definition type_line (m : vmarker) : string :=
  ("  violation type: " ++ match vm_con m with Some c => kind_text c (vm_layer m) | None => "nullptr" end)%string.
(* 1868-1896 *)
Definition src_text (s : option source) : string :=
  match s with
  | Some (SNet n) => n ++ " "
  | Some (SInstTerm i t) => i ++ "/" ++ t ++ " "
  | Some (STerm t) => "PIN/" ++ t ++ " "
  | Some (SInstBlk i) => i ++ "/OBS" ++ " "
  | Some SBlk => "PIN/OBS" ++ " "
  | Some SUnexpected | None => ""
  end%string.
Definition src_line (m : vmarker) : string := ("    srcs: " ++ fold_right (fun s r => (src_text s ++ r)%string) ""%string (vm_srcs m))%string.

(* the number of decimal digits; [n] bounds it *)
Fixpoint digs (n : nat) (a : Z) : Z := match n with O => 0 | S n => if a <? 10 then 1 else 1 + digs n (a / 10) end.
Definition ndigits (a : Z) : Z := digs (S (Z.to_nat (Z.log2 a))) a.
(* 1900-1901 operator<< of x / dbu, x and dbu positive: the first six digits, rounded *)
Definition print_pos (x : Z) : decimal :=
  let p := ndigits dbu in
  let q := x * 10 ^ p / dbu in
  let k := ndigits q - 6 - p in
  let num := x * 10 ^ (Z.max 0 (- k)) in
  let den := dbu * 10 ^ (Z.max 0 k) in
  let m := num / den in
  let r := num mod den in
  (if 2 * r <? den then m else if 2 * r >? den then m + 1 else if up x then m + 1 else m, k).
Definition print (x : Z) : decimal :=
  if x =? 0 then (0, 0) else if x <? 0 then let '(m, k) := print_pos (- x) in (- m, k) else print_pos x.
(* 1898-1906 *)
Definition box_line (m : vmarker) : rline :=
  BoxLine (print (bleft (vm_box m))) (print (bbottom (vm_box m))) (print (bright (vm_box m))) (print (btop (vm_box m)))
    (match layer_type (vm_layer m) with
     | LCut => if 0 <=? vm_layer m - 1 then layer_name (vm_layer m - 1) else layer_name (vm_layer m)
     | _ => layer_name (vm_layer m)
     end).
Definition entry (m : vmarker) : list rline := [Text (type_line m); Text (src_line m); box_line m].
(* 1810-1906, 2003-2005: no file without a name *)
Definition report (file : string) (ms : list vmarker) : option (list rline) :=
  if String.eqb file "" then None else Some (flat_map entry ms).
End Rpt.
