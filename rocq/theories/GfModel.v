(* Reading the guide file (src/io/io.cpp:4908-5008 readGuide).  A file is its list of lines; characters are bytes.
   std::stoi follows the C library: blanks, a sign, digits; what comes after them is ignored.
   Messages and counters are not modelled; every exit and exception is None. *)
From Verif Require Import Base GeomModel.
From Coq Require Import String Ascii.

Section Gf.
Variable netnum : string -> option Z.      (* design->topBlock->name2net *)
Variable laynum : string -> option Z.      (* tech->name2layer, getLayerNum *)
Variables brl trl val : Z.                 (* BOTTOM_ROUTING_LAYER, TOP_ROUTING_LAYER, VIA_ACCESS_LAYERNUM *)

(* isspace *)
Definition is_ws (c : ascii) : bool := let n := nat_of_ascii c in Nat.eqb n 32 || (Nat.leb 9 n && Nat.leb n 13).
(* the word that starts at the beginning (maybe empty) and the words after it *)
Fixpoint toks (s : string) : string * list string :=
  match s with
  | EmptyString => (EmptyString, [])
  | String c r =>
      let '(w, l) := toks r in
      if is_ws c then (EmptyString, if String.eqb w "" then l else w :: l) else (String c w, l)
  end.
Definition tokens (s : string) : list string := let '(w, l) := toks s in if String.eqb w "" then l else w :: l.
Fixpoint ends_ws (s : string) : bool :=
  match s with EmptyString => false | String c EmptyString => is_ws c | String _ r => ends_ws r end.
(* 4931-4938: while (!ss.eof()) { ss >> word; push_back(word); }.  After a blank at the end of the line the last
   extraction fails and leaves [word] as it was, initially "" *)
Definition line_words (s : string) : list string := if ends_ws s then tokens s ++ [last (tokens s) EmptyString] else tokens s.

(* std::stoi *)
Definition digit (c : ascii) : option Z :=
  let n := nat_of_ascii c in if Nat.leb 48 n && Nat.leb n 57 then Some (Z.of_nat n - 48) else None.
(* the digits at the beginning: the value and whether there is one *)
Fixpoint digits (s : string) (acc : Z) (some : bool) : option Z :=
  match s with
  | EmptyString => if some then Some acc else None
  | String c r => match digit c with Some d => digits r (10 * acc + d) true | None => if some then Some acc else None end
  end.
Fixpoint skip_ws (s : string) : string := match s with String c r => if is_ws c then skip_ws r else s | EmptyString => s end.
Definition to_int (z : Z) : option Z := if (- 2147483648 <=? z) && (z <=? 2147483647) then Some z else None.
Definition stoi (s : string) : option Z :=
  match skip_ws s with
  | String c r =>
      if Ascii.eqb c "-" then match digits r 0 false with Some v => to_int (- v) | None => None end
      else if Ascii.eqb c "+" then match digits r 0 false with Some v => to_int v | None => None end
      else match digits (String c r) 0 false with Some v => to_int v | None => None end
  | EmptyString => None
  end.

(* a guide as read: its net (None: the null pointer), box and layer *)
Record rguide := mkRG { rg_net : option Z; rg_box : box; rg_layer : Z }.
(* net and tmpGuides *)
Definition gstate : Type := option Z * list rguide.
(* 4961-4962 *)
Definition layer_refused (l : Z) : bool := ((l <? brl) && negb (l =? val)) || (l >? trl).
(* 4924-4994: one line *)
Definition read_line (st : gstate) (s : string) : option gstate :=
  let '(net, gs) := st in
  if String.eqb s "(" || String.eqb s "" then Some st
  else if String.eqb s ")" then Some st
  else match line_words s with
       | [n] => match netnum n with Some k => Some (Some k, gs) | None => None end
       | [a; b; c; d; e] =>
           match laynum e with
           | None => None
           | Some l =>
               if layer_refused l then None
               else match stoi a, stoi b, stoi c, stoi d with
                    | Some x1, Some y1, Some x2, Some y2 => Some (net, gs ++ [mkRG net (box_set x1 y1 x2 y2) l])
                    | _, _, _, _ => None
                    end
           end
       | _ => None
       end.
Definition read_guides (lines : list string) : option (list rguide) :=
  option_map snd (fold_left (fun st s => match st with Some g => read_line g s | None => None end) lines (Some (None, []))).
(* tmpGuides[net] *)
Definition guides_of (gs : list rguide) (n : Z) : list (box * Z) :=
  flat_map (fun g => match rg_net g with Some k => if k =? n then [(rg_box g, rg_layer g)] else [] | None => [] end) gs.
End Gf.
