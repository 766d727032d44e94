(* What the DEF writer prints of the input it copies: rows, tracks, the gcell grid and the components (src/io/defw.cpp), and what the DEF
   parser makes of it (module/def/5.8-p029/def/def.y).
   A text is a list of words and numbers.  Simplifications: numbers are whole (the parser rounds all but steps); the lexer is not modelled:
   a name is a word other than the signs of the language, and the number it reads is the number printed (strtod, def_keywords.cpp:627);
   DEF version 5.6 or later (FOREIGN, REGION with points and UNPLACED with a place are ignored by the parser and never reach the writer). *)
From Coq Require Import String.
From Verif Require Import Base.
Local Open Scope string_scope.
Local Open Scope Z_scope.
Local Open Scope list_scope.

Inductive tok := W (s : string) | Nu (z : Z).

(* printf("%g") of a whole number: six significant digits, the nearest value, the even one of two.
   [scale6]: the power of ten that leaves at most six digits *)
Fixpoint scale6 (fuel : nat) (p a : Z) : Z := match fuel with O => p | S f => if a <? 1000000 * p then p else scale6 f (10 * p) a end.
Definition g6 (n : Z) : Z :=
  let a := Z.abs n in
  let p := scale6 (Z.to_nat (Z.log2 a)) 1 a in
  let q := a / p in
  let r := a mod p in
  let q' := if (p <? 2 * r) || ((2 * r =? p) && Z.odd q) then q + 1 else q in
  Z.sgn n * (q' * p).

(* --- the parser's reading --- *)
Definition sign (s : string) : bool := existsb (String.eqb s) [";"; "+"; "-"; "("; ")"].
Definition eat (s : string) (ts : list tok) : option (list tok) :=
  match ts with W k :: r => if String.eqb k s then Some r else None | _ => None end.
Definition num (ts : list tok) : option (Z * list tok) := match ts with Nu z :: r => Some (z, r) | _ => None end.
(* T_STRING *)
Definition word (ts : list tok) : option (string * list tok) := match ts with W s :: r => if sign s then None else Some (s, r) | _ => None end.
(* as many T_STRING as there are *)
Fixpoint words (ts : list tok) : list string * list tok :=
  match ts with
  | W s :: r => if sign s then ([], ts) else let (l, r') := words r in (s :: l, r')
  | _ => ([], ts)
  end.
Notation "'let*' p ':=' a 'in' b" := (match a with Some p => b | None => None end) (at level 200, p pattern, a at level 200, b at level 200).

(* TRACKS: defiTrack *)
Record track := mkTrk { t_isx : bool; t_x : Z; t_num : Z; t_step : Z; t_mask : Z; t_same : bool; t_layers : list string }.
Definition xy (b : bool) : string := if b then "X" else "Y".
(* defw.cpp:2309-2331 *)
Definition print_track (t : track) : list tok :=
  [W "TRACKS"; W (xy (t_isx t)); Nu (g6 (t_x t)); W "DO"; Nu (g6 (t_num t)); W "STEP"; Nu (g6 (t_step t))] ++
  (if negb (t_mask t =? 0) then if t_same t then [W "MASK"; Nu (t_mask t); W "SAMEMASK"] else [W "MASK"; Nu (t_mask t)] else []) ++
  [W "LAYER"] ++ map W (t_layers t) ++ [W ";"].
(* def.y:1332-1336 track_type *)
Definition read_xy (ts : list tok) : option (bool * list tok) :=
  match ts with W s :: r => if String.eqb s "X" then Some (true, r) else if String.eqb s "Y" then Some (false, r) else None | _ => None end.
(* def.y:1339-1353 *)
Definition read_mask (ts : list tok) : option (Z * bool * list tok) :=
  match eat "MASK" ts with
  | None => Some (0, false, ts)
  | Some r => let* (m, r) := num r in match eat "SAMEMASK" r with Some r => Some (m, true, r) | None => Some (m, false, r) end
  end.
(* def.y:1293-1367 tracks_rule *)
Definition read_track (ts : list tok) : option (track * list tok) :=
  let* r := eat "TRACKS" ts in let* (b, r) := read_xy r in let* (x, r) := num r in let* r := eat "DO" r in let* (n, r) := num r in
  let* r := eat "STEP" r in let* (s, r) := num r in let* (m, same, r) := read_mask r in
  match eat "LAYER" r with
  | None => let* r := eat ";" r in Some (mkTrk b x n s m same [], r)
  | Some r => let (ls, r) := words r in
              match ls with [] => None | _ => let* r := eat ";" r in Some (mkTrk b x n s m same ls, r) end
  end.

(* GCELLGRID *)
Record gcgrid := mkGc { gg_isx : bool; gg_x : Z; gg_num : Z; gg_step : Z }.
(* defw.cpp:2332-2337 *)
Definition print_gcgrid (g : gcgrid) : list tok :=
  [W "GCELLGRID"; W (xy (gg_isx g)); Nu (gg_x g); W "DO"; Nu (gg_num g); W "STEP"; Nu (g6 (gg_step g)); W ";"].
(* def.y:1369-1393 *)
Definition read_gcgrid (ts : list tok) : option (gcgrid * list tok) :=
  let* r := eat "GCELLGRID" ts in let* (b, r) := read_xy r in let* (x, r) := num r in let* r := eat "DO" r in let* (n, r) := num r in
  let* r := eat "STEP" r in let* (s, r) := num r in let* r := eat ";" r in Some (mkGc b x n s, r).

(* orientation: defw.cpp:116-128 orientStr, def.y:548-556 orient *)
Definition orients : list string := ["N"; "W"; "S"; "E"; "FN"; "FW"; "FS"; "FE"].
Definition orient_str (o : Z) : string := if (o <? 0) || (7 <? o) then "BOGUS" else nth (Z.to_nat o) orients "BOGUS".
Fixpoint index_of (s : string) (l : list string) : option Z :=
  match l with [] => None | x :: r => if String.eqb s x then Some 0 else option_map (Z.add 1) (index_of s r) end.
Definition orient (ts : list tok) : option (Z * list tok) :=
  match ts with W s :: r => match index_of s orients with Some o => Some (o, r) | None => None end | _ => None end.

(* properties: name, value, type *)
Inductive ptype := PReal | PInteger | PString | PQuoted | PNumber.
Definition ptype_str (p : ptype) : string :=
  match p with PReal => "REAL" | PInteger => "INTEGER" | PString => "STRING" | PQuoted => "QUOTESTRING" | PNumber => "NUMBER" end.
Definition prop : Type := string * string * ptype.
Definition print_prop (p : prop) : list tok := [W "+"; W "PROPERTY"; W (fst (fst p)); W (snd (fst p)); W (ptype_str (snd p))].

(* ROW *)
Record row := mkRow { r_name : string; r_site : string; r_x : Z; r_y : Z; r_orient : Z; r_do : option (Z * Z * option (Z * Z)); r_props : list prop }.
(* defw.cpp:2272-2308 *)
Definition print_row (w : row) : list tok :=
  [W "ROW"; W (r_name w); W (r_site w); Nu (r_x w); Nu (r_y w); W (orient_str (r_orient w))] ++
  (match r_do w with
   | None => [W ";"]
   | Some (nx, ny, st) => [W "DO"; Nu (g6 nx); W "BY"; Nu (g6 ny)] ++ (match st with Some (sx, sy) => [W "STEP"; Nu (g6 sx); Nu (g6 sy); W ";"] | None => [W ";"] end)
   end) ++
  (match r_props w with [] => [] | ps => flat_map print_prop ps ++ [W ";"] end).
(* the list of name and value after PROPERTY; None: a name without value *)
Fixpoint pairs (l : list string) : option (list (string * string)) :=
  match l with [] => Some [] | _ :: [] => None | a :: b :: r => option_map (cons (a, b)) (pairs r) end.
(* def.y:1248-1291 row_options; the types come from PROPERTYDEFINITIONS *)
Section Types.
Variable type_of : string -> ptype.
Fixpoint read_props (fuel : nat) (ts : list tok) : option (list prop * list tok) :=
  match fuel with
  | O => None
  | S f => match eat "+" ts with
           | None => Some ([], ts)
           | Some r => let* r := eat "PROPERTY" r in
                       let (l, r) := words r in
                       let* ps := pairs l in
                       let* (qs, r) := read_props f r in
                       Some (map (fun p => (fst p, snd p, type_of (fst p))) ps ++ qs, r)%list
           end
  end.
(* def.y:1175-1247 row_rule *)
Definition read_row (ts : list tok) : option (row * list tok) :=
  let* r := eat "ROW" ts in let* (n, r) := word r in let* (s, r) := word r in let* (x, r) := num r in let* (y, r) := num r in
  let* (o, r) := orient r in
  let* (d, r) := match eat "DO" r with
                 | None => Some (None, r)
                 | Some r => let* (nx, r) := num r in let* r := eat "BY" r in let* (ny, r) := num r in
                             match eat "STEP" r with
                             | None => Some (Some (nx, ny, None), r)
                             | Some r => let* (sx, r) := num r in let* (sy, r) := num r in Some (Some (nx, ny, Some (sx, sy)), r)
                             end
                 end in
  let* (ps, r) := read_props (S (List.length r)) r in
  let* r := eat ";" r in Some (mkRow n s x y o d ps, r).
End Types.

(* the floor plan: rows, tracks and gcell grid in the order of the file *)
Inductive stmt := SRow (r : row) | STrack (t : track) | SGrid (g : gcgrid).
Definition print_stmt (s : stmt) : list tok := match s with SRow r => print_row r | STrack t => print_track t | SGrid g => print_gcgrid g end.
Definition print_plan (l : list stmt) : list tok := flat_map print_stmt l.
(* def.y:278-300 rules: the next statement is told by its first word *)
Definition read_stmt (type_of : string -> ptype) (ts : list tok) : option (stmt * list tok) :=
  match ts with
  | W s :: _ => if String.eqb s "ROW" then option_map (fun x => (SRow (fst x), snd x)) (read_row type_of ts)
                else if String.eqb s "TRACKS" then option_map (fun x => (STrack (fst x), snd x)) (read_track ts)
                else if String.eqb s "GCELLGRID" then option_map (fun x => (SGrid (fst x), snd x)) (read_gcgrid ts)
                else None
  | _ => None
  end.
(* the statements to the end of the text; None: syntax error *)
Fixpoint read_plan (type_of : string -> ptype) (fuel : nat) (ts : list tok) : option (list stmt) :=
  match fuel with
  | O => None
  | S f => match ts with [] => Some [] | _ => let* (s, r) := read_stmt type_of ts in option_map (cons s) (read_plan type_of f r) end
  end.

(* COMPONENTS *)
Inductive place := NoPlace | Fixed (x y o : Z) | Cover (x y o : Z) | Placed (x y o : Z) | Unplaced.
Record comp := mkCo { c_id : string; c_model : string; c_nets : list string; c_source : option string; c_place : place; c_gen : option (string * string);
                      c_weight : option Z; c_eeq : option string; c_region : option string; c_mask : option string;
                      c_halo : option (bool * (Z * Z * Z * Z)); c_rhalo : option (Z * string * string); c_props : list prop }.
Definition opt {A} (f : A -> list tok) (o : option A) : list tok := match o with Some a => f a | None => [] end.
(* defw.cpp:148-265 compf *)
Definition print_place (p : place) : list tok :=
  match p with
  | NoPlace => []
  | Fixed x y o => [W "+"; W "FIXED"; W "("; Nu x; Nu y; W ")"; W (orient_str o)]
  | Cover x y o => [W "+"; W "COVER"; Nu x; Nu y; W (orient_str o)]
  | Placed x y o => [W "+"; W "PLACED"; W "("; Nu x; Nu y; W ")"; W (orient_str o)]
  | Unplaced => [W "+"; W "UNPLACED"]
  end.
Definition print_comp (c : comp) : list tok :=
  [W "-"; W (c_id c); W (c_model c)] ++ map W (c_nets c) ++
  opt (fun s => [W "+"; W "SOURCE"; W s]) (c_source c) ++
  print_place (c_place c) ++
  opt (fun g => [W "+"; W "GENERATE"; W (fst g)] ++ (if String.eqb (snd g) "" then [] else [W (snd g)])) (c_gen c) ++
  opt (fun w => [W "+"; W "WEIGHT"; Nu w]) (c_weight c) ++
  opt (fun s => [W "+"; W "EEQMASTER"; W s]) (c_eeq c) ++
  opt (fun s => [W "+"; W "REGION"; W s]) (c_region c) ++
  opt (fun s => [W "+"; W "MASKSHIFT"; W s]) (c_mask c) ++
  opt (fun h => match h with (soft, (l, b, r, t)) => [W "+"; W "HALO"] ++ (if soft : bool then [W "SOFT"] else []) ++ [Nu l; Nu b; Nu r; Nu t] end) (c_halo c) ++
  opt (fun h => match h with (d, a, b) => [W "+"; W "ROUTEHALO"; Nu d; W a; W b] end) (c_rhalo c) ++
  flat_map print_prop (c_props c) ++ [W ";"].
(* defw.cpp:1642-1673 cs, 258-261: the number declared in the input, the components, END when the number has been counted down *)
Fixpoint print_comps (n : Z) (l : list comp) : list tok :=
  match l with [] => [] | c :: r => print_comp c ++ (if n - 1 <=? 0 then [W "END"; W "COMPONENTS"] else []) ++ print_comps (n - 1) r end.
Definition print_section (n : Z) (l : list comp) : list tok := [W "COMPONENTS"; Nu n; W ";"] ++ print_comps n l.

(* def.y:1571-1577 pt *)
Definition pt (ts : list tok) : option (Z * Z * list tok) :=
  let* r := eat "(" ts in let* (x, r) := num r in let* (y, r) := num r in let* r := eat ")" r in Some (x, y, r).
Definition pt_orient (ts : list tok) : option (Z * Z * Z * list tok) := let* (x, y, r) := pt ts in let* (o, r) := orient r in Some (x, y, o, r).
Definition four (ts : list tok) : option (Z * Z * Z * Z * list tok) :=
  let* (l, r1) := num ts in let* (b, r2) := num r1 in let* (r, r3) := num r2 in let* (t, r4) := num r3 in Some (l, b, r, t, r4).
(* def.y:1784-2035 comp_option after the plus sign; a repeated option replaces the earlier one *)
Definition set_source s c := mkCo (c_id c) (c_model c) (c_nets c) (Some s) (c_place c) (c_gen c) (c_weight c) (c_eeq c) (c_region c) (c_mask c) (c_halo c) (c_rhalo c) (c_props c).
Definition set_place p c := mkCo (c_id c) (c_model c) (c_nets c) (c_source c) p (c_gen c) (c_weight c) (c_eeq c) (c_region c) (c_mask c) (c_halo c) (c_rhalo c) (c_props c).
Definition set_gen g c := mkCo (c_id c) (c_model c) (c_nets c) (c_source c) (c_place c) (Some g) (c_weight c) (c_eeq c) (c_region c) (c_mask c) (c_halo c) (c_rhalo c) (c_props c).
Definition set_weight w c := mkCo (c_id c) (c_model c) (c_nets c) (c_source c) (c_place c) (c_gen c) (Some w) (c_eeq c) (c_region c) (c_mask c) (c_halo c) (c_rhalo c) (c_props c).
Definition set_eeq s c := mkCo (c_id c) (c_model c) (c_nets c) (c_source c) (c_place c) (c_gen c) (c_weight c) (Some s) (c_region c) (c_mask c) (c_halo c) (c_rhalo c) (c_props c).
Definition set_region s c := mkCo (c_id c) (c_model c) (c_nets c) (c_source c) (c_place c) (c_gen c) (c_weight c) (c_eeq c) (Some s) (c_mask c) (c_halo c) (c_rhalo c) (c_props c).
Definition set_mask s c := mkCo (c_id c) (c_model c) (c_nets c) (c_source c) (c_place c) (c_gen c) (c_weight c) (c_eeq c) (c_region c) (Some s) (c_halo c) (c_rhalo c) (c_props c).
Definition set_halo h c := mkCo (c_id c) (c_model c) (c_nets c) (c_source c) (c_place c) (c_gen c) (c_weight c) (c_eeq c) (c_region c) (c_mask c) (Some h) (c_rhalo c) (c_props c).
Definition set_rhalo h c := mkCo (c_id c) (c_model c) (c_nets c) (c_source c) (c_place c) (c_gen c) (c_weight c) (c_eeq c) (c_region c) (c_mask c) (c_halo c) (Some h) (c_props c).
Definition add_props ps c := mkCo (c_id c) (c_model c) (c_nets c) (c_source c) (c_place c) (c_gen c) (c_weight c) (c_eeq c) (c_region c) (c_mask c) (c_halo c) (c_rhalo c) (c_props c ++ ps).
Definition sources : list string := ["NETLIST"; "DIST"; "USER"; "TIMING"].
Definition read_option (type_of : string -> ptype) (c : comp) (ts : list tok) : option (comp * list tok) :=
  match ts with
  | W k :: r =>
      if String.eqb k "SOURCE" then let* (s, r) := word r in if existsb (String.eqb s) sources then Some (set_source s c, r) else None
      else if String.eqb k "FIXED" then let* (x, y, o, r) := pt_orient r in Some (set_place (Fixed x y o) c, r)
      else if String.eqb k "COVER" then let* (x, y, o, r) := pt_orient r in Some (set_place (Cover x y o) c, r)
      else if String.eqb k "PLACED" then let* (x, y, o, r) := pt_orient r in Some (set_place (Placed x y o) c, r)
      else if String.eqb k "UNPLACED" then Some (set_place Unplaced c, r)
      else if String.eqb k "GENERATE" then
        let* (s, r) := word r in match word r with Some (m, r) => Some (set_gen (s, m) c, r) | None => Some (set_gen (s, "") c, r) end
      else if String.eqb k "WEIGHT" then let* (w, r) := num r in Some (set_weight w c, r)
      else if String.eqb k "EEQMASTER" then let* (s, r) := word r in Some (set_eeq s c, r)
      else if String.eqb k "REGION" then let* (s, r) := word r in Some (set_region s c, r)
      else if String.eqb k "MASKSHIFT" then let* (s, r) := word r in Some (set_mask s c, r)
      else if String.eqb k "HALO" then
        match eat "SOFT" r with
        | Some r => let* (l, b, h, t, r) := four r in Some (set_halo (true, (l, b, h, t)) c, r)
        | None => let* (l, b, h, t, r) := four r in Some (set_halo (false, (l, b, h, t)) c, r)
        end
      else if String.eqb k "ROUTEHALO" then let* (d, r) := num r in let* (a, r) := word r in let* (b, r) := word r in Some (set_rhalo (d, a, b) c, r)
      else if String.eqb k "PROPERTY" then
        let (l, r) := words r in
        match l with
        | [] => None
        | _ => let* ps := pairs l in Some (add_props (map (fun p => (fst p, snd p, type_of (fst p))) ps) c, r)
        end
      else None
  | _ => None
  end.
Fixpoint read_options (type_of : string -> ptype) (fuel : nat) (c : comp) (ts : list tok) : option (comp * list tok) :=
  match fuel with
  | O => None
  | S f => match eat "+" ts with Some r => let* (c, r) := read_option type_of c r in read_options type_of f c r | None => Some (c, ts) end
  end.
(* def.y:1748-1782 comp *)
Definition read_comp (type_of : string -> ptype) (ts : list tok) : option (comp * list tok) :=
  let* r := eat "-" ts in let* (i, r) := word r in let* (m, r) := word r in
  let (ns, r) := words r in
  let* (c, r) := read_options type_of (S (List.length r)) (mkCo i m ns None NoPlace None None None None None None None []) r in
  let* r := eat ";" r in Some (c, r).
(* def.y:1723-1746, 2037-2041 comps_section *)
Fixpoint read_comps (type_of : string -> ptype) (fuel : nat) (ts : list tok) : option (list comp * list tok) :=
  match fuel with
  | O => None
  | S f => match eat "-" ts with
           | Some _ => let* (c, r) := read_comp type_of ts in let* (l, r) := read_comps type_of f r in Some (c :: l, r)
           | None => let* r := eat "END" ts in let* r := eat "COMPONENTS" r in Some ([], r)
           end
  end.
Definition read_section (type_of : string -> ptype) (ts : list tok) : option (Z * list comp * list tok) :=
  let* r := eat "COMPONENTS" ts in let* (n, r) := num r in let* r := eat ";" r in
  let* (l, r) := read_comps type_of (S (List.length r)) r in Some (n, l, r).
