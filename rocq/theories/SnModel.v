(* The special nets of a DEF file, as the DEF writer copies them to the routed DEF and as the DEF parser reads them.
   Tokens as in DwModel. Not modelled: subnets, properties, FREQUENCY, VOLTAGE, SPACING and the obsolete WIDTH, ESTCAP and (before 5.4) SHIELD
   statements, and the route status and shape of RECT, POLYGON and VIA, which the writer never prints because curVer stays 0
   (defw.cpp:65, 1874: only vers sets it, and only versStr is registered, 3112). *)
From Coq Require Import String.
From Verif Require Import Base DwModel.
Local Open Scope string_scope.
Local Open Scope Z_scope.
Local Open Scope list_scope.

(* def.y:2682-2790 path_pt; `*` is replaced by the saved coordinate when it is read *)
Inductive ppt := Plain (x y : Z) | Flush (x y z : Z).
(* def.y:2489-2680 path_item *)
Inductive item := IVia (mask : option Z) (name : string) (rot : option Z) (arr : option (Z * Z * Z * Z)) | IPt (mask : option Z) (p : ppt)
  | IRect (mask : option Z) (a b c d : Z) | IVirtual (x y : Z).
Inductive sopt := OShape (s : string) | OStyle (n : Z).
(* def.y:3319-3343 spath *)
Record path := mkPath { p_layer : string; p_width : Z; p_opts : list sopt; p_first : ppt; p_items : list item }.
(* wire status and, for SHIELD, the shielded net *)
Inductive status := SFixed | SCover | SRouted | SShield (n : string).
Record wire := mkWire { w_status : status; w_paths : list path }.
Record snet := mkSn { n_name : string; n_conns : list (string * string * bool); n_wires : list wire;
                      n_polys : list (Z * string * list (Z * Z)); n_rects : list (Z * string * (Z * Z * Z * Z)); n_vias : list (Z * string * Z * list (Z * Z));
                      n_bump : bool; n_weight : option Z; n_source : option string; n_pattern : option string; n_original : option string; n_use : option string; n_style : option Z }.

(* printing: defw.cpp:278-283 netNamef, 1208-1560 snetf *)
Definition print_conn (c : string * string * bool) : list tok :=
  [W "("; W (fst (fst c)); W (snd (fst c)); W ")"] ++ (if snd c then [W "+"; W "SYNTHESIZED"] else []).
Definition print_ppt (p : ppt) : list tok := match p with Plain x y => [W "("; Nu x; Nu y; W ")"] | Flush x y z => [W "("; Nu x; Nu y; Nu z; W ")"] end.
Definition print_mask (m : option Z) : list tok := opt (fun n => [W "MASK"; Nu n]) m.
(* 1281-1285: the three digits of a via mask printed side by side are the number (defiPath.cpp:246-274) *)
Definition print_viamask (m : option Z) : list tok := opt (fun n => [W "MASK"; Nu (100 * (n / 100) + 10 * (n / 10 mod 10) + n mod 10)]) m.
(* the switch has no case for DEFIPATH_RECT and DEFIPATH_VIRTUALPOINT *)
Definition print_item (i : item) : list tok :=
  match i with
  | IVia m n o a => print_viamask m ++ [W n] ++ opt (fun o => [W (orient_str o)]) o ++ opt (fun a => match a with (nx, ny, sx, sy) => [W "DO"; Nu nx; W "BY"; Nu ny; W "STEP"; Nu sx; Nu sy] end) a
  | IPt m p => print_mask m ++ print_ppt p
  | IRect m _ _ _ _ => print_mask m
  | IVirtual _ _ => []
  end.
Definition print_sopt (o : sopt) : list tok := match o with OShape s => [W "+"; W "SHAPE"; W s] | OStyle n => [W "+"; W "STYLE"; Nu n] end.
Definition print_path (p : path) : list tok := [W (p_layer p); Nu (p_width p)] ++ flat_map print_sopt (p_opts p) ++ print_ppt (p_first p) ++ flat_map print_item (p_items p).
Definition print_status (s : status) : list tok := match s with SFixed => [W "FIXED"] | SCover => [W "COVER"] | SRouted => [W "ROUTED"] | SShield n => [W "SHIELD"; W n] end.
(* 1246-1266: NEW before every layer but the first of the wire *)
Definition print_paths (l : list path) : list tok := match l with [] => [] | p :: r => print_path p ++ flat_map (fun p => W "NEW" :: print_path p) r end.
Definition print_wire (w : wire) : list tok := [W "+"] ++ print_status (w_status w) ++ print_paths (w_paths w).
(* 1325-1352: the points without parentheses *)
Definition print_poly (p : Z * string * list (Z * Z)) : list tok :=
  match p with (m, n, l) => (if m =? 0 then [] else [W "+"; W "MASK"; Nu m]) ++ [W "+"; W "POLYGON"; W n] ++ flat_map (fun q => [Nu (fst q); Nu (snd q)]) l end.
(* 1354-1379 *)
Definition print_rect (p : Z * string * (Z * Z * Z * Z)) : list tok :=
  match p with (m, n, (a, b, c, d)) => (if m =? 0 then [] else [W "+"; W "MASK"; Nu m]) ++ [W "+"; W "RECT"; W n; Nu a; Nu b; Nu c; Nu d] end.
(* 1381-1407 is skipped; the style of the net is not printed *)
Definition print_snet (n : snet) : list tok :=
  [W "-"; W (n_name n)] ++ flat_map print_conn (n_conns n) ++ flat_map print_wire (n_wires n) ++ flat_map print_poly (n_polys n) ++ flat_map print_rect (n_rects n) ++
  (if n_bump n then [W "+"; W "FIXEDBUMP"] else []) ++
  opt (fun w => [W "+"; W "WEIGHT"; Nu w]) (n_weight n) ++
  opt (fun s => [W "+"; W "SOURCE"; W s]) (n_source n) ++
  opt (fun s => [W "+"; W "PATTERN"; W s]) (n_pattern n) ++
  opt (fun s => [W "+"; W "ORIGINAL"; W s]) (n_original n) ++
  opt (fun s => [W "+"; W "USE"; W s]) (n_use n) ++ [W ";"].
(* 1642-1673 cs, 102-112 endfunc: the end is printed at the end of the section of the input *)
Definition print_snets (k : Z) (l : list snet) : list tok := [W "SPECIALNETS"; Nu k; W ";"] ++ flat_map print_snet l ++ [W "END"; W "SPECIALNETS"].

(* parsing *)
(* def.y:2095-2134 net_connection *)
Fixpoint read_conns (fuel : nat) (ts : list tok) : option (list (string * string * bool) * list tok) :=
  match fuel with
  | O => None
  | S f =>
    match eat "(" ts with
    | None => Some ([], ts)
    | Some r => let* (i, r) := word r in let* (p, r) := word r in
                match eat "+" r with
                | Some r => let* r := eat "SYNTHESIZED" r in let* r := eat ")" r in let* (l, r) := read_conns f r in Some ((i, p, true) :: l, r)
                | None => let* r := eat ")" r in let* (l, r) := read_conns f r in Some ((i, p, false) :: l, r)
                end
    end
  end.
Definition read_ppt (ts : list tok) : option (ppt * list tok) :=
  let* r := eat "(" ts in let* (x, r) := num r in let* (y, r) := num r in
  match num r with
  | Some (z, r) => let* r := eat ")" r in Some (Flush x y z, r)
  | None => let* r := eat ")" r in Some (Plain x y, r)
  end.
Definition read_box (ts : list tok) : option (Z * Z * Z * Z * list tok) :=
  let* r := eat "(" ts in let* (a, b, c, d, r) := four r in let* r := eat ")" r in Some (a, b, c, d, r).
(* the words that are keywords inside a path: def.y:3329-3336 *)
Definition path_keys : list string := ["NEW"; "MASK"; "RECT"; "VIRTUAL"; "DO"; "BY"; "STEP"; "N"; "W"; "S"; "E"; "FN"; "FW"; "FS"; "FE"].
Definition is_key (s : string) : bool := existsb (String.eqb s) path_keys.
Definition read_via (m : option Z) (ts : list tok) : option (item * list tok) :=
  let* (n, r) := word ts in
  if is_key n || String.eqb n "TAPER" then None (* TAPER: not in special nets *) else
  let (o, r) := match orient r with Some (o, r') => (Some o, r') | None => (None, r) end in
  match eat "DO" r with
  | Some r => let* (nx, r) := num r in let* r := eat "BY" r in let* (ny, r) := num r in let* r := eat "STEP" r in let* (sx, r) := num r in let* (sy, r) := num r in
              Some (IVia m n o (Some (nx, ny, sx, sy)), r)
  | None => Some (IVia m n o None, r)
  end.
Definition read_item (ts : list tok) : option (item * list tok) :=
  match eat "(" ts with
  | Some _ => let* (p, r) := read_ppt ts in Some (IPt None p, r)
  | None =>
  match eat "MASK" ts with
  | Some r => let* (m, r) := num r in
              match eat "(" r with
              | Some _ => let* (p, r) := read_ppt r in Some (IPt (Some m) p, r)
              | None => match eat "RECT" r with
                        | Some r => let* (a, b, c, d, r) := read_box r in Some (IRect (Some m) a b c d, r)
                        | None => read_via (Some m) r
                        end
              end
  | None =>
  match eat "RECT" ts with
  | Some r => let* (a, b, c, d, r) := read_box r in Some (IRect None a b c d, r)
  | None =>
  match eat "VIRTUAL" ts with
  | Some r => let* (x, y, r) := pt r in Some (IVirtual x y, r)
  | None => read_via None ts
  end end end end.
(* the items end at NEW, at a plus sign or at the semicolon *)
Definition items_end (ts : list tok) : bool := match ts with W s :: _ => String.eqb s "NEW" || String.eqb s "+" || String.eqb s ";" | _ => false end.
Fixpoint read_items (fuel : nat) (ts : list tok) : option (list item * list tok) :=
  match fuel with
  | O => None
  | S f => if items_end ts then Some ([], ts) else let* (i, r) := read_item ts in let* (l, r) := read_items f r in Some (i :: l, r)
  end.
(* def.y:2854-2891, 2819-2848 *)
Definition shapes : list string := ["RING"; "STRIPE"; "FOLLOWPIN"; "IOWIRE"; "COREWIRE"; "BLOCKWIRE"; "FILLWIRE"; "FILLWIREOPC"; "DRCFILL"; "BLOCKAGEWIRE"; "PADRING"; "BLOCKRING"].
Definition one_of (l : list string) (ts : list tok) : option (string * list tok) := let* (s, r) := word ts in if existsb (String.eqb s) l then Some (s, r) else None.
Fixpoint read_sopts (fuel : nat) (ts : list tok) : option (list sopt * list tok) :=
  match fuel with
  | O => None
  | S f => match eat "+" ts with
           | None => Some ([], ts)
           | Some r => match eat "SHAPE" r with
                       | Some r => let* (s, r) := one_of shapes r in let* (l, r) := read_sopts f r in Some (OShape s :: l, r)
                       | None => let* r := eat "STYLE" r in let* (n, r) := num r in let* (l, r) := read_sopts f r in Some (OStyle n :: l, r)
                       end
           end
  end.
Definition read_path (ts : list tok) : option (path * list tok) :=
  let* (l, r) := word ts in let* (w, r) := num r in let* (os, r) := read_sopts (S (List.length r)) r in let* (p, r) := read_ppt r in
  let* (is, r) := read_items (S (List.length r)) r in Some (mkPath l w os p is, r).
(* def.y:3280-3317 spaths *)
Fixpoint read_more (fuel : nat) (ts : list tok) : option (list path * list tok) :=
  match fuel with
  | O => None
  | S f => match eat "NEW" ts with Some r => let* (p, r) := read_path r in let* (l, r) := read_more f r in Some (p :: l, r) | None => Some ([], ts) end
  end.
Definition read_paths (ts : list tok) : option (list path * list tok) :=
  let* (p, r) := read_path ts in let* (l, r) := read_more (S (List.length r)) r in Some (p :: l, r).
(* the points of a polygon or of a via *)
Fixpoint read_pts (fuel : nat) (ts : list tok) : option (list (Z * Z) * list tok) :=
  match fuel with
  | O => None
  | S f => match eat "(" ts with Some _ => let* (x, y, r) := pt ts in let* (l, r) := read_pts f r in Some ((x, y) :: l, r) | None => Some ([], ts) end
  end.
Definition patterns : list string := ["BALANCED"; "STEINER"; "TRUNK"; "WIREDLOGIC"].
Definition uses : list string := ["SIGNAL"; "POWER"; "GROUND"; "CLOCK"; "TIEOFF"; "ANALOG"; "SCAN"; "RESET"].
Definition add_wire w n := mkSn (n_name n) (n_conns n) (n_wires n ++ [w]) (n_polys n) (n_rects n) (n_vias n) (n_bump n) (n_weight n) (n_source n) (n_pattern n) (n_original n) (n_use n) (n_style n).
Definition add_poly p n := mkSn (n_name n) (n_conns n) (n_wires n) (n_polys n ++ [p]) (n_rects n) (n_vias n) (n_bump n) (n_weight n) (n_source n) (n_pattern n) (n_original n) (n_use n) (n_style n).
Definition add_rect p n := mkSn (n_name n) (n_conns n) (n_wires n) (n_polys n) (n_rects n ++ [p]) (n_vias n) (n_bump n) (n_weight n) (n_source n) (n_pattern n) (n_original n) (n_use n) (n_style n).
Definition add_via p n := mkSn (n_name n) (n_conns n) (n_wires n) (n_polys n) (n_rects n) (n_vias n ++ [p]) (n_bump n) (n_weight n) (n_source n) (n_pattern n) (n_original n) (n_use n) (n_style n).
Definition set_bump n := mkSn (n_name n) (n_conns n) (n_wires n) (n_polys n) (n_rects n) (n_vias n) true (n_weight n) (n_source n) (n_pattern n) (n_original n) (n_use n) (n_style n).
Definition set_nweight w n := mkSn (n_name n) (n_conns n) (n_wires n) (n_polys n) (n_rects n) (n_vias n) (n_bump n) (Some w) (n_source n) (n_pattern n) (n_original n) (n_use n) (n_style n).
Definition set_nsource s n := mkSn (n_name n) (n_conns n) (n_wires n) (n_polys n) (n_rects n) (n_vias n) (n_bump n) (n_weight n) (Some s) (n_pattern n) (n_original n) (n_use n) (n_style n).
Definition set_pattern s n := mkSn (n_name n) (n_conns n) (n_wires n) (n_polys n) (n_rects n) (n_vias n) (n_bump n) (n_weight n) (n_source n) (Some s) (n_original n) (n_use n) (n_style n).
Definition set_original s n := mkSn (n_name n) (n_conns n) (n_wires n) (n_polys n) (n_rects n) (n_vias n) (n_bump n) (n_weight n) (n_source n) (n_pattern n) (Some s) (n_use n) (n_style n).
Definition set_use s n := mkSn (n_name n) (n_conns n) (n_wires n) (n_polys n) (n_rects n) (n_vias n) (n_bump n) (n_weight n) (n_source n) (n_pattern n) (n_original n) (Some s) (n_style n).
Definition set_style z n := mkSn (n_name n) (n_conns n) (n_wires n) (n_polys n) (n_rects n) (n_vias n) (n_bump n) (n_weight n) (n_source n) (n_pattern n) (n_original n) (n_use n) (Some z).
(* a status alone is kept for the next RECT, POLYGON or VIA (5.8); with paths it is a wire *)
Definition read_wire (s : status) (m : Z) (n : snet) (ts : list tok) : option (snet * Z * list tok) :=
  match ts with
  | W k :: _ => if String.eqb k "+" || String.eqb k ";" then Some (n, m, ts) else let* (l, r) := read_paths ts in Some (add_wire (mkWire s l) n, m, r)
  | _ => None
  end.
(* def.y:2911-3106 snet_other_option after the plus sign; m: the mask kept for the next RECT, POLYGON or VIA *)
Definition read_snopt (n : snet) (m : Z) (ts : list tok) : option (snet * Z * list tok) :=
  match ts with
  | W k :: r =>
      if String.eqb k "FIXED" then read_wire SFixed m n r
      else if String.eqb k "COVER" then read_wire SCover m n r
      else if String.eqb k "ROUTED" then read_wire SRouted m n r
      else if String.eqb k "SHIELD" then let* (s, r) := word r in read_wire (SShield s) m n r
      else if String.eqb k "SHAPE" then let* (s, r) := one_of shapes r in Some (n, m, r)
      else if String.eqb k "MASK" then let* (m, r) := num r in Some (n, m, r)
      else if String.eqb k "POLYGON" then let* (s, r) := word r in let* (l, r) := read_pts (S (List.length r)) r in if (3 <=? Z.of_nat (List.length l))%Z then Some (add_poly (m, s, l) n, 0, r) else None
      else if String.eqb k "RECT" then let* (s, r) := word r in let* (a, b, r) := pt r in let* (c, d, r) := pt r in Some (add_rect (m, s, (a, b, c, d)) n, 0, r)
      else if String.eqb k "VIA" then
        let* (s, r) := word r in let (o, r) := match orient r with Some (o, r') => (o, r') | None => (0, r) end in
        let* (l, r) := read_pts (S (List.length r)) r in match l with [] => None | _ => Some (add_via (m, s, o, l) n, 0, r) end
      else if String.eqb k "SOURCE" then let* (s, r) := one_of sources r in Some (set_nsource s n, m, r)
      else if String.eqb k "FIXEDBUMP" then Some (set_bump n, m, r)
      else if String.eqb k "ORIGINAL" then let* (s, r) := word r in Some (set_original s n, m, r)
      else if String.eqb k "PATTERN" then let* (s, r) := one_of patterns r in Some (set_pattern s n, m, r)
      else if String.eqb k "WEIGHT" then let* (w, r) := num r in Some (set_nweight w n, m, r)
      else if String.eqb k "USE" then let* (s, r) := one_of uses r in Some (set_use s n, m, r)
      else if String.eqb k "STYLE" then let* (z, r) := num r in Some (set_style z n, m, r)
      else None
  | _ => None
  end.
Fixpoint read_snopts (fuel : nat) (n : snet) (m : Z) (ts : list tok) : option (snet * list tok) :=
  match fuel with
  | O => None
  | S f => match eat "+" ts with Some r => let* (n, m, r) := read_snopt n m r in read_snopts f n m r | None => Some (n, ts) end
  end.
(* def.y:2068-2089, 2900 snet_rule *)
Definition read_snet (ts : list tok) : option (snet * list tok) :=
  let* r := eat "-" ts in let* (s, r) := word r in if String.eqb s "MUSTJOIN" then None else
  let* (cs, r) := read_conns (S (List.length r)) r in
  let* (n, r) := read_snopts (S (List.length r)) (mkSn s cs [] [] [] [] false None None None None None None) 0 r in
  let* r := eat ";" r in Some (n, r).
Fixpoint read_nets (fuel : nat) (ts : list tok) : option (list snet * list tok) :=
  match fuel with
  | O => None
  | S f => match eat "-" ts with
           | Some _ => let* (n, r) := read_snet ts in let* (l, r) := read_nets f r in Some (n :: l, r)
           | None => let* r := eat "END" ts in let* r := eat "SPECIALNETS" r in Some ([], r)
           end
  end.
Definition read_snets (ts : list tok) : option (Z * list snet * list tok) :=
  let* r := eat "SPECIALNETS" ts in let* (k, r) := num r in let* r := eat ";" r in let* (l, r) := read_nets (S (List.length r)) r in Some (k, l, r).
