(* The pins of a DEF file, as the DEF writer copies them to the routed DEF and as the DEF parser reads them. Tokens as in DwModel.
   Not modelled: NETEXPR, ANTENNAMODEL, and the parser's version checks (a file of version 5.8 is assumed). *)
From Coq Require Import String.
From Verif Require Import Base DwModel SnModel.
Local Open Scope string_scope.
Local Open Scope Z_scope.
Local Open Scope list_scope.

(* def.y:992-1052: MASK and then SPACING or DESIGNRULEWIDTH; no mask is mask 0 in the code *)
Inductive rule := NoRule | Spc (n : Z) | Drw (n : Z).
Definition shape_head : Type := string * option Z * rule.
Definition dlayer : Type := shape_head * (Z * Z * Z * Z).
Definition dpoly : Type := shape_head * list (Z * Z).
Definition dvia : Type := string * option Z * (Z * Z).
Inductive dplace := DNone | DPlaced (x y o : Z) | DCover (x y o : Z) | DFixed (x y o : Z).
Record port := mkPort { q_layers : list dlayer; q_polys : list dpoly; q_vias : list dvia; q_place : dplace }.
(* d_ant: keyword, area, layer of the ANTENNAPIN statements *)
Record dpin := mkDp { d_name : string; d_net : string; d_dir : option string; d_use : option string; d_supply : option string; d_ground : option string;
                      d_layers : list dlayer; d_polys : list dpoly; d_vias : list dvia; d_ports : list port; d_place : dplace; d_special : bool; d_ant : list (string * Z * option string) }.

(* printing: defw.cpp:2000-2262, case defrPinCbkType of cls *)
Definition print_rule (r : rule) : list tok := match r with NoRule => [] | Spc n => [W "SPACING"; Nu n] | Drw n => [W "DESIGNRULEWIDTH"; Nu n] end.
Definition print_head (h : shape_head) : list tok := match h with (s, m, r) => [W s] ++ print_mask m ++ print_rule r end.
(* 2022-2035 *)
Definition print_dlayer (l : dlayer) : list tok := match l with (h, (a, b, c, d)) => [W "+"; W "LAYER"] ++ print_head h ++ [W "("; Nu a; Nu b; W ")"; W "("; Nu c; Nu d; W ")"] end.
(* 2036-2051: the points without parentheses *)
Definition print_dpoly (p : dpoly) : list tok := [W "+"; W "POLYGON"] ++ print_head (fst p) ++ flat_map (fun q => [Nu (fst q); Nu (snd q)]) (snd p).
(* 2052-2067 *)
Definition print_dvia (v : dvia) : list tok := match v with (s, m, (x, y)) => [W "+"; W "VIA"; W s] ++ print_viamask m ++ [Nu x; Nu y] end.
(* 2076-2090: the bounds without parentheses *)
Definition print_qlayer (l : dlayer) : list tok := match l with (h, (a, b, c, d)) => [W "+"; W "LAYER"] ++ print_head h ++ [Nu a; Nu b; Nu c; Nu d] end.
(* 2091-2107 *)
Definition print_qpoly (p : dpoly) : list tok := [W "+"; W "POLYGON"] ++ print_head (fst p) ++ flat_map (fun q => [W "("; Nu (fst q); Nu (snd q); W ")"]) (snd p).
(* 2108-2124 *)
Definition print_qvia (v : dvia) : list tok := match v with (s, m, (x, y)) => [W "+"; W "VIA"; W s] ++ print_viamask m ++ [W "("; Nu x; Nu y; W ")"] end.
(* 2125-2147, 2150-2170 *)
Definition print_dplace (p : dplace) : list tok :=
  match p with
  | DNone => []
  | DPlaced x y o => [W "+"; W "PLACED"; W "("; Nu x; Nu y; W ")"; W (orient_str o)]
  | DCover x y o => [W "+"; W "COVER"; W "("; Nu x; Nu y; W ")"; W (orient_str o)]
  | DFixed x y o => [W "+"; W "FIXED"; W "("; Nu x; Nu y; W ")"; W (orient_str o)]
  end.
Definition print_port (q : port) : list tok := [W "+"; W "PORT"] ++ flat_map print_qlayer (q_layers q) ++ flat_map print_qpoly (q_polys q) ++ flat_map print_qvia (q_vias q) ++ print_dplace (q_place q).
(* 2174-2210: no plus sign *)
Definition print_ant (a : string * Z * option string) : list tok := match a with (k, z, l) => [W k; Nu z] ++ opt (fun s => [W "LAYER"; W s]) l end.
(* 2018: polygons and vias are inside the test hasLayer, which is true if there is a layer or a polygon (defiPinCap.cpp:1314) *)
Definition print_pin (p : dpin) : list tok :=
  [W "-"; W (d_name p); W "+"; W "NET"; W (d_net p)] ++
  opt (fun s => [W "+"; W "DIRECTION"; W s]) (d_dir p) ++
  opt (fun s => [W "+"; W "USE"; W s]) (d_use p) ++
  opt (fun s => [W "+"; W "SUPPLYSENSITIVITY"; W s]) (d_supply p) ++
  opt (fun s => [W "+"; W "GROUNDSENSITIVITY"; W s]) (d_ground p) ++
  (match d_layers p, d_polys p with [], [] => [] | _, _ => flat_map print_dlayer (d_layers p) ++ flat_map print_dpoly (d_polys p) ++ flat_map print_dvia (d_vias p) end) ++
  flat_map print_port (d_ports p) ++ print_dplace (d_place p) ++ (if d_special p then [W "+"; W "SPECIAL"] else []) ++ flat_map print_ant (d_ant p) ++ [W ";"].
Definition print_pins (k : Z) (l : list dpin) : list tok := [W "PINS"; Nu k; W ";"] ++ flat_map print_pin l ++ [W "END"; W "PINS"].

(* parsing: def.y:603-990 *)
Definition read_mask_opt (ts : list tok) : option (option Z * list tok) := match eat "MASK" ts with Some r => let* (m, r) := num r in Some (Some m, r) | None => Some (None, ts) end.
Definition read_rule (ts : list tok) : option (rule * list tok) :=
  match eat "SPACING" ts with
  | Some r => let* (n, r) := num r in Some (Spc n, r)
  | None => match eat "DESIGNRULEWIDTH" ts with Some r => let* (n, r) := num r in Some (Drw n, r) | None => Some (NoRule, ts) end
  end.
Definition read_head (ts : list tok) : option (shape_head * list tok) := let* (s, r) := word ts in let* (m, r) := read_mask_opt r in let* (q, r) := read_rule r in Some ((s, m, q), r).
Definition upd_last (f : port -> port) (l : list port) : list port := match rev l with [] => [] | q :: r => rev r ++ [f q] end.
Definition ant_keys : list string := ["ANTENNAPINPARTIALMETALAREA"; "ANTENNAPINPARTIALMETALSIDEAREA"; "ANTENNAPINDIFFAREA"; "ANTENNAPINPARTIALCUTAREA"; "ANTENNAPINGATEAREA"].
Definition with_ports (f : list port -> list port) (p : dpin) : dpin := mkDp (d_name p) (d_net p) (d_dir p) (d_use p) (d_supply p) (d_ground p) (d_layers p) (d_polys p) (d_vias p) (f (d_ports p)) (d_place p) (d_special p) (d_ant p).
Definition add_dlayer (hp : bool) (x : dlayer) (p : dpin) : dpin :=
  if hp then with_ports (upd_last (fun q => mkPort (q_layers q ++ [x]) (q_polys q) (q_vias q) (q_place q))) p
  else mkDp (d_name p) (d_net p) (d_dir p) (d_use p) (d_supply p) (d_ground p) (d_layers p ++ [x]) (d_polys p) (d_vias p) (d_ports p) (d_place p) (d_special p) (d_ant p).
Definition add_dpoly (hp : bool) (x : dpoly) (p : dpin) : dpin :=
  if hp then with_ports (upd_last (fun q => mkPort (q_layers q) (q_polys q ++ [x]) (q_vias q) (q_place q))) p
  else mkDp (d_name p) (d_net p) (d_dir p) (d_use p) (d_supply p) (d_ground p) (d_layers p) (d_polys p ++ [x]) (d_vias p) (d_ports p) (d_place p) (d_special p) (d_ant p).
Definition add_dvia (hp : bool) (x : dvia) (p : dpin) : dpin :=
  if hp then with_ports (upd_last (fun q => mkPort (q_layers q) (q_polys q) (q_vias q ++ [x]) (q_place q))) p
  else mkDp (d_name p) (d_net p) (d_dir p) (d_use p) (d_supply p) (d_ground p) (d_layers p) (d_polys p) (d_vias p ++ [x]) (d_ports p) (d_place p) (d_special p) (d_ant p).
(* 786-795: the placement goes to the port that is open *)
Definition set_dplace (hp : bool) (x : dplace) (p : dpin) : dpin :=
  if hp then with_ports (upd_last (fun q => mkPort (q_layers q) (q_polys q) (q_vias q) x)) p
  else mkDp (d_name p) (d_net p) (d_dir p) (d_use p) (d_supply p) (d_ground p) (d_layers p) (d_polys p) (d_vias p) (d_ports p) x (d_special p) (d_ant p).
Definition set_dir s p := mkDp (d_name p) (d_net p) (Some s) (d_use p) (d_supply p) (d_ground p) (d_layers p) (d_polys p) (d_vias p) (d_ports p) (d_place p) (d_special p) (d_ant p).
Definition set_duse s p := mkDp (d_name p) (d_net p) (d_dir p) (Some s) (d_supply p) (d_ground p) (d_layers p) (d_polys p) (d_vias p) (d_ports p) (d_place p) (d_special p) (d_ant p).
Definition set_supply s p := mkDp (d_name p) (d_net p) (d_dir p) (d_use p) (Some s) (d_ground p) (d_layers p) (d_polys p) (d_vias p) (d_ports p) (d_place p) (d_special p) (d_ant p).
Definition set_ground s p := mkDp (d_name p) (d_net p) (d_dir p) (d_use p) (d_supply p) (Some s) (d_layers p) (d_polys p) (d_vias p) (d_ports p) (d_place p) (d_special p) (d_ant p).
Definition set_special p := mkDp (d_name p) (d_net p) (d_dir p) (d_use p) (d_supply p) (d_ground p) (d_layers p) (d_polys p) (d_vias p) (d_ports p) (d_place p) true (d_ant p).
Definition add_ant a p := mkDp (d_name p) (d_net p) (d_dir p) (d_use p) (d_supply p) (d_ground p) (d_layers p) (d_polys p) (d_vias p) (d_ports p) (d_place p) (d_special p) (d_ant p ++ [a]).
(* pin_option after the plus sign; hp: a port is open *)
Definition read_pinopt (p : dpin) (hp : bool) (ts : list tok) : option (dpin * bool * list tok) :=
  match ts with
  | W k :: r =>
      if String.eqb k "SPECIAL" then Some (set_special p, hp, r)
      else if String.eqb k "DIRECTION" then let* (s, r) := word r in Some (set_dir s p, hp, r)
      else if String.eqb k "SUPPLYSENSITIVITY" then let* (s, r) := word r in Some (set_supply s p, hp, r)
      else if String.eqb k "GROUNDSENSITIVITY" then let* (s, r) := word r in Some (set_ground s p, hp, r)
      else if String.eqb k "USE" then let* (s, r) := one_of uses r in Some (set_duse s p, hp, r)
      else if String.eqb k "PORT" then Some (with_ports (fun l => l ++ [mkPort [] [] [] DNone]) p, true, r)
      else if String.eqb k "LAYER" then let* (h, r) := read_head r in let* (a, b, r) := pt r in let* (c, d, r) := pt r in Some (add_dlayer hp (h, (a, b, c, d)) p, hp, r)
      else if String.eqb k "POLYGON" then let* (h, r) := read_head r in let* (l, r) := read_pts (S (List.length r)) r in if (3 <=? Z.of_nat (List.length l))%Z then Some (add_dpoly hp (h, l) p, hp, r) else None
      else if String.eqb k "VIA" then let* (s, r) := word r in let* (m, r) := read_mask_opt r in let* (x, y, r) := pt r in Some (add_dvia hp (s, m, (x, y)) p, hp, r)
      else if String.eqb k "PLACED" then let* (x, y, o, r) := pt_orient r in Some (set_dplace hp (DPlaced x y o) p, false, r)
      else if String.eqb k "COVER" then let* (x, y, o, r) := pt_orient r in Some (set_dplace hp (DCover x y o) p, false, r)
      else if String.eqb k "FIXED" then let* (x, y, o, r) := pt_orient r in Some (set_dplace hp (DFixed x y o) p, false, r)
      else if existsb (String.eqb k) ant_keys then
        let* (z, r) := num r in match eat "LAYER" r with Some r => let* (s, r) := word r in Some (add_ant (k, z, Some s) p, hp, r) | None => Some (add_ant (k, z, None) p, hp, r) end
      else None
  | _ => None
  end.
Fixpoint read_pinopts (fuel : nat) (p : dpin) (hp : bool) (ts : list tok) : option (dpin * list tok) :=
  match fuel with
  | O => None
  | S f => match eat "+" ts with Some r => let* (p, hp, r) := read_pinopt p hp r in read_pinopts f p hp r | None => Some (p, ts) end
  end.
Definition read_pin (ts : list tok) : option (dpin * list tok) :=
  let* r := eat "-" ts in let* (s, r) := word r in let* r := eat "+" r in let* r := eat "NET" r in let* (n, r) := word r in
  let* (p, r) := read_pinopts (S (List.length r)) (mkDp s n None None None None [] [] [] [] DNone false []) false r in
  let* r := eat ";" r in Some (p, r).
Fixpoint read_pinlist (fuel : nat) (ts : list tok) : option (list dpin * list tok) :=
  match fuel with
  | O => None
  | S f => match eat "-" ts with
           | Some _ => let* (p, r) := read_pin ts in let* (l, r) := read_pinlist f r in Some (p :: l, r)
           | None => let* r := eat "END" ts in let* r := eat "PINS" r in Some ([], r)
           end
  end.
Definition read_pins (ts : list tok) : option (Z * list dpin * list tok) :=
  let* r := eat "PINS" ts in let* (k, r) := num r in let* r := eat ";" r in let* (l, r) := read_pinlist (S (List.length r)) r in Some (k, l, r).
