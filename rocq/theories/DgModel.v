(* The GROUPS, PINPROPERTIES, SLOTS and FILLS sections of a DEF file, as the DEF writer copies them to the routed DEF and as the DEF parser
   reads them.  Tokens as in DwModel, sections as in DvModel.  DEF version 5.8; an error the parser reports is the outcome None.
   Simplifications: the value of a property is one word; masks of via fills are one number (defw.cpp:2881-2887 prints its three digits). *)
From Coq Require Import String.
From Verif Require Import Base DwModel SnModel DvModel DnModel.
Local Open Scope string_scope.
Local Open Scope Z_scope.
Local Open Scope list_scope.

(* --- groups: defiGroup; the limits of SOFT and rectangles of REGION are not kept in version 5.8 (def.y:3413-3424, 3466-3489) --- *)
Record group := mkGp { gp_name : string; gp_members : list string; gp_region : option string; gp_props : list prop }.
(* defw.cpp:2442-2451, 2460-2502 *)
Definition print_group (g : group) : list tok :=
  [W "-"; W (gp_name g)] ++ map W (gp_members g) ++ opt (fun s => [W "+"; W "REGION"; W s]) (gp_region g) ++ flat_map print_prop (gp_props g) ++ [W ";"].
(* def.y:3462-3489 group_soft_options *)
Fixpoint read_soft (fuel : nat) (ts : list tok) : option (list tok) :=
  match fuel with
  | O => None
  | S f => match ts with
           | W k :: r => if existsb (String.eqb k) ["MAXX"; "MAXY"; "MAXHALFPERIMETER"] then let* (_, r) := num r in read_soft f r else Some ts
           | _ => Some ts
           end
  end.
Section Types.
Variable type_of : string -> ptype.
(* def.y:3400-3460 group_option; the "+" has been read *)
Definition read_gopt (g : group) (ts : list tok) : option (group * list tok) :=
  match eat "SOFT" ts with
  | Some r => let* r := read_soft (S (List.length r)) r in Some (g, r)
  | None =>
  match eat "REGION" ts with
  | Some r => match eat "(" r with
              | Some _ => let* (_, r) := two_pts r in Some (g, r)
              | None => let* (s, r) := word r in Some (mkGp (gp_name g) (gp_members g) (Some s) (gp_props g), r)
              end
  | None => let* r := eat "PROPERTY" ts in let (l, r) := words r in let* ps := pairs l in Some (mkGp (gp_name g) (gp_members g) (gp_region g) (gp_props g ++ typed type_of ps), r)
  end end.
Fixpoint read_gopts (fuel : nat) (g : group) (ts : list tok) : option (group * list tok) :=
  match fuel with
  | O => None
  | S f => match eat ";" ts with
           | Some r => Some (g, r)
           | None => let* r := eat "+" ts in let* (g, r) := read_gopt g r in read_gopts f g r
           end
  end.
(* def.y:3368-3398 group_rule *)
Definition read_group (ts : list tok) : option (group * list tok) :=
  let* r := eat "-" ts in let* (n, r) := word r in let (l, r) := words r in read_gopts (S (List.length r)) (mkGp n l None []) r.

(* --- pin properties: defiPinProp; a pin of the design has no component --- *)
Record pprop := mkPp { pp_inst : option string; pp_pin : string; pp_props : list prop }.
(* defw.cpp:2735-2763: the entry is ended before its properties *)
Definition print_pprop (p : pprop) : list tok :=
  [W "-"; W (match pp_inst p with Some s => s | None => "PIN" end); W (pp_pin p); W ";"] ++ match pp_props p with [] => [] | ps => flat_map print_prop ps ++ [W ";"] end.
(* defiPinProp.cpp:99-121 *)
Definition set_name (i p : string) : pprop := mkPp (if String.eqb i "PIN" || String.eqb i "pin" then None else Some i) p [].
(* def.y:4367-4406 pin_prop_options *)
Fixpoint read_ppopts (fuel : nat) (p : pprop) (ts : list tok) : option (pprop * list tok) :=
  match fuel with
  | O => None
  | S f => match eat ";" ts with
           | Some r => Some (p, r)
           | None => let* r := eat "+" ts in let* r := eat "PROPERTY" r in let (l, r) := words r in let* ps := pairs l in
                     read_ppopts f (mkPp (pp_inst p) (pp_pin p) (pp_props p ++ typed type_of ps)) r
           end
  end.
(* def.y:4357-4365 pin_prop_terminal *)
Definition read_pprop (ts : list tok) : option (pprop * list tok) :=
  let* r := eat "-" ts in let* (i, r) := word r in let* (p, r) := word r in read_ppopts (S (List.length r)) (set_name i p) r.
End Types.

(* --- slots and fills: defiSlot, defiFill; the rectangles and polygons of a layer --- *)
Record slot := mkSl { sl_layer : string; sl_rects : list box; sl_polys : list (list (Z * Z)) }.
Definition bare_points (l : list (Z * Z)) : list tok := flat_map (fun q => [Nu (fst q); Nu (snd q)]) l.
Definition print_geoms (rs : list box) (ps : list (list (Z * Z))) : list tok :=
  flat_map (fun b => match b with (a, b, c, d) => [W "RECT"; Nu a; Nu b; Nu c; Nu d] end) rs ++ flat_map (fun l => W "POLYGON" :: bare_points l ++ [W ";"]) ps ++ [W ";"].
(* defw.cpp:2829-2846 *)
Definition print_slot (s : slot) : list tok := [W "-"; W "LAYER"; W (sl_layer s)] ++ print_geoms (sl_rects s) (sl_polys s).
Inductive geom := GRect (b : box) | GPoly (l : list (Z * Z)).
(* def.y:4824-4838 geom_slot, 4886-4908 geom_fill: a polygon has three points or more *)
Definition read_geom (ts : list tok) : option (geom * list tok) :=
  match eat "RECT" ts with
  | Some r => let* (b, r) := two_pts r in Some (GRect b, r)
  | None => let* r := eat "POLYGON" ts in let* (l, r) := read_pts (S (List.length r)) r in if 3 <=? Z.of_nat (List.length l) then Some (GPoly l, r) else None
  end.
Definition add_geom (g : geom) (s : slot) : slot := match g with GRect b => mkSl (sl_layer s) (sl_rects s ++ [b]) (sl_polys s) | GPoly l => mkSl (sl_layer s) (sl_rects s) (sl_polys s ++ [l]) end.
(* def.y:4820-4822, 4882-4884 *)
Fixpoint read_geoms (fuel : nat) (s : slot) (ts : list tok) : option (slot * list tok) :=
  match fuel with
  | O => None
  | S f => match eat ";" ts with Some r => Some (s, r) | None => let* (g, r) := read_geom ts in read_geoms f (add_geom g s) r end
  end.
(* def.y:4804-4817 slot_def: at least one shape *)
Definition read_slot (ts : list tok) : option (slot * list tok) :=
  let* r := eat "-" ts in let* r := eat "LAYER" r in let* (n, r) := word r in let* (g, r) := read_geom r in read_geoms (S (List.length r)) (add_geom g (mkSl n [] [])) r.
Inductive fill := FLayer (mask : Z) (opc : bool) (s : slot) | FVia (name : string) (mask : Z) (opc : bool) (pts : list (Z * Z)).
Definition fill_opts (m : Z) (o : bool) : list tok := (if m =? 0 then [] else [W "+"; W "MASK"; Nu m]) ++ flag o "OPC".
(* defw.cpp:2851-2899 *)
Definition print_fill (f : fill) : list tok :=
  match f with
  | FLayer m o s => [W "-"; W "LAYER"; W (sl_layer s)] ++ fill_opts m o ++ print_geoms (sl_rects s) (sl_polys s)
  | FVia n m o l => [W "-"; W "VIA"; W n] ++ fill_opts m o ++ bare_points l ++ [W ";"; W ";"]
  end.
(* def.y:4910-4994 *)
Fixpoint read_fopts (fuel : nat) (m : Z) (o : bool) (ts : list tok) : option (Z * bool * list tok) :=
  match fuel with
  | O => None
  | S f => match eat "+" ts with
           | None => Some (m, o, ts)
           | Some r => match eat "MASK" r with Some r => let* (m, r) := num r in read_fopts f m o r | None => let* r := eat "OPC" r in read_fopts f m true r end
           end
  end.
(* def.y:4856-4881, 4938-4945 fill_def *)
Definition read_fill (ts : list tok) : option (fill * list tok) :=
  let* r := eat "-" ts in
  match eat "LAYER" r with
  | Some r => let* (n, r) := word r in let* (m, o, r) := read_fopts (S (List.length r)) 0 false r in let* (g, r) := read_geom r in
              let* (s, r) := read_geoms (S (List.length r)) (add_geom g (mkSl n [] [])) r in Some (FLayer m o s, r)
  | None => let* r := eat "VIA" r in let* (n, r) := word r in let* (m, o, r) := read_fopts (S (List.length r)) 0 false r in let* (l, r) := read_pts (S (List.length r)) r in
            match l with [] => None | _ => let* r := eat ";" r in Some (FVia n m o l, r) end
  end.
