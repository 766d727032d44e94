(* The REGIONS and NONDEFAULTRULES sections and the die area of a DEF file, as the DEF writer copies them to the routed DEF and as the DEF
   parser reads them.  Tokens as in DwModel, sections as in DvModel.  DEF version 5.8; an error the parser reports is the outcome None.
   Simplifications: the value of a property is one word; widths are whole (defiNonDefault.cpp:322-330 cuts them off).  The parser asks for at
   least one rule in NONDEFAULTRULES (def.y:4997); the model's reader does not, and the writer never ends a section without rules. *)
From Coq Require Import String.
From Verif Require Import Base DwModel SnModel DvModel.
From Verif Require GeomModel DhModel.
Local Open Scope string_scope.
Local Open Scope Z_scope.
Local Open Scope list_scope.

(* --- regions: defiRegion --- *)
Record region := mkRg { rg_name : string; rg_rects : list box; rg_type : option string; rg_props : list prop }.
Definition print_rrect (p : box) : list tok := match p with (a, b, c, d) => [W "("; Nu a; Nu b; W ")"; W "("; Nu c; Nu d; W ")"] end.
(* defw.cpp:2408-2441 *)
Definition print_region (r : region) : list tok :=
  [W "-"; W (rg_name r)] ++ flat_map print_rrect (rg_rects r) ++ opt (fun s => [W "+"; W "TYPE"; W s]) (rg_type r) ++ flat_map print_prop (rg_props r) ++ [W ";"].
Definition two_pts (ts : list tok) : option (box * list tok) := let* (a, b, r) := pt ts in let* (c, d, r) := pt r in Some ((a, b, c, d), r).
(* def.y:1633-1640 rect_list, after its first rectangle *)
Fixpoint read_rrects (fuel : nat) (ts : list tok) : option (list box * list tok) :=
  match fuel with
  | O => None
  | S f => match eat "(" ts with Some _ => let* (x, r) := two_pts ts in let* (l, r) := read_rrects f r in Some (x :: l, r) | None => Some ([], ts) end
  end.
(* def.y:1701-1704 region_type *)
Definition region_types : list string := ["FENCE"; "GUIDE"].
Section Types.
Variable type_of : string -> ptype.
Definition typed (ps : list (string * string)) : list prop := map (fun p => (fst p, snd p, type_of (fst p))) ps.
(* def.y:1641-1699 region_option; the "+" has been read.  A second TYPE is an error *)
Definition read_regopt (g : region) (ts : list tok) : option (region * list tok) :=
  match eat "TYPE" ts with
  | Some r => match rg_type g with Some _ => None | None => let* (s, r) := one_of region_types r in Some (mkRg (rg_name g) (rg_rects g) (Some s) (rg_props g), r) end
  | None => let* r := eat "PROPERTY" ts in let (l, r) := words r in let* ps := pairs l in Some (mkRg (rg_name g) (rg_rects g) (rg_type g) (rg_props g ++ typed ps), r)
  end.
Fixpoint read_regopts (fuel : nat) (g : region) (ts : list tok) : option (region * list tok) :=
  match fuel with
  | O => None
  | S f => match eat ";" ts with
           | Some r => Some (g, r)
           | None => let* r := eat "+" ts in let* (g, r) := read_regopt g r in read_regopts f g r
           end
  end.
(* def.y:1623-1631 regions_stmt *)
Definition read_region (ts : list tok) : option (region * list tok) :=
  let* r := eat "-" ts in let* (n, r) := word r in let* (x, r) := two_pts r in let* (l, r) := read_rrects (S (List.length r)) r in
  read_regopts (S (List.length r)) (mkRg n (x :: l) None []) r.

(* --- nondefault rules: defiNonDefault --- *)
Record ndlayer := mkNl { nl_name : string; nl_width : Z; nl_diag : option Z; nl_spc : option Z; nl_ext : option Z }.
Record ndr := mkNd { nd_name : string; nd_hard : bool; nd_layers : list ndlayer; nd_vias : list string; nd_vrules : list string; nd_cuts : list (string * Z); nd_props : list prop }.
Definition maybe (k : string) (o : option Z) : list tok := opt (fun n => [W k; Nu n]) o.
(* defw.cpp:1585-1597 *)
Definition print_ndlayer (l : ndlayer) : list tok :=
  [W "+"; W "LAYER"; W (nl_name l); W "WIDTH"; Nu (nl_width l)] ++ maybe "DIAGWIDTH" (nl_diag l) ++ maybe "SPACING" (nl_spc l) ++ maybe "WIREEXT" (nl_ext l).
(* 1576-1624 *)
Definition print_ndr (n : ndr) : list tok :=
  [W "-"; W (nd_name n)] ++ flag (nd_hard n) "HARDSPACING" ++ flat_map print_ndlayer (nd_layers n) ++ flat_map (fun s => [W "+"; W "VIA"; W s]) (nd_vias n) ++
  flat_map (fun s => [W "+"; W "VIARULE"; W s]) (nd_vrules n) ++ flat_map (fun p => [W "+"; W "MINCUTS"; W (fst p); Nu (snd p)]) (nd_cuts n) ++ flat_map print_prop (nd_props n) ++ [W ";"].
(* def.y:5074-5096 nondefault_layer_options *)
Fixpoint read_ndlopts (fuel : nat) (l : ndlayer) (ts : list tok) : option (ndlayer * list tok) :=
  match fuel with
  | O => None
  | S f =>
      match eat "DIAGWIDTH" ts with Some r => let* (n, r) := num r in read_ndlopts f (mkNl (nl_name l) (nl_width l) (Some n) (nl_spc l) (nl_ext l)) r | None =>
      match eat "SPACING" ts with Some r => let* (n, r) := num r in read_ndlopts f (mkNl (nl_name l) (nl_width l) (nl_diag l) (Some n) (nl_ext l)) r | None =>
      match eat "WIREEXT" ts with Some r => let* (n, r) := num r in read_ndlopts f (mkNl (nl_name l) (nl_width l) (nl_diag l) (nl_spc l) (Some n)) r | None =>
      Some (l, ts) end end end
  end.
Definition read_ndlayer (ts : list tok) : option (ndlayer * list tok) :=
  let* (n, r) := word ts in let* r := eat "WIDTH" r in let* (w, r) := num r in read_ndlopts (S (List.length r)) (mkNl n w None None None) r.
(* def.y:5042-5072, 5098-5135 nondefault_option; the "+" has been read *)
Definition read_ndopt (d : ndr) (ts : list tok) : option (ndr * list tok) :=
  match d with mkNd n h ls vs rs cs ps =>
  match eat "HARDSPACING" ts with Some r => Some (mkNd n true ls vs rs cs ps, r) | None =>
  match eat "LAYER" ts with Some r => let* (l, r) := read_ndlayer r in Some (mkNd n h (ls ++ [l]) vs rs cs ps, r) | None =>
  match eat "VIA" ts with Some r => let* (s, r) := word r in Some (mkNd n h ls (vs ++ [s]) rs cs ps, r) | None =>
  match eat "VIARULE" ts with Some r => let* (s, r) := word r in Some (mkNd n h ls vs (rs ++ [s]) cs ps, r) | None =>
  match eat "MINCUTS" ts with Some r => let* (s, r) := word r in let* (k, r) := num r in Some (mkNd n h ls vs rs (cs ++ [(s, k)]) ps, r) | None =>
  let* r := eat "PROPERTY" ts in let (l, r) := words r in let* qs := pairs l in Some (mkNd n h ls vs rs cs (ps ++ typed qs), r)
  end end end end end end.
Fixpoint read_ndopts (fuel : nat) (d : ndr) (ts : list tok) : option (ndr * list tok) :=
  match fuel with
  | O => None
  | S f => match eat ";" ts with
           | Some r => Some (d, r)
           | None => let* r := eat "+" ts in let* (d, r) := read_ndopt d r in read_ndopts f d r
           end
  end.
(* def.y:5026-5036 nondefault_def *)
Definition read_ndr (ts : list tok) : option (ndr * list tok) :=
  let* r := eat "-" ts in let* (n, r) := word r in read_ndopts (S (List.length r)) (mkNd n false [] [] [] [] []) r.
End Types.

(* --- the die area --- *)
(* defw.cpp:1976-1986 with defiSite.cpp:215-237 defiBox::addPoint (DhModel.add_points): the writer prints the box the parser keeps, which has the
   first two points; [d]: the box before the statement *)
Definition print_die (d : DhModel.dbox) (pts : list GeomModel.point) : list tok :=
  let b := DhModel.add_points 0 pts d in
  [W "DIEAREA"; W "("; Nu (DhModel.d_xl b); Nu (DhModel.d_yl b); W ")"; W "("; Nu (DhModel.d_xh b); Nu (DhModel.d_yh b); W ")"; W ";"].
(* def.y:557-567 die_area: two points or more *)
Definition read_die (ts : list tok) : option (list GeomModel.point * list tok) :=
  let* r := eat "DIEAREA" ts in let* (a, b, r) := pt r in let* (c, d, r) := pt r in let* (l, r) := read_pts (S (List.length r)) r in let* r := eat ";" r in
  Some (GeomModel.mkPt a b :: GeomModel.mkPt c d :: map (fun p => GeomModel.mkPt (fst p) (snd p)) l, r).
