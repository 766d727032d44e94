(* Outlines of metal (src/gc/FlexGC_init.cpp) and the end-of-line spacing check (src/gc/FlexGC_main.cpp),
   one routing layer. *)
From Verif Require Import Base Stl GeomModel GcModel.

(* --- outlines ----------------------------------------------------------------------------- *)
(* src/db/gcObj/gcShape.h gcSegment: a directed polygon edge, its net, and whether it is an edge of the
   fixed metal as well *)
Record oedge := mkOE { o_net : Z; o_low : point; o_high : point; o_fixed : bool }.
(* gcShape.h:153-171 gcSegment::getDir *)
Definition seg_dir (e : oedge) : edir :=
  if px (o_low e) =? px (o_high e) then if py (o_low e) <? py (o_high e) then EN else ES
  else if px (o_low e) <? px (o_high e) then EE else EW.
(* gtl::length of an axis-parallel segment *)
Definition seg_length (e : oedge) : Z := Z.abs (px (o_high e) - px (o_low e)) + Z.abs (py (o_high e) - py (o_low e)).
(* gtl::orientation of two segments: the sign of the cross product of their directions *)
Definition orientation (a b : oedge) : Z :=
  Z.sgn ((px (o_high a) - px (o_low a)) * (py (o_high b) - py (o_low b))
       - (py (o_high a) - py (o_low a)) * (px (o_high b) - px (o_low b))).

(* FlexGC_init.cpp:423-485, 487-549 initNet_pins_polygonEdges_helper_outer and _inner: the edges of one
   contour, given its points; [fixed] stands for the set of edges of the net's fixed metal.  The last edge
   closes the contour. *)
Definition mk_edge (fixed : point -> point -> bool) (net : Z) (bp ep : point) : oedge := mkOE net bp ep (fixed bp ep).
Fixpoint edges_from (fixed : point -> point -> bool) (net : Z) (first bp : point) (pts : list point) : list oedge :=
  match pts with
  | [] => [mk_edge fixed net bp first]
  | ep :: rest => mk_edge fixed net bp ep :: edges_from fixed net first ep rest
  end.
Definition contour (fixed : point -> point -> bool) (net : Z) (pts : list point) : list oedge :=
  match pts with [] => [] | p :: rest => edges_from fixed net p p rest end.
(* the previous and next edge of every edge of a contour, in order: setPrevEdge and setNextEdge of the same
   functions (the first edge's previous one is the last) *)
Definition with_prev (c : list oedge) : list oedge :=
  match c with [] => [] | e :: _ => last c e :: removelast c end.
Definition with_next (c : list oedge) : list oedge :=
  match c with [] => [] | e :: rest => rest ++ [e] end.
Definition triples (c : list oedge) : list (oedge * oedge * oedge) :=
  combine (combine (with_prev c) c) (with_next c).

(* --- the rule ----------------------------------------------------------------------------- *)
(* src/db/tech/frConstraint.h:795-846 frSpacingEndOfLineConstraint, [n_id] is its address *)
Record eolrule := mkER {
  n_id : Z; n_space : Z; n_width : Z; n_within : Z; n_parspace : Z; n_parwithin : Z; n_two : bool }.
(* a SPACING ENDOFLINE statement of the LEF file as the LEF parser hands it over, numbers already scaled:
   SPACING t_space ENDOFLINE t_width WITHIN t_within [PARALLELEDGE space WITHIN within [TWOEDGES]] *)
Record eolstmt := mkStmt { t_id : Z; t_space : Z; t_width : Z; t_within : Z; t_par : option (Z * Z * bool) }.
(* src/io/io.cpp:3731-3761 *)
Definition lef_eol (s : eolstmt) : eolrule :=
  match t_par s with
  | None => mkER (t_id s) (t_space s) (t_width s) (t_within s) (-1) (-1) false
  | Some (ps, pw, two) => mkER (t_id s) (t_space s) (t_width s) (t_within s) ps pw two
  end.
(* frConstraint.h:814-816 hasParallelEdge *)
Definition has_par (c : eolrule) : bool := negb (n_parspace c =? -1).

(* The checker's state: layer, rules, routed shapes of every net, all edges (in the order the R-tree gives
   them) and all maximal rectangles *)
Record oenv := mkOV { v_lnum : Z; v_rules : list eolrule; v_route : Z -> list box; v_edges : list oedge; v_rects : list grect }.

(* src/gc/FlexGC_rq.cpp:89-96 queryPolygonEdge, touching included *)
Definition query_oedges (V : oenv) (q : box) : list oedge :=
  filter (fun e => box_overlaps q (box_of_pts (o_low e) (o_high e)) true) (v_edges V).

(* FlexGC_main.cpp:1922-1935 isEolEdge *)
Definition is_eol_edge (c : eolrule) (prev e next : oedge) : bool :=
  if seg_length e >=? n_width c then false
  else (orientation prev e =? 1) && (orientation e next =? 1).

(* FlexGC_main.cpp:1938-1999 hasParallelEdge_oneDir_getQueryBox *)
Definition par_query (c : eolrule) (e : oedge) (isLow : bool) : box :=
  let ps := n_parspace c in let pw := n_parwithin c in let ew := n_within c in
  if isLow then
    let x := px (o_low e) in let y := py (o_low e) in
    match seg_dir e with
    | EE => mkBox (mkPt (x - ps) (y - ew)) (mkPt x (y + pw))
    | EW => mkBox (mkPt x (y - pw)) (mkPt (x + ps) (y + ew))
    | EN => mkBox (mkPt (x - pw) (y - ps)) (mkPt (x + ew) y)
    | ES => mkBox (mkPt (x - ew) y) (mkPt (x + pw) (y + ps))
    end
  else
    let x := px (o_high e) in let y := py (o_high e) in
    match seg_dir e with
    | EE => mkBox (mkPt x (y - ew)) (mkPt (x + ps) (y + pw))
    | EW => mkBox (mkPt (x - ps) (y - pw)) (mkPt x (y + ew))
    | EN => mkBox (mkPt (x - pw) y) (mkPt (x + ew) (y + ps))
    | ES => mkBox (mkPt (x - ew) (y - ps)) (mkPt (x + pw) y)
    end.

(* FlexGC_main.cpp:2001-2023 getParallelEdgeRect: one unit of metal behind the edge *)
Definition edge_rect (e : oedge) : box :=
  let l := o_low e in let h := o_high e in
  match seg_dir e with
  | EE => mkBox (mkPt (px l) (py l)) (mkPt (px h) (py h + 1))
  | EW => mkBox (mkPt (px h) (py h - 1)) (mkPt (px l) (py l))
  | EN => mkBox (mkPt (px l - 1) (py l)) (mkPt (px h) (py h))
  | ES => mkBox (mkPt (px h) (py h)) (mkPt (px l + 1) (py l))
  end.

(* some routed metal of the net has area in common with [b] (FlexGC_main.cpp:2057-2071, 2241-2254 and
   2280-2289: boost::polygon set intersection, empty when it has no area) *)
Definition route_area (V : oenv) (net : Z) (b : box) : bool :=
  existsb (fun r => let i := box_and b r in (bleft i <? bright i) && (bbottom i <? btop i)) (v_route V net).

(* FlexGC_main.cpp:2026-2076 hasParallelEdge_oneDir: the answer and the updated hasRoute.  The loop stops at
   the first routed edge. *)
Fixpoint par_loop (V : oenv) (e : oedge) (isLow : bool) (q : box) (es : list oedge) (sol hasRoute : bool) : bool * bool :=
  match es with
  | [] => (sol, hasRoute)
  | p :: rest =>
      if negb ((if isLow then orientation p e else orientation e p) =? -1) then par_loop V e isLow q rest sol hasRoute
      else
        let t := edge_rect p in
        if negb (box_overlaps q t false) then par_loop V e isLow q rest sol hasRoute
        else if negb hasRoute && negb (o_fixed p) then
               if route_area V (o_net p) (box_and q t) then (true, true)
               else par_loop V e isLow q rest true hasRoute
             else par_loop V e isLow q rest true hasRoute
  end.
Definition par_one (V : oenv) (c : eolrule) (e : oedge) (isLow : bool) (hasRoute : bool) : bool * bool :=
  let q := par_query c e isLow in
  par_loop V e isLow q (query_oedges V q) false hasRoute.
(* FlexGC_main.cpp:2078-2092 hasParallelEdge *)
Definition has_parallel (V : oenv) (c : eolrule) (e : oedge) (hasRoute : bool) : bool * bool :=
  if negb (has_par c) then (true, hasRoute)
  else
    let l := par_one V c e true hasRoute in
    let r := par_one V c e false (snd l) in
    (if negb (n_two c) && (fst l || fst r) then true else n_two c && fst l && fst r, snd r).

(* FlexGC_main.cpp:2094-2123 hasEol_getQueryBox *)
Definition eol_query (c : eolrule) (e : oedge) : box :=
  let s := n_space c in let w := n_within c in
  let l := o_low e in let h := o_high e in
  match seg_dir e with
  | EE => mkBox (mkPt (px l - w) (py l - s)) (mkPt (px h + w) (py h))
  | EW => mkBox (mkPt (px h - w) (py h)) (mkPt (px l + w) (py l + s))
  | EN => mkBox (mkPt (px l) (py l - w)) (mkPt (px h + s) (py h + w))
  | ES => mkBox (mkPt (px h - s) (py h - w)) (mkPt (px l) (py l + w))
  end.

(* FlexGC_main.cpp:2125-2218 hasEol_helper; markers keep their sources only *)
Definition eol_marker (V : oenv) (c : eolrule) (e f : oedge) (ms : list marker) : list marker :=
  let m := gen_intersect (edge_rect e) (edge_rect f) in
  let b := if deltaX m * deltaY m =? 0 then
             match seg_dir e with
             | EW | EE => mkBox (mkPt (bleft m - 1) (bbottom m)) (mkPt (bright m + 1) (btop m))
             | _ => mkBox (mkPt (bleft m) (bbottom m - 1)) (mkPt (bright m) (btop m + 1))
             end
           else m in
  if existsb (fun r => box_overlaps b (gbox r) true && box_overlaps b (gbox r) false) (v_rects V) then ms
  else add_marker ms (mkMk m (v_lnum V) (n_id c) (o_net e) (o_net f)).

(* frBaseTypes.h:211 and the enumeration of directions: opposite ones add up to 7 *)
Definition opposite_dir (a b : edir) : bool :=
  match a, b with EE, EW | EW, EE | EN, ES | ES, EN => true | _, _ => false end.
(* FlexGC_main.cpp:2220-2263 hasEol *)
Fixpoint eol_loop (V : oenv) (c : eolrule) (e : oedge) (q : box) (es : list oedge) (hasRoute : bool) (ms : list marker)
  : list marker :=
  match es with
  | [] => ms
  | f :: rest =>
      if negb (opposite_dir (seg_dir e) (seg_dir f)) then eol_loop V c e q rest hasRoute ms
      else
        let t := edge_rect f in
        if negb (box_overlaps q t false) then eol_loop V c e q rest hasRoute ms
        else
          let hasRoute' := if negb hasRoute && negb (o_fixed f) then route_area V (o_net f) (box_and q t) else hasRoute in
          if negb hasRoute' then eol_loop V c e q rest hasRoute' ms
          else eol_loop V c e q rest hasRoute' (eol_marker V c e f ms)
  end.
Definition check_eol_gap (V : oenv) (c : eolrule) (e : oedge) (hasRoute : bool) (ms : list marker) : list marker :=
  let q := eol_query c e in eol_loop V c e q (query_oedges V q) hasRoute ms.

(* FlexGC_main.cpp:2265-2298 checkMetalEndOfLine_eol *)
Definition check_eol_edge (V : oenv) (c : eolrule) (t : oedge * oedge * oedge) (ms : list marker) : list marker :=
  let '(prev, e, next) := t in
  if negb (is_eol_edge c prev e next) then ms
  else
    let hasRoute := if negb (o_fixed e) then route_area V (o_net e) (edge_rect e) else false in
    let p := has_parallel V c e hasRoute in
    if negb (fst p) then ms else check_eol_gap V c e (snd p) ms.
(* FlexGC_main.cpp:2300-2320 checkMetalEndOfLine_main: a pin is a list of contours *)
Definition check_eol_pin (V : oenv) (pin : list (list oedge)) (ms : list marker) : list marker :=
  fold_left (fun ms c => fold_left (fun ms t => fold_left (fun ms r => check_eol_edge V r t ms) (v_rules V) ms) (triples c) ms) pin ms.
(* FlexGC_main.cpp:2322-2345 checkMetalEndOfLine, one layer: the pins of the target net, or of all nets *)
Definition check_eol (V : oenv) (pins : list (list (list oedge))) (ms : list marker) : list marker :=
  fold_left (fun ms p => check_eol_pin V p ms) pins ms.
