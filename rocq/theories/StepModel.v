(* The shape checks of the design-rule checker (src/gc/FlexGC_main.cpp checkMetalShape) for the polygons of one
   routing layer, and the minimum-step rule it gets from the LEF file (src/io/io.cpp). *)
From Verif Require Import Base Stl GeomModel GcModel EolModel.

(* One polygon ("pin", src/db/gcObj/gcPin.h) of a net on the layer.  boost::polygon is a parameter: the metal
   of the polygon as rectangles, its outlines (outer one first), the corners of its holes, the result of
   get_rectangles for horizontal and for vertical slicing, the maximal rectangles, and the maximal rectangles
   of its intersection with a given rectangle. *)
Record spoly := mkSP {
  s_net : Z; s_metal : list box; s_outlines : list (list oedge); s_holes : list (list point);
  s_hslabs : list box; s_vslabs : list box; s_maxrects : list box; s_max_in : box -> list box }.

(* --- the rules ----------------------------------------------------------------------------- *)
(* src/frBaseTypes.h frMinstepTypeEnum, without UNKNOWN *)
Inductive mtype := MInside | MOutside | MStep.
(* src/db/tech/frConstraint.h:213-288 frMinStepConstraint: [ms_type] None is UNKNOWN; lengths and counts not
   given are -1 *)
Record mstep := mkMS { ms_id : Z; ms_len : Z; ms_type : option mtype; ms_maxlen : Z; ms_maxedges : Z }.
(* a MINSTEP statement of the LEF file, numbers already scaled *)
Record mstmt := mkMT { mt_id : Z; mt_len : Z; mt_type : option mtype; mt_sum : option Z; mt_edges : option Z }.
(* io.cpp:3667-3699; the flags set together with the type are read nowhere *)
Definition lef_step (s : mstmt) : mstep :=
  let t := match mt_type s with Some t => t | None => MOutside end in
  let len := match mt_sum s with Some l => l | None => -1 end in
  match mt_edges s with
  | Some k => mkMS (mt_id s) (mt_len s) None len k
  | None => mkMS (mt_id s) (mt_len s) (Some t) len (-1)
  end.
(* io.cpp:3666-3703 the statements of a layer: each one replaces the constraint of the one before *)
Definition layer_step (stmts : list mstmt) : option mstep :=
  fold_left (fun _ s => Some (lef_step s)) stmts None.
(* frConstraint.h:144-211 frLef58MinStepConstraint, the fields that are read; eolWidth -1: not given *)
Record step58 := mkS8 { s8_id : Z; s8_len : Z; s8_eol : Z }.
(* frConstraint.h:167-169 hasEolWidth *)
Definition has_eol (c : step58) : bool := negb (s8_eol c =? -1).

(* layer and rules; fixed and routed metal of every net (gcNet getPolygons true and false) *)
Record senv := mkSV {
  sv_lnum : Z; sv_minwidth : Z; sv_width_id : Z; sv_step : option mstep; sv_step58 : list step58;
  sv_rectonly : option Z; sv_mgrid : Z; sv_grid_id : Z; sv_holes : list (Z * Z);
  sv_fixed : Z -> list box; sv_route : Z -> list box }.

(* a marker of a single net: both sources are the same owner *)
Definition shape_marker (V : senv) (P : spoly) (con : Z) (b : box) : marker :=
  mkMk b (sv_lnum V) con (s_net P) (s_net P).

(* --- minimum width --------------------------------------------------------------------------- *)
(* FlexGC_main.cpp:1157-1187 checkMetalShape_minWidth; the areas of boost are numbers of unit squares *)
Definition check_width (V : senv) (P : spoly) (isH : bool) (ms : list marker) (r : box) : list marker :=
  let xlen := bright r - bleft r in let ylen := btop r - bbottom r in
  if isH && (sv_minwidth V <=? xlen) then ms
  else if negb isH && (sv_minwidth V <=? ylen) then ms
  else if Nat.eqb (area_in r (sv_fixed V (s_net P))) (length (cells r)) then ms
  else add_marker ms (shape_marker V P (sv_width_id V) r).

(* --- minimum step ----------------------------------------------------------------------------- *)
Definition pt_box (p : point) : box := mkBox p p.
(* FlexGC_main.cpp:1587-1590: the bounding box grows by a point *)
Definition box_add (b : box) (p : point) : box :=
  mkBox (mkPt (Z.min (bleft b) (px p)) (Z.min (bbottom b) (py p)))
        (mkPt (Z.max (bright b) (px p)) (Z.max (btop b) (py p))).
(* FlexGC_main.cpp:1219-1276 checkMetalShape_minStep_helper *)
Definition step_report (V : senv) (P : spoly) (con : mstep) (bb : box) (inside outside step : bool)
    (edges len : Z) (hasRoute : bool) (ms : list marker) : list marker :=
  if edges =? 0 then ms
  else if negb hasRoute then ms
  else
    let skip :=
      match ms_type con with
      | Some t =>
          negb (match t with MInside => inside | MOutside => outside | MStep => step end)
          || (len <=? ms_maxlen con)
      | None => negb (ms_maxedges con =? -1) && (edges <=? ms_maxedges con)
      end in
    if skip then ms else add_marker ms (shape_marker V P (ms_id con) bb).
(* the edges of an outline with their positions, which stand for their addresses *)
Definition indexed (c : list oedge) : list (nat * oedge) := combine (seq 0 (length c)) c.
(* FlexGC_main.cpp:1577-1619: the loop along the edges after [first].  getNextEdge visits [es], the edges after
   the first one around the outline up to the first one itself; the loop ends there at the latest.  The
   corner flags are never set. *)
Fixpoint step_loop (V : senv) (P : spoly) (con : mstep) (first be : nat) (es : list (nat * oedge))
    (edges len : Z) (hasRoute : bool) (bb : box) (ms : list marker) : list marker :=
  match es with
  | [] => ms
  | (k, e) :: rest =>
      if seg_length e <? ms_len con then
        step_loop V P con first be rest (edges + 1) (len + seg_length e) (hasRoute || negb (o_fixed e)) (box_add bb (o_high e)) ms
      else if Nat.eqb k be then ms
      else
        let ms' := step_report V P con bb false false false edges len (hasRoute || negb (o_fixed e)) ms in
        if Nat.eqb k first then ms'
        else step_loop V P con first k rest 0 0 (negb (o_fixed e)) (pt_box (o_high e)) ms'
  end.
(* FlexGC_main.cpp:1551-1576: the first edge that is long enough; without one the outline is skipped *)
Definition step_outline (V : senv) (P : spoly) (con : mstep) (ms : list marker) (c : list oedge) : list marker :=
  match find (fun ke => ms_len con <=? seg_length (snd ke)) (indexed c) with
  | None => ms
  | Some (k, e) =>
      step_loop V P con k k (skipn (S k) (indexed c) ++ firstn (S k) (indexed c)) 0 0 (negb (o_fixed e)) (pt_box (o_high e)) ms
  end.
(* FlexGC_main.cpp:1530-1621 checkMetalShape_minStep *)
Definition check_step (V : senv) (P : spoly) (ms : list marker) : list marker :=
  match sv_step V with None => ms | Some con => fold_left (step_outline V P con) (s_outlines P) ms end.

(* --- LEF58 minimum step, NOBETWEENEOL ----------------------------------------------------------- *)
(* every edge of an outline with the two edges after it *)
Definition with_next2 (c : list oedge) : list (oedge * oedge * oedge) :=
  combine (combine c (with_next c)) (with_next (with_next c)).
(* FlexGC_main.cpp:1432-1478, one start edge; corners are convex when the edges that meet turn left
   (src/gc/FlexGC_init.cpp:600-606) *)
Definition step58_edge (V : senv) (P : spoly) (con : step58) (ms : list marker) (t : oedge * oedge * oedge) : list marker :=
  let '(a, b, c) := t in
  if negb (seg_length a <? s8_len con) then ms
  else if s8_len con <=? seg_length c then ms
  else if negb (orientation a b =? 1) || negb (orientation b c =? 1) then ms
  else if s8_eol con <=? seg_length b then ms
  else if o_fixed a && o_fixed b && o_fixed c then ms
  else add_marker ms (shape_marker V P (s8_id con)
         (box_add (box_add (box_add (pt_box (o_low a)) (o_high a)) (o_high b)) (o_high c))).
(* FlexGC_main.cpp:1403-1512, 1515-1528 checkMetalShape_lef58MinStep.  The code first collects the short edges
   of all outlines; the order of the checks is the same. *)
Definition check_step58 (V : senv) (P : spoly) (ms : list marker) : list marker :=
  fold_left (fun ms con =>
    if negb (has_eol con) then ms
    else fold_left (fun ms c => fold_left (step58_edge V P con) (with_next2 c) ms) (s_outlines P) ms)
    (sv_step58 V) ms.

(* --- rectangles only ----------------------------------------------------------------------------- *)
(* FlexGC_main.cpp:1650-1661: the concave corners *)
Definition concave_corners (P : spoly) : list point :=
  flat_map (fun c => flat_map (fun t => if orientation (fst t) (snd t) =? -1 then [o_high (fst t)] else [])
                       (combine c (with_next c))) (s_outlines P).
(* number of unit squares of the window that lie in both lists of rectangles *)
Definition area_both (w : box) (a b : list box) : nat :=
  length (filter (fun c => existsb (cell_in c) a && existsb (cell_in c) b) (cells w)).
(* FlexGC_main.cpp:1664-1685 *)
Definition rect_corner (V : senv) (P : spoly) (con : Z) (ms : list marker) (p : point) : list marker :=
  let w := sv_minwidth V in
  let r := mkBox (mkPt (px p - w) (py p - w)) (mkPt (px p + w) (py p + w)) in
  if Nat.eqb (area_both r (s_metal P) (sv_fixed V (s_net P))) (area_in r (s_metal P)) then ms
  else fold_left (fun ms b => add_marker ms (shape_marker V P con b)) (s_max_in P r) ms.
(* FlexGC_main.cpp:1623-1718 checkMetalShape_rectOnly *)
Definition check_rectonly (V : senv) (P : spoly) (ms : list marker) : list marker :=
  match sv_rectonly V with
  | None => ms
  | Some con =>
      if Nat.eqb (length (s_maxrects P)) 1 then ms
      else fold_left (rect_corner V P con) (concave_corners P) ms
  end.

(* --- manufacturing grid ----------------------------------------------------------------------------- *)
(* some rectangle of the list has area in common with [b] *)
Definition meets (l : list box) (b : box) : bool :=
  existsb (fun r => let i := box_and b r in (bleft i <? bright i) && (bbottom i <? btop i)) l.
(* FlexGC_main.cpp:1720-1782 checkMetalShape_offGrid; C's % is the remainder of truncated division *)
Definition offgrid_rect (V : senv) (P : spoly) (ms : list marker) (r : box) : list marker :=
  let g := sv_mgrid V in
  if (negb (Z.rem (bleft r) g =? 0) || negb (Z.rem (bright r) g =? 0) ||
      negb (Z.rem (bbottom r) g =? 0) || negb (Z.rem (btop r) g =? 0)) then
    if negb (meets (sv_route V (s_net P)) r) then ms
    else add_marker ms (shape_marker V P (sv_grid_id V) r)
  else ms.
Definition check_offgrid (V : senv) (P : spoly) (ms : list marker) : list marker :=
  fold_left (offgrid_rect V P) (s_maxrects P) ms.

(* --- minimum enclosed area ---------------------------------------------------------------------------- *)
(* gtl::area of a rectilinear polygon (boost/polygon/polygon_traits.hpp point_sequence_area): the strips
   between the horizontal edges and the height of the first point *)
Fixpoint strip_area (first prev : point) (pts : list point) : Z :=
  match pts with
  | [] => (px first - px prev) * (py prev - py first) / 2
  | q :: rest =>
      (px q - px prev) * ((py q - py first) + (py prev - py first)) / 2 + strip_area first q rest
  end.
Definition poly_area (pts : list point) : Z :=
  match pts with [] => 0 | p :: rest => Z.abs (strip_area p p rest) end.
(* gtl::extents *)
Definition extents (pts : list point) : box :=
  match pts with [] => pt_box (mkPt 0 0) | p :: rest => fold_left box_add rest (pt_box p) end.
(* FlexGC_main.cpp:1784-1847 checkMetalShape_minEnclosedArea; rules with WIDTH were dropped when the LEF file was
   read (io.cpp:3711-3715) *)
Definition hole_rule (V : senv) (P : spoly) (pts : list point) (ms : list marker) (con : Z * Z) : list marker :=
  if poly_area pts <? snd con then
    if negb (existsb (meets (sv_route V (s_net P))) (s_metal P)) then ms
    else add_marker ms (shape_marker V P (fst con) (extents pts))
  else ms.
Definition check_holes (V : senv) (P : spoly) (ms : list marker) : list marker :=
  fold_left (fun ms h => fold_left (hole_rule V P h) (sv_holes V) ms) (s_holes P) ms.

(* --- all shape checks ----------------------------------------------------------------------------- *)
(* FlexGC_main.cpp:1849-1889 checkMetalShape_main *)
Definition check_shape (V : senv) (ms : list marker) (P : spoly) : list marker :=
  let ms := fold_left (check_width V P true) (s_hslabs P) ms in
  let ms := fold_left (check_width V P false) (s_vslabs P) ms in
  let ms := check_step V P ms in
  let ms := check_step58 V P ms in
  let ms := check_rectonly V P ms in
  let ms := check_offgrid V P ms in
  check_holes V P ms.
(* FlexGC_main.cpp:1891-1918 checkMetalShape, one layer: the polygons of the target net or of all nets *)
Definition check_shapes (V : senv) (ps : list spoly) (ms : list marker) : list marker :=
  fold_left (check_shape V) ps ms.
