(* The checker's LEF58_SPACING checks of cuts (src/gc/FlexGC_main.cpp:2357-2366, 2722-3350, 3457-3478, 3563-3581).  Rectangles,
   net kinds, markers and queries are those of GcModel and CutModel, contour corners those of CornModel.  Not modelled:
   messages. *)
From Verif Require Import Base Stl GeomModel TechModel GcModel EolModel StepModel CornModel CostModel CutModel.

(* frLef58CutSpacingConstraint (src/db/tech/frConstraint.h:1247-1460), the fields read by the checker.  [y_id] stands for its
   address; [y_second] the layer after LAYER; [y_orth], [y_ext]: ORTHOGONALSPACING, EXTENSION given; [y_class] the index of the
   class after CUTCLASS; [y_opt] CONCAVECORNER followed by WIDTH, PARALLEL or EDGELENGTH; [y_eol], [y_minlen]
   NONEOLCONVEXCORNER and MINLENGTH; [y_adj], [y_two] ADJACENTCUTS and TWOCUTS; [y_within] the last number after WITHIN;
   [y_more] one of EXACTALIGNED, EXCEPTSAMEPGNET, EXCEPTALLWITHIN, TO ALL, NOPRL, ENCLOSURE, SIDEPARALLELOVERLAP, SAMEMASK *)
Record rule8 := mkY { y_id : Z; y_spc : Z; y_c2c : bool; y_same : bool; y_second : option Z; y_stack : bool; y_orth : bool;
                      y_class : option Z; y_short : bool; y_concave : bool; y_opt : bool; y_ext : bool;
                      y_eol : option Z; y_minlen : option Z; y_adj : option Z; y_two : option Z; y_within : Z; y_more : bool }.
(* the worker: the rules of the layers in LEF order, their cut classes (width, length), and the corners of the outlines of the
   metal with their fixed flag (gcCorner, src/gc/FlexGC_init.cpp:623-643) *)
Record worker8 := mkW8 { w8 : cworker; w8_rules : Z -> list rule8; w8_classes : Z -> list (Z * Z); w8_corners : Z -> list (corner * bool) }.
(* src/db/tech/frLayer.h:261-275 *)
Definition rules8 (V : worker8) (l : Z) (same : bool) : list rule8 := filter (fun y => Bool.eqb (y_same y) same) (w8_rules V l).
(* frLayer.h:149-158 getCutClassIdx: the last class of that width and length *)
Fixpoint class_from (i : Z) (cs : list (Z * Z)) (w len : Z) (found : Z) : Z :=
  match cs with
  | [] => found
  | c :: cs => class_from (i + 1) cs w len (if (fst c =? w) && (snd c =? len) then i else found)
  end.
Definition class_idx (V : worker8) (l : Z) (r : grect) : Z := class_from 0 (w8_classes V l) (box_width (gbox r)) (box_length (gbox r)) (-1).
(* frConstraint.h getCutClassIdx: -1 without a class *)
Definition rule_class (y : rule8) : Z := match y_class y with Some i => i | None => -1 end.

(* 2357-2366 checkLef58CutSpacing_getMaxSpcVal *)
Definition reach8 (y : rule8) : Z := match y_adj y with Some _ => Z.max (y_spc y) (y_within y) | None => y_spc y end.
Definition dist8 (y : rule8) (a b : box) : Z := if y_c2c y then c2c_square a b else gap_square a b.
(* 2747-2786, 2799-2841 the number of adjacent cuts *)
Definition count8 (V : worker8) (l : Z) (y : rule8) (r : grect) : Z :=
  fold_left (fun cnt o =>
    if dist8 y (gbox r) (gbox o) >=? y_within y * y_within y then cnt
    else if class_idx V l o =? rule_class y then cnt + 1 else cnt)
    (q_find (w8 V) l (my_bloat (gbox r) (y_within y))) (-1).
(* 2788-2797 checkLef58CutSpacing_spc_hasTwoCuts *)
Definition two_cuts (V : worker8) (l : Z) (y : rule8) (r1 r2 : grect) : bool :=
  match y_two y with Some t => (t <=? count8 V l y r1) && (t <=? count8 V l y r2) | None => false end.
(* 2843-2865 checkLef58CutSpacing_spc_getReqSpcVal *)
Definition req8 (V : worker8) (l : Z) (y : rule8) (r1 r2 : grect) : Z :=
  match y_adj y with
  | Some _ => if big_obs (w8 V) l r1 || big_obs (w8 V) l r2 then y_within y else y_spc y
  | None => y_spc y
  end.
(* 2868-2962 checkLef58CutSpacing_spc_adjCut *)
Definition adj_cut (V : worker8) (l : Z) (y : rule8) (n : Z) (r1 r2 : grect) (m : box) : option marker :=
  if negb ((n <=? count8 V l y r1) || two_cuts V l y r1 r2) then None
  else if y_more y then None
  else if dist8 y (gbox r1) (gbox r2) >=? req8 V l y r1 r2 * req8 V l y r1 r2 then None
  else if gfixed r1 && gfixed r2 then None
  else Some (cut_marker l (y_id y) r1 r2 m).

(* src/gc/FlexGC_rq.cpp queryPolygonEdge: the corners at the start of the edges that touch the box *)
Definition q_corners (V : worker8) (s : Z) (b : box) : list (corner * bool) :=
  filter (fun k => box_overlaps b (box_of_pts (o_low (c_n (fst k))) (o_high (c_n (fst k)))) true) (w8_corners V s).
Definition kind_is (a b : ckind) : bool :=
  match a, b with Convex, Convex | Concave, Concave | Straight, Straight => true | _, _ => false end.
(* 3090-3110 a concave corner *)
Definition on_sides (p : point) (b : box) : bool :=
  (px p =? bleft b) || (px p =? bright b) || (py p =? bbottom b) || (py p =? btop b).
Definition corner_marker (l : Z) (y : rule8) (k : corner) (r1 r2 : grect) : marker :=
  cut_marker l (y_id y) r1 r2 (gen_intersect (pt_box (c_pt k)) (gbox r1)).
Definition concave8 (l : Z) (y : rule8) (r1 r2 : grect) (k : corner * bool) : option marker :=
  if negb (kind_is (c_kind (fst k)) Concave) then None
  else if negb (on_sides (c_pt (fst k)) (gbox r2)) then None
  else if dist8 y (gbox r1) (pt_box (c_pt (fst k))) >=? y_spc y * y_spc y then None
  else if gfixed r1 && snd k then None
  else Some (corner_marker l y (fst k) r1 r2).
(* 3204-3241 the edge before, the edge after the corner is a line end *)
Definition long8 (y : rule8) (e : oedge) : bool := match y_minlen y with Some v => v <=? seg_length e | None => true end.
Definition prev_eol (y : rule8) (eol : Z) (k : corner) : bool :=
  kind_is (kind (c_pp k) (c_p k)) Convex && long8 y (c_n k) && long8 y (c_pp k) && (seg_length (c_p k) <? eol).
Definition next_eol (y : rule8) (eol : Z) (k : corner) : bool :=
  kind_is (kind (c_n k) (c_nn k)) Convex && long8 y (c_p k) && long8 y (c_nn k) && (seg_length (c_n k) <? eol).
(* 3190-3264 a convex corner *)
Definition convex8 (l : Z) (y : rule8) (eol : Z) (r1 r2 : grect) (k : corner * bool) : option marker :=
  if negb (kind_is (c_kind (fst k)) Convex) then None
  else if prev_eol y eol (fst k) then None
  else if next_eol y eol (fst k) then None
  else
    let m := gen_intersect (pt_box (c_pt (fst k))) (gbox r1) in
    let lp := Z.min (y_spc y) (seg_length (c_p (fst k))) in
    let ln := Z.min (y_spc y) (seg_length (c_n (fst k))) in
    let '(ex, ey) := match seg_dir (c_n (fst k)) with EN | ES => (lp, ln) | _ => (ln, lp) end in
    if ex * deltaY m + ey * deltaX m >=? ex * ey then None
    else if gfixed r1 && snd k then None
    else Some (corner_marker l y (fst k) r1 r2).
(* 3021-3348 checkLef58CutSpacing_spc_layer; [s] is the second layer *)
Definition layer_check (V : worker8) (l s : Z) (y : rule8) (r1 r2 : grect) (ms : list marker) : list marker :=
  if y_stack y then ms
  else if y_orth y then ms
  else match y_class y with
  | None => ms
  | Some i =>
      if negb (class_idx V l r1 =? i) then ms
      else if y_short y then ms
      else if y_concave y then
        if negb (box_contains_box (gbox r2) (gbox r1) true) then ms
        else fold_left (fun ms k => add_opt ms (concave8 l y r1 r2 k)) (q_corners V s (gbox r2)) ms
      else if y_ext y then ms
      else match y_eol y with
      | Some eol =>
          if negb (box_contains_box (gbox r2) (gbox r1) true) then ms
          else fold_left (fun ms k => add_opt ms (convex8 l y eol r1 r2 k)) (q_corners V s (gbox r2)) ms
      | None => ms
      end
  end.
(* 2722-2745 checkLef58CutSpacing_main of two rectangles *)
Definition pair8 (V : worker8) (l : Z) (y : rule8) (r1 r2 : grect) (ms : list marker) : list marker :=
  if gid r1 =? gid r2 then ms
  else if y_same y && negb (gnet r1 =? gnet r2) then ms
  else match y_second y with
  | Some s => layer_check V l s y r1 r2 ms
  | None => match y_adj y with
            | Some n => add_opt ms (adj_cut V l y n r1 r2 (g_marker (pair_geom (gbox r1) (gbox r2))))
            | None => ms
            end
  end.
(* 3457-3478 checkLef58CutSpacing_main of one cut and one rule *)
Definition rule_check8 (V : worker8) (l : Z) (r : grect) (skip : bool) (ms : list marker) (y : rule8) : list marker :=
  fold_left (fun ms o => if skip && negb (gnet r =? gnet o) then ms else pair8 V l y r o ms)
    (q_find (w8 V) (match y_second y with Some s => s | None => l end) (my_bloat (gbox r) (reach8 y))) ms.
(* 3568-3580 the LEF58_SPACING part of checkCutSpacing_main *)
Definition check8 (V : worker8) (l : Z) (ms : list marker) (r : grect) : list marker :=
  let skip := match rules8 V l true with [] => false | _ => true end in
  fold_left (rule_check8 V l r skip) (rules8 V l false)
    (fold_left (rule_check8 V l r false) (rules8 V l true) ms).
(* 3550-3581, 3583-3616 checkCutSpacing: the checks of CutModel and these, for every cut *)
Definition check_cuts8 (V : worker8) (rs : list (Z * grect)) (ms : list marker) : list marker :=
  fold_left (fun ms x => check8 V (fst x) (cut_check (w8 V) (fst x) ms (snd x)) (snd x)) rs ms.
