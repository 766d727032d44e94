(* The checker's cut spacing and cut short checks (src/gc/FlexGC_main.cpp:2346-2720, 3351-3616) and the cut
   rules it gets from LEF (src/io/io.cpp:4015-4068, src/db/tech/frLayer.h:282-303,
   src/io/io_parser_helper.cpp:143-189).  Rectangles, net kinds, markers and their list are those of
   GcModel.  The LEF58_SPACING rules of cut layers (3563-3580) are in Cs8Model.  Not modelled: messages. *)
From Verif Require Import Base Stl GeomModel TechModel GcModel CostModel.

(* frCutSpacingConstraint (src/db/tech/frConstraint.h:1112-1243).  [k_id] stands for its address;
   [k_second] is the number of the layer named after LAYER, [k_adj] ADJACENTCUTS, [k_within] WITHIN,
   [k_xpg] EXCEPTSAMEPGNET, [k_area] AREA *)
Record crule := mkCR { k_id : Z; k_spc : Z; k_c2c : bool; k_same : bool; k_second : option Z; k_stack : bool;
                       k_adj : option Z; k_within : Z; k_xpg : bool; k_prlo : bool; k_area : option Z }.
(* frLayer: the cut rules without LAYER by SAMENET, the inter-layer ones by layer number, width, the
   address of the short constraint *)
Record clayer := mkCL { cl_rules : bool -> list crule; cl_inter : Z -> option crule; cl_isame : Z -> option crule;
                        cl_width : Z; cl_short : Z }.
(* frLayer.h:282-303 addCutSpacingConstraint for all rules of the layer in LEF order, and
   io_parser_helper.cpp:143-189: the first rule of a layer pair counts, and a same-net inter-layer rule
   is dropped without a general one.  A rule with an unknown layer name is left out before. *)
Definition second_is (s : Z) (same : bool) (r : crule) : bool :=
  Bool.eqb (k_same r) same && match k_second r with Some t => t =? s | None => false end.
Definition lef_layer (width short : Z) (lef : list crule) : clayer :=
  mkCL (fun same => filter (fun r => Bool.eqb (k_same r) same && match k_second r with None => true | Some _ => false end) lef)
       (fun s => find (second_is s false) lef)
       (fun s => match find (second_is s false) lef with None => None | Some _ => find (second_is s true) lef end)
       width short.

(* the worker: layers 0 (getBottomLayerNum) to [q_top], owners of nets, maximal rectangles by layer *)
Record cworker := mkCW { q_top : Z; q_layer : Z -> clayer; q_kind : Z -> nkind; q_rects : Z -> list grect }.
(* src/gc/FlexGC_rq.cpp queryMaxRectangle: touching included *)
Definition q_find (W : cworker) (l : Z) (b : box) : list grect :=
  filter (fun r => box_overlaps b (gbox r) true) (q_rects W l).

(* 2346-2355 checkCutSpacing_getMaxSpcVal *)
Definition cut_reach (c : crule) : Z := match k_adj c with Some _ => Z.max (k_spc c) (k_within c) | None => k_spc c end.
(* 2375, 2381, 3411-3415: an obstruction wider than a cut *)
Definition big_obs (W : cworker) (l : Z) (r : grect) : bool :=
  match q_kind W (gnet r) with KObs => true | _ => false end && (cl_width (q_layer W l) <? rwidth r).
(* 2368-2388 checkCutSpacing_spc_getReqSpcVal *)
Definition cut_req (W : cworker) (l1 l2 : Z) (c : crule) (r1 r2 : grect) : Z :=
  match k_adj c with
  | Some _ => if big_obs W l1 r1 || big_obs W l2 r2 then k_within c else k_spc c
  | None => k_spc c
  end.
(* frMarker of a pair *)
Definition cut_marker (l con : Z) (r1 r2 : grect) (m : box) : marker := mkMk m l con (gnet r1) (gnet r2).
(* 2390-2469 checkCutSpacing_short, called with one layer only *)
Definition cut_short (W : cworker) (l : Z) (r1 r2 : grect) (m : box) : option marker :=
  if gfixed r1 && gfixed r2 then None else Some (cut_marker l (cl_short (q_layer W l)) r1 r2 m).
(* gtl::square_euclidean_distance of two rectangles *)
Definition gap_square (a b : box) : Z :=
  let g := pair_geom a b in g_dx g * g_dx g + g_dy g * g_dy g.
(* 2476-2498: power and ground *)
Definition pg_net (W : cworker) (n : Z) : bool := match q_kind W n with KSignal true => true | _ => false end.
(* 2505-2527: one shape of one of the nets on a neighbour layer contains the marker *)
Definition common_metal (W : cworker) (l : Z) (r1 r2 : grect) (m : box) : bool :=
  let found := (if (0 <=? l - 1) && (l - 1 <=? q_top W) then q_find W (l - 1) m else []) ++
               (if (0 <=? l + 1) && (l + 1 <=? q_top W) then q_find W (l + 1) m else []) in
  existsb (fun o => ((gnet o =? gnet r1) || (gnet o =? gnet r2)) && box_contains_box (gbox o) m true) found.
(* 2530: getCutArea returns a bool (frConstraint.h:1199) *)
Definition read_area (a : Z) : Z := if a =? 0 then 0 else 1.
Definition rect_area (b : box) : Z := deltaX b * deltaY b.
Definition area_spared (c : crule) (r1 r2 : grect) : bool :=
  match k_area c with
  | None => false
  | Some a => (rect_area (gbox r1) <? read_area a) && (rect_area (gbox r2) <? read_area a)
  end.
(* 2471-2612 checkCutSpacing_spc *)
Definition cut_spc (W : cworker) (l : Z) (c : crule) (r1 r2 : grect) (m : box) (prl : Z) : option marker :=
  if match k_adj c with Some _ => true | None => false end && k_xpg c && (gnet r1 =? gnet r2) && pg_net W (gnet r1) then None
  else if k_prlo c && ((prl <=? 0) || common_metal W l r1 r2 m) then None
  else if area_spared c r1 r2 then None
  else
    let req := cut_req W l l c r1 r2 in
    let d := if k_c2c c then c2c_square (gbox r1) (gbox r2) else gap_square (gbox r1) (gbox r2) in
    if d >=? req * req then None
    else if gfixed r1 && gfixed r2 then None
    else Some (cut_marker l (k_id c) r1 r2 m).
(* 2615-2719 checkCutSpacing_spc_diff_layer *)
Definition cut_diff (W : cworker) (l1 l2 : Z) (c : crule) (r1 r2 : grect) (m : box) : option marker :=
  if gfixed r1 && gfixed r2 then None
  else if k_stack c && k_same c && (gnet r1 =? gnet r2) &&
          (box_contains_box (gbox r1) (gbox r2) true || box_contains_box (gbox r2) (gbox r1) true) then None
  else
    let req := cut_req W l1 l2 c r1 r2 in
    let d := if k_c2c c || box_overlaps (gbox r1) (gbox r2) false then c2c_square (gbox r1) (gbox r2)
             else gap_square (gbox r1) (gbox r2) in
    if d >=? req * req then None else Some (cut_marker l1 (k_id c) r1 r2 m).
(* 3351-3399 checkCutSpacing_main of two cuts *)
Definition cut_pair (W : cworker) (l1 l2 : Z) (c : crule) (r1 r2 : grect) : option marker :=
  if gid r1 =? gid r2 then None
  else if negb (k_same c) && (gnet r1 =? gnet r2) &&
          match k_second c with
          | None => match cl_rules (q_layer W l1) true with [] => false | _ => true end
          | Some s => match cl_isame (q_layer W l1) s with Some _ => true | None => false end
          end then None
  else
    let g := pair_geom (gbox r1) (gbox r2) in
    if l1 =? l2 then
      if (g_dx g =? 0) && (g_dy g =? 0) then cut_short W l1 r1 r2 (g_marker g)
      else cut_spc W l1 c r1 r2 (g_marker g) (g_prl g)
    else cut_diff W l1 l2 c r1 r2 (g_marker g).
(* 3401-3455 checkCutSpacing_main_hasAdjCuts *)
Definition adj_count (W : cworker) (l : Z) (c : crule) (n : Z) (r : grect) : Z :=
  fold_left (fun cnt o =>
    let d := if k_c2c c then c2c_square (gbox r) (gbox o) else gap_square (gbox r) (gbox o) in
    if d >=? k_within c * k_within c then cnt
    else if big_obs W l o then cnt + n else cnt + 1)
    (q_find W l (my_bloat (gbox r) (k_within c))) (-1).
Definition has_adj (W : cworker) (l : Z) (c : crule) (r : grect) : bool :=
  match k_adj c with
  | None => true
  | Some n => big_obs W l r || (n <=? adj_count W l c n r)
  end.
(* 3480-3548 checkCutSpacing_main of one cut and one rule: the pairs checked, with the rule used *)
Definition rule_for (W : cworker) (l : Z) (c : crule) (r o : grect) : crule :=
  match k_second c with
  | None => c
  | Some s => if negb (gnet r =? gnet o) then c
              else match cl_isame (q_layer W l) s with Some c' => c' | None => c end
  end.
Definition second_layer (l : Z) (c : crule) : Z := match k_second c with Some s => s | None => l end.
Definition add_opt (ms : list marker) (m : option marker) : list marker :=
  match m with Some m => add_marker ms m | None => ms end.
Definition cut_rule_check (W : cworker) (l : Z) (r : grect) (ms : list marker) (c : crule) : list marker :=
  if negb (has_adj W l c r) then ms
  else fold_left (fun ms o => add_opt ms (cut_pair W l (second_layer l c) (rule_for W l c r o) r o))
         (q_find W (second_layer l c) (my_bloat (gbox r) (cut_reach c))) ms.
(* 3550-3562 checkCutSpacing_main of one cut *)
Definition inter_rules (W : cworker) (l : Z) : list crule :=
  flat_map (fun s => match cl_inter (q_layer W l) s with Some c => [c] | None => [] end) (zrange 0 (q_top W + 1)).
Definition cut_check (W : cworker) (l : Z) (ms : list marker) (r : grect) : list marker :=
  fold_left (cut_rule_check W l r)
    (cl_rules (q_layer W l) false ++ cl_rules (q_layer W l) true ++ inter_rules W l) ms.
(* 3583-3616 checkCutSpacing: [rs] are the cuts (layer, rectangle) of the target net or of all nets, in
   the order of the loops over layers, nets and rectangles *)
Definition check_cuts (W : cworker) (rs : list (Z * grect)) (ms : list marker) : list marker :=
  fold_left (fun ms x => cut_check W (fst x) ms (snd x)) rs ms.
