(* The forbidden-length tables computed before routing: src/rp/FlexRP_init.cpp and
   src/rp/FlexRP_prep.cpp.  [via2via_forbidden] and [via_turn_forbidden] (TechModel) read them.

   Not modelled: the table of overlap lengths (374-420 second half, 534-576; every caller passes
   isOverlap = false), the line-to-line table (102-172; isLine2LineForbiddenLen has no caller), the
   planar table (175-235; always empty, no caller), the table of vias no wire may pass (48-100; true for
   one via name on layer 10 only) and the LEF58 cut spacing of one process node
   (422-532; returns at once unless DBPROCESSNODE has that node's name). *)
From Verif Require Import Base Stl GeomModel TechModel GcModel.

(* frViaDef seen at its own origin; [rv_id] stands for its address, [rv_b1], [rv_b2] and [rv_bc] are
   the bounding boxes on the lower and upper metal layer and of the cuts (src/db/tech/frViaDef.h,
   src/db/obj/frVia.h:51-140) *)
Record rvia := mkRV { rv_id : Z; rv_cutl : Z; rv_l1 : Z; rv_l2 : Z; rv_b1 : box; rv_b2 : box; rv_bc : box }.
(* frCutSpacingConstraint (src/db/tech/frConstraint.h:1112-1243), the fields read here: spacing,
   CENTERTOCENTER, SAMENET, second layer, ADJACENTCUTS, PARALLELOVERLAP, AREA, STACK *)
Record rcut := mkRC { rc_spc : Z; rc_c2c : bool; rc_same : bool; rc_second : bool; rc_adj : bool;
                      rc_prlo : bool; rc_area : bool; rc_stack : bool }.
(* frMinimumcutConstraint (frConstraint.h:292-353): width, LENGTH ... WITHIN, FROMABOVE/FROMBELOW *)
Inductive mconn := AnySide | FromAbove | FromBelow.
Record rmin := mkMC { mc_width : Z; mc_len : option (Z * Z); mc_conn : mconn }.
(* frLayer: the fields read here.  [rl_inter same l]: getInterLayerCutSpacing(l, same) *)
Record rlayer := mkRL { rl_routing : bool; rl_width : Z; rl_horz : bool; rl_spc : rule;
                        rl_via : option rvia; rl_cuts : bool -> list rcut;
                        rl_inter : bool -> Z -> option rcut; rl_mincut : list rmin }.
(* frTechObject: layers are numbered from 0 (getBottomLayerNum) to [rt_top] *)
Record rtech := mkRT { rt_top : Z; rt_layer : Z -> rlayer }.

(* the look-up of a minimum spacing rule (e.g. 323-329): None = INT_MIN, no rule.  A plain SPACING rule
   is a 1 x 1 table (GcModel.rule_of_spacing).  Simplification: a read outside a table also gives None;
   it does not occur for a non-empty rectangular table *)
Definition rule_find (r : rule) (w1 w2 prl : Z) : option Z :=
  match r with
  | NoRule => None
  | PrlTable rows cols vals => find2 rows cols vals (Z.max w1 w2) prl
  | TwTable hdr vals => find_tw hdr vals w1 w2 prl
  end.

(* 310-314, 595-601 and the like: the box of a via on a routing layer *)
Definition via_on (v : rvia) (l : Z) : box := if rv_l1 v =? l then rv_b1 v else rv_b2 v.
(* extent of a box along the current direction, and across it *)
Definition ext_along (dirx : bool) (b : box) : Z := if dirx then bright b - bleft b else btop b - bbottom b.
Definition ext_across (dirx : bool) (b : box) : Z := if dirx then btop b - bbottom b else bright b - bleft b.

(* 295-337 prep_viaForbiddenTurnLen_minSpc *)
Definition turn_minspc (T : rtech) (l : Z) (v : rvia) (dirx : bool) : list (Z * Z) :=
  let L := rt_layer T l in
  let b1 := via_on v l in
  let dw := rl_width L in
  let non_overlap := Z.quot (ext_along dirx b1 + dw) 2 in
  if dw <? ext_across dirx b1 then
    match rule_find (rl_spc L) (box_width b1) dw (ext_across dirx b1) with
    | Some s => [(non_overlap, s + non_overlap)]
    | None => []
    end
  else [].

(* 791-881 prep_via2viaForbiddenLen_minSpc, on the layer itself (801-850) *)
Definition v2v_minspc_here (T : rtech) (l : Z) (v1 v2 : rvia) (dirx : bool) : list (Z * Z) :=
  let L := rt_layer T l in
  let b1 := via_on v1 l in let b2 := via_on v2 l in
  let dw := rl_width L in
  let non_overlap := Z.quot (ext_along dirx b1 + ext_along dirx b2) 2 in
  if (dw <? ext_across dirx b1) && (dw <? ext_across dirx b2) then
    match rule_find (rl_spc L) (box_width b1) (box_width b2) (Z.min (ext_across dirx b1) (ext_across dirx b2)) with
    | Some s => [(non_overlap, s + non_overlap)]
    | None => []
    end
  else [].
(* 852-880: the other layer of the via, if both vias are the same.  viaBox2 and width2 still are those of
   layer [l]; in the y direction 861 reads the x extent of viaBox2 *)
Definition v2v_minspc_other (T : rtech) (l : Z) (v1 v2 : rvia) (dirx : bool) : list (Z * Z) :=
  if rv_id v1 =? rv_id v2 then
    let b2 := via_on v2 l in
    let '(b1, l') := if rv_l1 v1 =? l then (rv_b2 v1, l + 2) else (rv_b1 v1, l - 2) in
    let non_overlap := if dirx then bright b1 - bleft b1 else bright b2 - bleft b2 in
    match rule_find (rl_spc (rt_layer T l')) (box_width b1) (box_width b2) (ext_across dirx b1) with
    | Some s => [(non_overlap, s + non_overlap)]
    | None => []
    end
  else [].

(* 616-640, 645-670: is the connection of the other via restricted by the rule, and is this via on that side *)
Definition conn_checks (c : mconn) (above : bool) : bool :=
  match c with AnySide => true | FromAbove => above | FromBelow => negb above end.
(* 614-615, 643-644: the metal of a via is wide (and long) enough for the rule *)
Definition mc_wide (c : rmin) (b : box) : bool :=
  match mc_len c with None => true | Some (len, _) => len <? box_length b end && (mc_width c <? box_width b).
(* 626-635, 654-663: distance up to which the cut is too near to the wide metal *)
Definition mc_reach (c : rmin) (isH : bool) (cutb metal : box) : Z :=
  match mc_len c with None => 0 | Some (_, dist) => dist end +
  (if isH then Z.max (bright cutb - bleft metal) (bright metal - bleft cutb)
   else Z.max (btop cutb - bbottom metal) (btop metal - bbottom cutb)).
(* 578-677 prep_via2viaForbiddenLen_minimumCut.  The axis is that of the layer, not the one asked for,
   and `continue` (623, 652) leaves the rule *)
Definition v2v_mincut (T : rtech) (l : Z) (v1 v2 : rvia) : list (Z * Z) :=
  let L := rt_layer T l in
  let isH := rl_horz L in
  let above1 := rv_l1 v1 =? l in let above2 := rv_l1 v2 =? l in
  let b1 := via_on v1 l in let b2 := via_on v2 l in
  flat_map (fun c =>
    let second :=
      if mc_wide c b2 then
        if conn_checks (mc_conn c) above1 then [(0, mc_reach c isH (rv_bc v1) b2)] else []
      else [] in
    if mc_wide c b1 then
      if conn_checks (mc_conn c) above2 then (0, mc_reach c isH (rv_bc v2) b1) :: second else []
    else second) (rl_mincut L).

(* 717, 736: rules that are not plain ones are left out *)
Definition rc_plain (c : rcut) : bool := negb (rc_second c || rc_adj c || rc_prlo c || rc_area c).
(* 679-789 prep_via2viaForbiddenLen_cutSpc *)
Definition v2v_inter_rule (T : rtech) (c1 c2 : Z) : option rcut :=
  match rl_inter (rt_layer T c1) true c2 with
  | Some c => Some c
  | None => match rl_inter (rt_layer T c2) true c1 with
            | Some c => Some c
            | None => match rl_inter (rt_layer T c1) false c2 with
                      | Some c => Some c
                      | None => rl_inter (rt_layer T c2) false c1
                      end
            end
  end.
Definition v2v_cutspc (T : rtech) (v1 v2 : rvia) (dirx : bool) : list (Z * Z) :=
  let cb1 := rv_bc v1 in let cb2 := rv_bc v2 in
  if rv_cutl v1 =? rv_cutl v2 then
    let L := rt_layer T (rv_cutl v1) in
    let same := match rl_cuts L true with [] => false | _ => true end in
    flat_map (fun c =>
      if negb (rc_plain c) || (if same then negb (rc_same c) else rc_same c) then []
      else [(0, rc_spc c + (if rc_c2c c then 0 else ext_along dirx cb1))])
      (rl_cuts L same)
  else
    match v2v_inter_rule T (rv_cutl v1) (rv_cutl v2) with
    | None => []
    | Some c =>
        let req := if rc_spc c =? 0 then 0 else
                   rc_spc c + (if rc_c2c c then 0 else Z.quot (ext_along dirx cb1 + ext_along dirx cb2) 2) in
        if negb (req =? 0) && negb (rc_stack c) then [(0, req)] else []
    end.

(* boost::icl::interval_set<frCoord>: insertion of a closed interval; intervals that overlap or follow
   one another directly are joined, an empty interval changes nothing *)
Fixpoint icl_insert (a b : Z) (s : list (Z * Z)) : list (Z * Z) :=
  if b <? a then s else
  match s with
  | [] => [(a, b)]
  | (c, d) :: r =>
      if b + 1 <? c then (a, b) :: s
      else if d + 1 <? a then (c, d) :: icl_insert a b r
      else icl_insert (Z.min a c) (Z.max b d) r
  end.
(* 278-290, 386-400: merge the ranges and take the ends away *)
Definition merge_ranges (rs : list (Z * Z)) : list (Z * Z) :=
  map (fun r => (fst r + 1, snd r - 1)) (fold_left (fun s r => icl_insert (fst r) (snd r) s) rs []).

(* 353-360: the default vias below and above a routing layer *)
Definition side_via (T : rtech) (l : Z) (down : bool) : option rvia :=
  if down then if 0 <=? l - 1 then rl_via (rt_layer T (l - 1)) else None
  else if l + 1 <=? rt_top T then rl_via (rt_layer T (l + 1)) else None.

(* 265-293 prep_viaForbiddenTurnLen_helper; without a via the entry stays empty (FlexRP_init.cpp) *)
Definition turn_entry (T : rtech) (l : Z) (v : option rvia) (dirx : bool) : list (Z * Z) :=
  match v with None => [] | Some v => merge_ranges (turn_minspc T l v dirx) end.
(* 372-402 prep_via2viaForbiddenLen_helper *)
Definition v2v_ranges (T : rtech) (l : Z) (v1 v2 : rvia) (dirx : bool) : list (Z * Z) :=
  v2v_minspc_here T l v1 v2 dirx ++ v2v_minspc_other T l v1 v2 dirx ++
  v2v_mincut T l v1 v2 ++ v2v_cutspc T v1 v2 dirx.
Definition v2v_entry (T : rtech) (l : Z) (v1 v2 : option rvia) (dirx : bool) : list (Z * Z) :=
  match v1, v2 with
  | Some v1, Some v2 => merge_ranges (v2v_ranges T l v1 v2 dirx)
  | _, _ => []
  end.

(* the loop over layers shared by 48-72, 237-262, 339-369: one row per routing layer, from below *)
Definition routing_layers (T : rtech) : list Z :=
  filter (fun l => rl_routing (rt_layer T l)) (zrange 0 (rt_top T + 1)).
(* 237-262 prep_viaForbiddenTurnLen *)
Definition turn_table (T : rtech) : tbl :=
  map (fun l => let dn := side_via T l true in let up := side_via T l false in
    [turn_entry T l dn true; turn_entry T l dn false; turn_entry T l up true; turn_entry T l up false])
    (routing_layers T).
(* 339-369 prep_via2viaForbiddenLen *)
Definition v2v_table (T : rtech) : tbl :=
  map (fun l => let dn := side_via T l true in let up := side_via T l false in
    [v2v_entry T l dn dn true; v2v_entry T l dn dn false; v2v_entry T l dn up true; v2v_entry T l dn up false;
     v2v_entry T l up dn true; v2v_entry T l up dn false; v2v_entry T l up up true; v2v_entry T l up up false])
    (routing_layers T).
(* the queries of src/db/tech/frTechObject.h:137-149 on these tables *)
Definition v2v_query (T : rtech) (z : Z) (prev_down curr_down dirx : bool) (len : Z) : option bool :=
  via2via_forbidden [] (v2v_table T) z prev_down curr_down dirx len false.
Definition turn_query (T : rtech) (z : Z) (down dirx : bool) (len : Z) : option bool :=
  via_turn_forbidden (turn_table T) z down dirx len.
