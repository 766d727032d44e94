(* What placed shapes cost on the routing grid of a clip: src/dr/FlexDR_maze.cpp:61-1510.  For every
   shape the router adds (or takes back) unit costs at the grid points where a default-width wire, or
   a via, would come too close to it.  A function of this file returns the list of grid operations
   the code performs, in the order it performs them; [grun] (GridModel) runs them. *)
From Verif Require Import Base Stl GeomModel GridModel TechModel.

(* frViaDef seen at its own origin: bounding boxes of the two metal layers and of the cuts, and the
   cut rectangles (src/db/obj/frVia.h getLayer1BBox, getLayer2BBox, getCutBBox) *)
Record cvia := mkCV { cv_b1 : box; cv_b2 : box; cv_cutbb : box; cv_cuts : list box }.
(* frSpacingEndOfLineConstraint: spacing, width, within (src/db/tech/frConstraint.h) *)
Record ceol := mkEol { eo_space : Z; eo_width : Z; eo_within : Z }.
(* frCutSpacingConstraint (src/db/tech/frConstraint.h), the fields the code below reads *)
Record ccut := mkCut { cu_spc : Z; cu_c2c : bool; cu_samenet : bool; cu_layer : bool;
                       cu_adj : Z; cu_within : Z; cu_prlo : bool; cu_area : Z }.
(* What the marking code reads of the technology, by layer number, and of the worker.
   [ce_spc]: the look-up of the layer's minimum spacing rule as a function of the two widths and the
   parallel run length (frSpacingConstraint, frSpacingTablePrlConstraint with the larger width, or
   frSpacingTableTwConstraint), None when the layer has no rule (the code warns and returns);
   [ce_min]: findMin of that table (the spacing itself for a plain rule);
   [ce_via]: default via of a cut layer, None outside the layer range or when there is none;
   [ce_svia]: the special access via of a grid point (isSVia and apSVia);
   [ce_forb]: isViaForbiddenThrough(table layer, low side, x direction, length 0);
   [ce_inter]: getInterLayerCutSpacing(l, false) of a cut layer. *)
Record cenv := mkCE {
  ce_width : Z -> Z; ce_horz : Z -> bool;
  ce_spc : Z -> option (Z -> Z -> Z -> Z); ce_min : Z -> Z;
  ce_via : Z -> option cvia; ce_svia : midx -> option cvia;
  ce_eol : Z -> list ceol; ce_minarea : Z -> Z; ce_manu : Z;
  ce_cut : Z -> list ccut; ce_inter : Z -> Z -> option ccut;
  ce_forb : Z -> bool -> bool -> bool; ce_obsmin : bool }.

(* the two kinds of minimum spacing rule most technologies use *)
Definition spc_plain (s : Z) : Z -> Z -> Z -> Z := fun _ _ _ => s.
(* src/db/tech/frConstraint.h frSpacingTablePrlConstraint::find(max(w1, w2), prl); a read outside the
   table (None of [find2]) is given the value 0, it does not occur for a non-empty rectangular table *)
Definition spc_prl (rows cols : list Z) (vals : list (list Z)) : Z -> Z -> Z -> Z :=
  fun w1 w2 prl => match find2 rows cols vals (Z.max w1 w2) prl with Some v => v | None => 0 end.

(* `switch(type)` for a planar cost, e.g. 241-254: 0 sub DRC, 1 add DRC, 2 sub shape, 3 add shape *)
Definition mk_planar (type : Z) (p : midx) : list gop :=
  if type =? 0 then [SubDRCPlanar p] else if type =? 1 then [AddDRCPlanar p]
  else if type =? 2 then [SubShapePlanar p] else if type =? 3 then [AddShapePlanar p] else [].
(* the same for a via cost, e.g. 868-881 *)
Definition mk_via (type : Z) (p : midx) : list gop :=
  if type =? 0 then [SubDRCVia p] else if type =? 1 then [AddDRCVia p]
  else if type =? 2 then [SubShapeVia p] else if type =? 3 then [AddShapeVia p] else [].

(* getIdxBox and the double loop over the index box, e.g. 216, 229-231 *)
Definition window (g : gg) (b : box) (z : Z) : list midx :=
  let '(x1, y1, x2, y2) := getIdxBox g b in
  flat_map (fun i => map (fun j => mkMI i j z) (zrange y1 y2)) (zrange x1 x2).

(* 61-148 modViaForbiddenThrough: along a wire every grid point but the last gets a via cost where a
   via through it is forbidden (the table layer is z, side and direction as given) *)
Definition via_forbidden (E : cenv) (type : Z) (bi ei : midx) : list gop :=
  let horz := my bi =? my ei in
  let lo := ce_forb E (mz bi) true horz in let up := ce_forb E (mz bi) false horz in
  let pts := if horz then map (fun i => mkMI i (my bi) (mz bi)) (zrange (mx bi) (mx ei - 1))
             else map (fun j => mkMI (mx bi) j (mz bi)) (zrange (my bi) (my ei - 1)) in
  flat_map (fun p => (if lo then mk_via type (mkMI (mx p) (my p) (mz p - 1)) else []) ++
                     (if up then mk_via type p else [])) pts.

(* 188-270 modMinSpacingCostPlaner: the four corners of a wire end of default width at a grid point
   are tested against the shape *)
Definition corner_dist (h : Z) (pt : point) (b : box) : Z :=
  let d := Z.min (pt2boxDistSquare (mkPt (px pt + h) (py pt - h)) b)
                 (pt2boxDistSquare (mkPt (px pt + h) (py pt + h)) b) in
  let d := Z.min (pt2boxDistSquare (mkPt (px pt - h) (py pt - h)) b) d in
  Z.min (pt2boxDistSquare (mkPt (px pt - h) (py pt + h)) b) d.
Definition planar_dist (E : cenv) (spc : Z -> Z -> Z -> Z) (l : Z) (b : box) (blk : bool) : Z :=
  if blk && ce_obsmin E then ce_min E l else spc (box_width b) (ce_width E l) (box_length b).
Definition mod_planar (E : cenv) (g : gg) (type : Z) (b : box) (z : Z) (blk : bool) : list gop :=
  let l := getLayerNum g z in
  match ce_spc E l with
  | None => []
  | Some spc =>
    let h := Z.quot (ce_width E l) 2 in
    let d := planar_dist E spc l b blk in
    let win := box_set (bleft b - d - h + 1) (bbottom b - d - h + 1) (bright b + d + h - 1) (btop b + d + h - 1) in
    flat_map (fun p => if corner_dist h (getPoint g p) b <? d * d then mk_planar type p else [])
             (window g win z)
  end.

(* frBox::transform with a pure translation *)
Definition at_pt (b : box) (pt : point) : box := box_transform b (mkXf (px pt) (py pt) R0).

(* 507-549 modMinSpacingCostVia_eol_helper *)
Definition via_eol_helper (type : Z) (b test : box) (p : midx) : list gop :=
  if box_overlaps test b false then mk_via type p else [].
(* 551-581 modMinSpacingCostVia_eol: [tb] is the via's box at the grid point *)
Definition via_eol (E : cenv) (g : gg) (type : Z) (b tb : box) (z : Z) (p : midx) : list gop :=
  flat_map (fun c =>
    (if bright tb - bleft tb <? eo_width c then
       via_eol_helper type b (box_set (bleft tb - eo_within c) (btop tb) (bright tb + eo_within c) (btop tb + eo_space c)) p ++
       via_eol_helper type b (box_set (bleft tb - eo_within c) (bbottom tb - eo_space c) (bright tb + eo_within c) (bbottom tb)) p
     else []) ++
    (if btop tb - bbottom tb <? eo_width c then
       via_eol_helper type b (box_set (bright tb) (bbottom tb - eo_within c) (bright tb + eo_space c) (btop tb + eo_within c)) p ++
       via_eol_helper type b (box_set (bleft tb - eo_space c) (bbottom tb - eo_within c) (bleft tb) (btop tb + eo_within c)) p
     else []))
    (ce_eol E (getLayerNum g z)).

(* 728-741 the default via above or below the layer, 746-751 its box on the layer *)
Definition via_of (E : cenv) (l : Z) (upper : bool) : option cvia := ce_via E (if upper then l + 1 else l - 1).
Definition side_box (v : cvia) (upper : bool) : box := if upper then cv_b1 v else cv_b2 v.
(* the grid point whose up edge is the via, 827, 867-898 *)
Definition via_pt (p : midx) (upper : bool) : midx :=
  if upper then p else mkMI (mx p) (my p) (mz p - 1).
(* 757-760 *)
Definition is_fat (E : cenv) (l : Z) (vb : box) : bool :=
  if ce_horz E l then (btop vb - bbottom vb) >? ce_width E l else (bright vb - bleft vb) >? ce_width E l.
(* 764-769: length of the minimum-area patch; the code computes the quotient in double *)
Definition patch_length (E : cenv) (l : Z) : Z :=
  - ((- ce_minarea E l) / (ce_width E l * ce_manu E)) * ce_manu E.
Definition patch_len (E : cenv) (l : Z) (vb : box) : Z := if is_fat E l vb then 0 else patch_length E l.
Definition len_mar (E : cenv) (l : Z) (vb : box) : Z :=
  if is_fat E l vb then box_length vb else Z.max (box_length vb) (patch_length E l).
(* 773-797 bloatDist and 848-858 reqDist are the same look-up at different run lengths *)
Definition via_req (E : cenv) (spc : Z -> Z -> Z -> Z) (l : Z) (b vb : box) (blk : bool) (prl : Z) : Z :=
  if blk && ce_obsmin E && negb (is_fat E l vb) then ce_min E l
  else spc (box_width b) (box_width vb) prl.
Definition via_bloat (E : cenv) (spc : Z -> Z -> Z -> Z) (l : Z) (b vb : box) (ps blk : bool) : Z :=
  via_req E spc l b vb blk (if ps then len_mar E l vb else Z.min (box_length b) (len_mar E l vb)).
(* 800-813 *)
Definition bloat_eol_x (E : cenv) (l : Z) (vb : box) : Z :=
  fold_left (fun a c => if btop vb - bbottom vb <? eo_width c then Z.max a (eo_space c) else a) (ce_eol E l) 0.
Definition bloat_eol_y (E : cenv) (l : Z) (vb : box) : Z :=
  fold_left (fun a c => if bright vb - bleft vb <? eo_width c then Z.max a (eo_space c) else a) (ce_eol E l) 0.
(* 837-856 the run length of a shape and a via at [tb]; [vb] is the default via's box at its origin *)
Definition via_prl (E : cenv) (l : Z) (b vb tb : box) (ps : bool) : Z :=
  let dx := box2boxDxNew b tb in let dy := box2boxDyNew b tb in
  let prl := Z.max (- dx) (- dy) in
  if ps then
    if (- dy >=? 0) && (prl =? - dy) then
      (if negb (ce_horz E l) && negb (is_fat E l vb) then Z.max (btop vb - bbottom vb) (patch_len E l vb)
       else btop vb - bbottom vb)
    else if (- dx >=? 0) && (prl =? - dx) then
      (if ce_horz E l && negb (is_fat E l vb) then Z.max (bright vb - bleft vb) (patch_len E l vb)
       else bright vb - bleft vb)
    else prl
  else prl.
(* 725-920 modMinSpacingCostVia *)
Definition mod_via (E : cenv) (g : gg) (type : Z) (b : box) (z : Z) (upper ps blk : bool) : list gop :=
  let l := getLayerNum g z in
  match via_of E l upper with
  | None => []
  | Some v =>
    let vb := side_box v upper in
    match ce_spc E l with
    | None => []
    | Some spc =>
      let d := via_bloat E spc l b vb ps blk in
      let dx := Z.max d (bloat_eol_x E l vb) in let dy := Z.max d (bloat_eol_y E l vb) in
      let win := box_set (bleft b - dx - bright vb + 1) (bbottom b - dy - btop vb + 1)
                         (bright b + dx + (0 - bleft vb) - 1) (btop b + dy + (0 - bbottom vb) - 1) in
      flat_map (fun p =>
        let q := via_pt p upper in
        let tb := at_pt (match ce_svia E q with Some s => side_box s upper | None => vb end) (getPoint g p) in
        let req := via_req E spc l b vb blk (via_prl E l b vb tb ps) in
        (if box2boxDistSquareNew b tb <? req * req then mk_via type q else []) ++
        via_eol E g type b tb z q)
        (window g win z)
    end
  end.

(* 927-1047 modEolSpacingCost_helper, eolType 0: wires *)
Definition eol_planar (E : cenv) (g : gg) (type : Z) (test : box) (z : Z) : list gop :=
  let h := Z.quot (ce_width E (getLayerNum g z)) 2 in
  let win := box_set (bleft test - h + 1) (bbottom test - h + 1) (bright test + h - 1) (btop test + h - 1) in
  flat_map (mk_planar type) (window g win z).
(* eolType 1 (down) and 2 (up): vias *)
Definition eol_via (E : cenv) (g : gg) (type : Z) (test : box) (z : Z) (upper : bool) : list gop :=
  match via_of E (getLayerNum g z) upper with
  | None => []
  | Some v =>
    let vb := side_box v upper in
    let win := box_set (bleft test - bright vb + 1) (bbottom test - btop vb + 1)
                       (bright test + (0 - bleft vb) - 1) (btop test + (0 - bbottom vb) - 1) in
    flat_map (fun p =>
      let q := via_pt p upper in
      match ce_svia E q with
      | Some s => if box_overlaps (at_pt (side_box s upper) (getPoint g p)) test false then mk_via type q else []
      | None => mk_via type q
      end) (window g win z)
  end.
Definition eol_helper (E : cenv) (g : gg) (type : Z) (test : box) (z : Z) (skipvia : bool) : list gop :=
  eol_planar E g type test z ++
  (if skipvia then [] else eol_via E g type test z false ++ eol_via E g type test z true).
(* 1049-1101 modEolSpacingCost *)
Definition mod_eol (E : cenv) (g : gg) (type : Z) (b : box) (z : Z) (skipvia : bool) : list gop :=
  flat_map (fun c =>
    (if bright b - bleft b <? eo_width c then
       eol_helper E g type (box_set (bleft b - eo_within c) (btop b) (bright b + eo_within c) (btop b + eo_space c)) z skipvia ++
       eol_helper E g type (box_set (bleft b - eo_within c) (bbottom b - eo_space c) (bright b + eo_within c) (bbottom b)) z skipvia
     else []) ++
    (if btop b - bbottom b <? eo_width c then
       eol_helper E g type (box_set (bright b) (bbottom b - eo_within c) (bright b + eo_space c) (btop b + eo_within c)) z skipvia ++
       eol_helper E g type (box_set (bleft b - eo_space c) (bbottom b - eo_within c) (bleft b) (btop b + eo_within c)) z skipvia
     else []))
    (ce_eol E (getLayerNum g z)).

(* 1218, 1234 centre of a box, halves rounded towards zero *)
Definition centre (b : box) : point := mkPt (Z.quot (bleft b + bright b) 2) (Z.quot (bbottom b + btop b) 2).
Definition c2c_square (a b : box) : Z :=
  (px (centre a) - px (centre b)) * (px (centre a) - px (centre b)) +
  (py (centre a) - py (centre b)) * (py (centre a) - py (centre b)).
(* src/db/tech/frConstraint.h:1199 `bool getCutArea() const`: the accessor returns a bool, so the area
   bound read by 1268 is 0 or 1 *)
Definition cut_area_read (c : ccut) : Z := if cu_area c =? 0 then 0 else 1.
(* 1237-1271 one cut spacing rule against a cut at [tb]; isAdjacentCuts: adjacentCuts != -1,
   isArea: cutArea != -1 *)
Definition cut_viol (c : ccut) (b tb : box) (blk : bool) : bool :=
  let cur := if cu_c2c c then c2c_square b tb else box2boxDistSquareNew b tb in
  let req := cu_spc c * cu_spc c in
  let prl := Z.max (- box2boxDxNew b tb) (- box2boxDyNew b tb) in
  if cu_samenet c then false
  else if cu_layer c then false
  else if negb (cu_adj c =? -1) then
    cur <? (if blk then cu_within c * cu_within c else req)
  else if cu_prlo c then (prl >? 0) && (cur <? req)
  else if negb (cu_area c =? -1) then
    (Z.max (box_length b * box_width b) (box_length tb * box_width tb) >=? cut_area_read c) && (cur <? req)
  else cur <? req.
(* 1201-1207 *)
Definition cut_bloat (rules : list ccut) (blk : bool) : Z :=
  fold_left (fun a c => let a := Z.max a (cu_spc c) in
                        if negb (cu_adj c =? -1) && blk then Z.max a (cu_within c) else a) rules 0.
Definition cut_window (b cb : box) (d : Z) : box :=
  box_set (bleft b - d - bright cb + 1) (bbottom b - d - btop cb + 1)
          (bright b + d + (0 - bleft cb) - 1) (btop b + d + (0 - bbottom cb) - 1).
(* 1187-1300 modCutSpacingCost: per grid point and per cut of the default via, one cost at the first
   rule violated.  The code dereferences the default via without a test. *)
Definition mod_cut (E : cenv) (g : gg) (type : Z) (b : box) (z : Z) (blk : bool) : list gop :=
  let l := getLayerNum g z + 1 in
  match ce_cut E l, ce_via E l with
  | [], _ | _, None => []
  | rules, Some v =>
    flat_map (fun p =>
      flat_map (fun cf => if existsb (fun c => cut_viol c b (at_pt cf (getPoint g p)) blk) rules
                          then mk_via type p else []) (cv_cuts v))
      (window g (cut_window b (cv_cutbb v) (cut_bloat rules blk)) z)
  end.
(* 1304-1405 modInterLayerCutSpacingCost: one cost per grid point at the first cut violated *)
Definition mod_inter (E : cenv) (g : gg) (type : Z) (b : box) (z : Z) (upper : bool) : list gop :=
  let l1 := getLayerNum g z + 1 in
  let l2 := if upper then l1 + 2 else l1 - 2 in
  let z2 := if upper then z + 1 else z - 1 in
  match ce_via E l2 with
  | None => []
  | Some v =>
    match (match ce_inter E l1 l2 with Some c => Some c | None => ce_inter E l2 l1 end) with
    | None => []
    | Some c =>
      flat_map (fun p =>
        if existsb (fun cf => let tb := at_pt cf (getPoint g p) in
                              (if cu_c2c c then c2c_square b tb else box2boxDistSquareNew b tb) <? cu_spc c * cu_spc c)
                   (cv_cuts v)
        then mk_via type (mkMI (mx p) (my p) z2) else [])
        (window g (cut_window b (cv_cutbb v) (cu_spc c)) z)
    end
  end.

(* figures of a net in the clip: a wire with its two grid points and its box, a patch with its layer
   index, a via with its lower grid point, its origin and its definition *)
Inductive cfig :=
| CWire (bi ei : midx) (b : box)
| CPatch (z : Z) (b : box)
| CVia (bi ei : midx) (pt : point) (v : cvia).
(* 1415-1510 modPathCost; 1408-1414: addPathCost is type 1, subPathCost type 0 *)
Definition mod_path (E : cenv) (g : gg) (type : Z) (f : cfig) : list gop :=
  match f with
  | CWire bi ei b =>
    mod_planar E g type b (mz bi) false ++
    mod_via E g type b (mz bi) true true false ++
    mod_via E g type b (mz bi) false true false ++
    via_forbidden E type bi ei ++
    (if Bool.eqb (ce_horz E (getLayerNum g (mz bi))) (my bi =? my ei)
     then mod_eol E g type b (mz bi) false else [])
  | CPatch z b =>
    mod_planar E g type b z false ++
    mod_via E g type b z true true false ++
    mod_via E g type b z false true false ++
    mod_eol E g type b z false
  | CVia bi ei pt v =>
    let b1 := at_pt (cv_b1 v) pt in let b2 := at_pt (cv_b2 v) pt in
    mod_planar E g type b1 (mz bi) false ++
    mod_via E g type b1 (mz bi) true false false ++
    mod_via E g type b1 (mz bi) false false false ++
    mod_eol E g type b1 (mz bi) false ++
    mod_planar E g type b2 (mz ei) false ++
    mod_via E g type b2 (mz ei) true false false ++
    mod_via E g type b2 (mz ei) false false false ++
    mod_eol E g type b2 (mz ei) false ++
    flat_map (fun cf => let cb := at_pt cf pt in
      mod_cut E g type cb (mz bi) false ++
      mod_inter E g type cb (mz bi) true ++ mod_inter E g type cb (mz bi) false) (cv_cuts v)
  end.
Inductive chist := AddFig (f : cfig) | SubFig (f : cfig).
Definition hist_ops (E : cenv) (g : gg) (e : chist) : list gop :=
  match e with AddFig f => mod_path E g 1 f | SubFig f => mod_path E g 0 f end.
Definition run_hist (E : cenv) (g : gg) (h : list chist) : gg := grun g (flat_map (hist_ops E g) h).
