(* Patches for the minimum area: src/dr/FlexDR_maze.cpp routeNet_prepAreaMap (2928-2941),
   routeNet_postAstarPatchMinAreaVio (2990-3246), routeNet_postAstarAddPathMetal_isClean (3250-3338),
   routeNet_postAstarAddPatchMetal_addPWire (3341-3386), routeNet_postAstarAddPatchMetal (3388-3437), and
   src/dr/FlexDR.cpp init_halfViaEncArea (1049-1069).
   ENABLE_BOUNDARY_MAR_FIX is the constant true of src/global.cpp:62.  Areas and costs are unbounded. *)
From Verif Require Import Base GeomModel GridModel.

(* a routing layer: default width, preferred direction, minimum area *)
Record player := mkPL { pl_width : Z; pl_horz : bool; pl_area : option Z }.
(* layers by their position z; the two metal boxes of the default via between z and z + 1, around the
   origin; manufacturing grid; route box; workerDRCCost, SHAPECOST, workerMarkerCost *)
Record penv := mkPE { pe_layer : Z -> player; pe_enc : Z -> box * box; pe_mgrid : Z; pe_box : box;
                      pe_drc : Z; pe_shape : Z; pe_marker : Z }.
(* FlexDR.cpp:1049-1069 *)
Definition half_area (b : box) : Z := Z.quot (box_width b * box_length b) 2.
Definition pe_half (E : penv) (z : Z) : Z * Z := (half_area (fst (pe_enc E z)), half_area (snd (pe_enc E z))).
Definition req_area (E : penv) (z : Z) : Z := match pl_area (pe_layer E z) with Some a => a | None => 0 end.

(* a patch: layer, origin, box around the origin (drPatchWire) *)
Record patch := mkPa { pa_layer : Z; pa_origin : point; pa_off : box }.

(* FlexDR_maze.cpp:2928-2941: the largest area of the access patterns at a grid point *)
Definition area_map (aps : list (midx * Z)) : midx -> option Z :=
  fold_left (fun m a p => if mi_eq p (fst a) then Some (match m p with Some v => Z.max v (snd a) | None => snd a end) else m p)
            aps (fun _ => None).
(* 2994-3014 stacked vias separated *)
Definition step_points (a b : midx) : list midx :=
  if mz a =? mz b then [a]
  else if mz a <? mz b then map (fun k => mkMI (mx a) (my a) (mz a + Z.of_nat k)) (seq 0 (Z.to_nat (mz b - mz a)))
  else map (fun k => mkMI (mx a) (my a) (mz a - Z.of_nat k)) (seq 0 (Z.to_nat (mz a - mz b))).
Fixpoint expand (path : list midx) : list midx :=
  match path with
  | a :: (b :: _) as r => step_points a b ++ expand r
  | _ => path
  end.

Section Patch.
Variables (E : penv) (g : gg).

(* 3250-3338: INT_MAX outside the route box; otherwise the costs at the grid points under the patch *)
Definition int_max : Z := 2147483647.
Definition patch_end (bp : midx) (horz left : bool) (plen : Z) : point :=
  let o := getPoint g bp in
  let d := if left then - plen else plen in
  if horz then mkPt (px o + d) (py o) else mkPt (px o) (py o + d).
Definition edge_len (l : list Z) (i : Z) : Z := nth (Z.to_nat (i + 1)) l 0 - nth (Z.to_nat i) l 0.
Definition step_cost (p : midx) (d : dir) (len : Z) : Z :=
  (if hasDRCCost g p d then len * pe_drc E else 0) + (if hasShapeCost g p d then len * pe_shape E else 0) +
  (if hasMarkerCost g p d then len * pe_marker E else 0).
Definition irange (a b : Z) : list Z := map (fun k => a + Z.of_nat k) (seq 0 (Z.to_nat (b - a))).
Definition patch_cost (bp : midx) (horz left : bool) (plen : Z) : Z :=
  let o := getPoint g bp in
  let e := patch_end bp horz left plen in
  if negb (box_contains_pt (pe_box E) e true) then int_max
  else
    let lo := mkPt (Z.min (px o) (px e)) (Z.min (py o) (py e)) in
    let hi := mkPt (Z.max (px o) (px e)) (Z.max (py o) (py e)) in
    let '(x1, y1, x2, y2) := getIdxBox g (mkBox lo hi) in
    if horz then
      fold_left (fun c i => c + step_cost (mkMI i (my bp) (mz bp)) DE (edge_len (gxs g) i)) (irange (Z.max 0 (x1 - 1)) x2) 0
    else
      fold_left (fun c i => c + step_cost (mkMI (mx bp) i (mz bp)) DN (edge_len (gys g) i)) (irange (Z.max 0 (y1 - 1)) y2) 0.
(* 3341-3386 *)
Definition pwire (bp : midx) (horz left : bool) (plen width : Z) : patch :=
  let h := Z.quot width 2 in
  mkPa (getLayerNum g (mz bp)) (getPoint g bp)
       (if horz then if left then mkBox (mkPt (0 - plen) (0 - h)) (mkPt 0 (0 + h)) else mkBox (mkPt 0 (0 - h)) (mkPt (0 + plen) (0 + h))
        else if left then mkBox (mkPt (0 - h) (0 - plen)) (mkPt (0 + h) 0) else mkBox (mkPt (0 - h) 0) (mkPt (0 + h) (0 + plen))).
(* 3388-3437; the quotient is computed with doubles in the code, here exactly *)
Definition patch_length (gap width : Z) : Z := - (- gap / (width * pe_mgrid E)) * pe_mgrid E.
Definition add_patch (bp ep : midx) (gap width : Z) (bl el : bool) : patch :=
  let plen := patch_length gap width in
  let horz := pl_horz (pe_layer E (mz bp)) in
  if patch_cost bp horz bl plen <=? patch_cost ep horz el plen
  then pwire bp horz bl plen width else pwire ep horz el plen width.
(* 3072-3120, 3183-3231: at an end of a stretch the patch points away from the next point *)
Definition to_left (horz : bool) (p next other : midx) : bool :=
  let v m := if horz then mx m else my m in
  if v p <? v next then true else if v p >? v next then false else v p <? v other.
(* 3063-3124, 3174-3235: the patch of a stretch of points on one layer *)
Definition stretch_patch (st : list midx) (gap : Z) : list patch :=
  match st, rev st with
  | p :: p1 :: _, q :: q1 :: _ =>
      let horz := pl_horz (pe_layer E (mz p)) in
      [add_patch p q gap (pl_width (pe_layer E (mz p))) (to_left horz p p1 q) (to_left horz q q1 p)]
  | p :: _, _ => [add_patch p p gap (pl_width (pe_layer E (mz p))) true false]
  | [], _ => []
  end.
Definition gap_area (req cur sh eh : Z) : Z := req - (cur - sh - eh) - Z.min sh eh.
Definition seg_dist (p q : midx) : Z :=
  Z.abs (px (getPoint g p) - px (getPoint g q)) + Z.abs (py (getPoint g p) - py (getPoint g q)).
(* 3037-3246: [st] are the points since the last change of layer, [prev] the last of them, [cur] the area
   so far, [sh] the half enclosure at the start of the stretch *)
Fixpoint patch_loop (am : midx -> option Z) (st : list midx) (prev : midx) (cur sh : Z) (rest : list midx) : list patch :=
  match rest with
  | [] =>
      let cur := cur + match am prev with Some a => a | None => 0 end in
      let req := req_area E (mz prev) in
      if cur <? req then stretch_patch st (gap_area req cur sh 0) else []
  | p :: rest =>
      let req := req_area E (mz prev) in
      if negb (mz p =? mz prev) then
        let eh := if mz p <? mz prev then snd (pe_half E (mz prev - 1)) else fst (pe_half E (mz prev)) in
        let cur := cur + eh in
        let nh := if mz p <? mz prev then fst (pe_half E (mz prev - 1)) else snd (pe_half E (mz prev)) in
        (if cur <? req then stretch_patch st (gap_area req cur sh eh) else []) ++
        patch_loop am [p] p nh nh rest
      else
        let cur := if cur <? req then cur + seg_dist prev p * pl_width (pe_layer E (mz prev)) else cur in
        patch_loop am (st ++ [p]) p cur sh rest
  end.
(* 2990-3246 *)
Definition min_area_patches (aps : list (midx * Z)) (path : list midx) : list patch :=
  match expand path with
  | [] => []
  | p :: rest =>
      let am := area_map aps in
      patch_loop am [p] p (match am p with Some a => a | None => req_area E (mz p) end) 0 rest
  end.
End Patch.
