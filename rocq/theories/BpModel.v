(* Boundary pins of routing clips: of the first pass, from the wires of track assignment
   (src/dr/FlexDR.cpp:117-274, 1258-1277), and of later passes, from the routing outside the clip
   (src/dr/FlexDR_init.cpp:1499-1604). *)
From Verif Require Import Base GeomModel GCellModel GridModel BatchModel ClipModel.

(* a wire of track assignment: net, layer, ends (frPathSeg::getPoints) *)
Record tawire := mkTW { tw_net : Z; tw_layer : Z; tw_b : point; tw_e : point }.

Section First.
Variable die : box.
Variables xg yg : gpat.

(* FlexDR.cpp:166-169: length 0 or 1 is a dummy *)
Definition dummy (w : tawire) : bool :=
  let d := px (tw_e w) - px (tw_b w) + py (tw_e w) - py (tw_b w) in (d =? 1) || (d =? 0).

(* FlexDR.cpp:146-274 initGCell2BoundaryPin: what one wire adds: gcell column and row, point.
   Simplified: the grid of maps of sets is a list of insertions; a diagonal wire adds nothing (268-270) *)
Definition wire_pins (w : tawire) : list (Z * Z * point) :=
  if dummy w then []
  else
    let idx1 := gcell_idx xg yg (tw_b w) in
    let idx2 := gcell_idx xg yg (tw_e w) in
    if py (tw_b w) =? py (tw_e w) then
      flat_map (fun x =>
        let g := gcell_box die xg yg (mkPt x (py idx1)) in
        (if px (tw_b w) <? bleft g then [(x, py idx1, mkPt (bleft g) (py (tw_b w)))] else []) ++
        (if px (tw_e w) >=? bright g then [(x, py idx1, mkPt (bright g) (py (tw_e w)))] else []))
        (zrange (px idx1) (px idx2))
    else if px (tw_b w) =? px (tw_e w) then
      flat_map (fun y =>
        let g := gcell_box die xg yg (mkPt (px idx1) y) in
        (if py (tw_b w) <? bbottom g then [(px idx1, y, mkPt (px (tw_b w)) (bbottom g))] else []) ++
        (if py (tw_e w) >=? btop g then [(px idx1, y, mkPt (px (tw_e w)) (btop g))] else []))
        (zrange (py idx1) (py idx2))
    else [].
(* FlexDR.cpp:1258-1277 initDR_mergeBoundaryPin: the boundary pins (net, point, layer) of a clip *)
Definition first_pins (size : Z) (ws : list tawire) (c : clip) : list (Z * point * Z) :=
  let r := route_box die xg yg size c in
  flat_map (fun w => map (fun q => (tw_net w, snd q, tw_layer w))
    (filter (fun q =>
       let '(x, y, p) := q in
       (c_i c <=? x) && (x <? gcount xg) && (x <? c_i c + size) &&
       (c_j c <=? y) && (y <? gcount yg) && (y <? c_j c + size) &&
       ((px p =? bleft r) || (px p =? bright r) || (py p =? bbottom r) || (py p =? btop r)))
       (wire_pins w))) ws.
End First.

(* FlexDR_init.cpp:1513-1574 initNet_boundary, not the first pass: what one fixed wire adds *)
Definition ext_pins1 (b : box) (w : wire) : list (point * Z) :=
  if (px (wb w) =? px (we w)) && (px (wb w) >=? bleft b) && (px (we w) <=? bright b) then
    (if py (wb w) =? btop b then [(wb w, wl w)] else []) ++
    (if py (we w) =? bbottom b then [(we w, wl w)] else [])
  else if (py (wb w) =? py (we w)) && (py (wb w) >=? bbottom b) && (py (we w) <=? btop b) then
    (if px (wb w) =? bright b then [(wb w, wl w)] else []) ++
    (if px (we w) =? bleft b then [(we w, wl w)] else [])
  else [].
Definition later_pins (b : box) (exts : list fig) : list (point * Z) :=
  flat_map (fun f => match f with FSeg w => ext_pins1 b w | _ => [] end) exts.
