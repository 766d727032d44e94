(* History costs of a clip: the price put on the places of violations and its decay
   (src/dr/FlexDR_init.cpp:2674-2835 initMazeCost_marker_route_queue_addHistoryCost, 3111-3117, 3139-3157
   route_queue_markerCostDecay, 3159-3190 route_queue_addMarkerCost for fixMode 9, the only one the router uses;
   src/dr/FlexDR_maze.cpp:2054, 2245-2253).  The messages of the loop are not modelled. *)
From Verif Require Import Base Stl GeomModel GridModel.

Definition midx_dec (a b : midx) : {a = b} + {a <> b}.
Proof. decide equality; apply Z.eq_dec. Defined.
(* a shape that the worker's region query finds at the marker: a wire with its end points, width and end indices; a via with
   its net, origin and index; a patch with its origin and box (drPathSeg, drVia, drPatchWire) *)
Inductive hfig := HSeg (bp ep : point) (w : Z) (m1 m2 : midx) | HVia (net : Z) (o : point) (m : midx) | HPatch (o : point) (b : box).
(* gridGraph, planarHistoryMarkers, viaHistoryMarkers: std::set; their order has no effect *)
Record hstate := mkH { hg : gg; hp : list midx; hv : list midx }.
Definition hins (p : midx) (s : list midx) : list midx := if in_dec midx_dec p s then s else p :: s.

(* the stretch of the wire in the box: from max(obj1, box1) to min(obj2, box2) along the wire *)
Definition seg_h (m1 m2 : midx) : bool := my m1 =? my m2.
Definition stretch (g : gg) (m1 m2 : midx) (b : box) : Z * Z :=
  let '(x1, y1, x2, y2) := getIdxBox g b in
  if seg_h m1 m2 then (Z.max (mx m1) x1, Z.min (mx m2) x2) else (Z.max (my m1) y1, Z.min (my m2) y2).
(* 2712-2768: grown until the stretch has two points, at most [n] times *)
Fixpoint widen (n : nat) (g : gg) (m1 m2 : midx) (w : Z) (b : box) : box :=
  match n with
  | O => b
  | S n => if fst (stretch g m1 m2 b) >=? snd (stretch g m1 m2 b) then widen n g m1 m2 w (box_bloat b w) else b
  end.
Definition seg_points (g : gg) (mbox : box) (w : Z) (m1 m2 : midx) : list midx :=
  let '(lo, hi) := stretch g m1 m2 (widen 5 g m1 m2 w (box_bloat mbox w)) in
  map (fun i => if seg_h m1 m2 then mkMI i (my m1) (mz m1) else mkMI (mx m1) i (mz m1)) (zrange lo hi).
(* 2810-2829 *)
Definition patch_points (g : gg) (b : box) (lNum : Z) : list midx :=
  let i1 := getMazeIdx g (ll b) lNum in let i2 := getMazeIdx g (ur b) lNum in
  flat_map (fun x => map (fun y => mkMI x y (mz i1)) (zrange (my i1) (my i2))) (zrange (mx i1) (mx i2)).

(* one shape; [vio]: vioNets *)
Definition hist_fig (rb mbox : box) (lNum : Z) (st : hstate * list Z) (f : hfig) : hstate * list Z :=
  let '(s, vio) := st in
  match f with
  | HSeg bp ep w m1 m2 =>
      if box_contains_pt rb bp true && box_contains_pt rb ep true then
        let ps := seg_points (hg s) mbox w m1 m2 in
        (mkH (grun (hg s) (map AddMarkerPlanar ps)) (fold_left (fun l p => hins p l) ps (hp s)) (hv s), vio)
      else st
  | HVia net o m =>
      if box_contains_pt rb o true then
        if existsb (Z.eqb net) vio then st
        else if in_dec midx_dec m (hv s) then st
        else (mkH (gstep (hg s) (AddMarkerVia m)) (hp s) (hins m (hv s)), net :: vio)
      else st
  | HPatch o b =>
      if box_contains_pt rb o true then
        let ps := patch_points (hg s) b lNum in
        (mkH (grun (hg s) (flat_map (fun p => [AddMarkerPlanar p; AddMarker p DU; AddMarker p DD]) ps)) (fold_left (fun l p => hins p l) ps (hp s)) (hv s), vio)
      else st
  end.
(* one marker; [figs]: the shapes of its layer that meet its box, in any order *)
Definition hist_marker (rb : box) (s : hstate) (m : box * Z * list hfig) : hstate :=
  let '(mbox, lNum, figs) := m in fst (fold_left (hist_fig rb mbox lNum) figs (s, [])).
(* 3159-3172 *)
Definition hist_markers (rb : box) (s : hstate) (ms : list (box * Z * list hfig)) : hstate := fold_left (hist_marker rb) ms s.

(* FlexGridGraph.h:479-494: currCost *= 0.8f in float, cut to an integer; for 8-bit values this is 4c/5 cut *)
Definition dec8 (c : Z) : Z := Z.max 0 (Z.quot (4 * c) 5).
(* 3141-3148: decay of the points of a set; points at zero leave the set *)
Definition decay_planar (st : gg * list midx) (p : midx) : gg * list midx :=
  let '(g, keep) := st in
  let c := dec8 (getBits_w (gbits g (getIdx g p)) 32 8) in
  (gstep g (SetMarkerPlanar p c), if c =? 0 then keep else keep ++ [p]).
Definition decay_via (st : gg * list midx) (p : midx) : gg * list midx :=
  let '(g, keep) := st in
  let c := dec8 (getBits_w (gbits g (getIdx g p)) 40 8) in
  (gstep g (SetMarkerVia p c), if c =? 0 then keep else keep ++ [p]).
Definition hist_decay (s : hstate) : hstate :=
  let '(g1, p1) := fold_left decay_planar (hp s) (hg s, []) in
  let '(g2, v2) := fold_left decay_via (hv s) (g1, []) in
  mkH g2 p1 v2.
