(* The costs of the maze search: FlexGridGraph::getEstCost, getNextPathCost, the entry built by expand,
   the start entries and the order of the priority queue (src/dr/FlexGridGraph_maze.cpp,
   src/dr/FlexWavefront.h).  They instantiate the parameters of MazeModel.  Costs are unbounded here;
   frCost is unsigned int in the code.  layerPathArea is left out: it is carried along and never read. *)
From Verif Require Import Base GeomModel GridModel MazeModel.

(* what the cost functions read: heights of the layers (FlexGridGraph.cpp:48-62), layer widths by layer
   number, the two forbidden-length look-ups (frTechObject.h:137-149), the costs set by the worker,
   whether the iteration is at least 3, and for the penalty of 270-295 whether it is enabled, pitches by
   layer number, BOTTOM_ROUTING_LAYER and the top layer *)
Record fenv := mkFE {
  fe_height : Z -> Z; fe_width : Z -> Z;
  fe_v2v : Z -> bool -> bool -> bool -> Z -> bool;
  fe_turn : Z -> bool -> bool -> Z -> bool;
  fe_drc : Z; fe_marker : Z; fe_late : bool;
  fe_pen : bool; fe_pitch : Z -> Z; fe_bottom : Z; fe_top : Z }.
(* std::numeric_limits<frCoord>::max() *)
Definition FMAX : Z := 2147483647.
(* src/global.cpp *)
Definition GRIDCOST : Z := 2.
Definition SHAPECOST : Z := 8.
Definition BLOCKCOST : Z := 32.
Definition GUIDECOST : Z := 1.

(* FlexGridGraph.h:291-310 getEdgeLength *)
(* simplification: lists with default 0; the theorems use it on existing edges, which stay inside the grid *)
Definition getEdgeLength (F : fenv) (g : gg) (p : midx) (d : dir) : Z :=
  let '(p, d) := correct p d in
  match d with
  | DE => nth (Z.to_nat (mx p + 1)) (gxs g) 0 - nth (Z.to_nat (mx p)) (gxs g) 0
  | DN => nth (Z.to_nat (my p + 1)) (gys g) 0 - nth (Z.to_nat (my p)) (gys g) 0
  | DU => fe_height F (mz p + 1) - fe_height F (mz p)
  | _ => 0
  end.
Definition is_via_dir (d : dir) : bool := match d with DU | DD => true | _ => false end.
Definition is_x_dir (d : dir) : bool := match d with DE | DW => true | _ => false end.
Definition is_y_dir (d : dir) : bool := match d with DN | DS => true | _ => false end.

(* FlexMazeIdx::operator== *)
Definition mi_same (a b : midx) : bool := (mx a =? mx b) && (my a =? my b) && (mz a =? mz b).
(* FlexGridGraph_maze.cpp:262-295: the penalty near a boundary pin; the code reads the coordinates of the
   next point even when it lies outside the grid, here that gives 0 *)
Definition est_penalty (F : fenv) (g : gg) (src dst1 dst2 : midx) (d : dir) : Z :=
  let n := getNextGrid src d in
  if fe_pen F && mi_same dst1 dst2 && (mz n =? mz dst1) then
    let l := (mz n + 1) * 2 in
    let isH := zdir g (mz n) in
    let gap := if isH then Z.abs (py (getPoint g n) - py (getPoint g dst1)) else Z.abs (px (getPoint g n) - px (getPoint g dst1)) in
    if negb (gap =? 0) && (fe_v2v F (mz n) false false (negb isH) gap || (l - 2 <? fe_bottom F)) &&
       (fe_v2v F (mz n) true true (negb isH) gap || (fe_top F <? l + 2))
    then fe_pitch F l * fe_drc F * 20 else 0
  else 0.
(* 233-298 getEstCost *)
Definition min_x g (p d1 d2 : midx) : Z :=
  Z.max (Z.max (px (getPoint g d1) - px (getPoint g p)) (px (getPoint g p) - px (getPoint g d2))) 0.
Definition min_y g (p d1 d2 : midx) : Z :=
  Z.max (Z.max (py (getPoint g d1) - py (getPoint g p)) (py (getPoint g p) - py (getPoint g d2))) 0.
Definition min_z F (p d1 d2 : midx) : Z :=
  Z.max (Z.max (fe_height F (mz d1) - fe_height F (mz p)) (fe_height F (mz p) - fe_height F (mz d2))) 0.
Definition bend_cnt F g (p d1 d2 : midx) (d : dir) : Z :=
  (if negb (min_x g p d1 d2 =? 0) && negb (dir_eqb d DUnk) && negb (is_x_dir d) then 1 else 0) +
  (if negb (min_y g p d1 d2 =? 0) && negb (dir_eqb d DUnk) && negb (is_y_dir d) then 1 else 0) +
  (if negb (min_z F p d1 d2 =? 0) && negb (dir_eqb d DUnk) && negb (is_via_dir d) then 1 else 0).
Definition getEstCost (F : fenv) (g : gg) (p d1 d2 : midx) (d : dir) : Z :=
  min_x g p d1 d2 + min_y g p d1 d2 + min_z F p d1 d2 + bend_cnt F g p d1 d2 d + est_penalty F g p d1 d2 d.

(* FlexWavefront.h: the fields of an entry besides position and back-trace buffer *)
Record fext := mkFX { x_path : Z; x_cost : Z; x_vx : Z; x_vy : Z; x_viaup : bool; x_tlen : Z; x_dist : Z }.

(* 371-397: forbidden distance between two vias *)
Definition v2v_hit (F : fenv) (z : Z) (x : fext) (d : dir) : bool :=
  is_via_dir d &&
  (let up := dir_eqb d DU in
   let q b len := fe_v2v F z (negb (x_viaup x)) (negb up) b len in
   if (x_vx x =? 0) && (0 <? x_vy x) && q false (x_vy x) then true
   else if (0 <? x_vx x) && (x_vy x =? 0) && q true (x_vx x) then true
   else (0 <? x_vx x) && (0 <? x_vy x) && (q false (x_vy x) && q true (x_vx x))).
(* 399-437: forbidden distance between a via and a turn.  [tLength] is a local variable that holds the
   maximum when 409 tests it, so the branch for a via after a turn is never taken. *)
Definition turn_hit (F : fenv) (z : Z) (x : fext) (cur d : dir) : bool :=
  if negb (dir_eqb cur DUnk) && negb (dir_eqb cur d) then
    if is_via_dir d then
      let tLength := FMAX in
      if negb (tLength =? FMAX) then
        (if is_x_dir cur then fe_turn F z (negb (dir_eqb d DU)) true (x_tlen x)
         else if is_y_dir cur then fe_turn F z (negb (dir_eqb d DU)) false (x_tlen x) else false)
      else false
    else
      if is_x_dir cur then fe_turn F z (negb (x_viaup x)) true (x_vx x)
      else if is_y_dir cur then fe_turn F z (negb (x_viaup x)) false (x_vy x)
      else false
  else false.
(* 357-476 getNextPathCost *)
Definition getNextPathCost (F : fenv) (g : gg) (e : entry fext) (d : dir) : Z :=
  let p := epos e in let x := eext e in let cur := getLastDir (ebuf e) in
  let len := getEdgeLength F g p d in
  let width := fe_width F (getLayerNum g (mz p)) in
  x_path x +
  (if negb (dir_eqb cur d) && negb (dir_eqb cur DUnk) then 1 else 0) +
  (if v2v_hit F (mz p) x d then (if fe_late F then fe_marker F else fe_drc F) * len else 0) +
  (if turn_hit F (mz p) x cur d then (if fe_late F then fe_drc F else fe_marker F) * len else 0) +
  (len + (if hasGridCost g p d then GRIDCOST * len else 0) + (if hasDRCCost g p d then fe_drc F * len else 0) +
   (if hasMarkerCost g p d then fe_marker F * len else 0) + (if hasShapeCost g p d then SHAPECOST * len else 0) +
   (if isBlocked g p d then BLOCKCOST * width * 20 else 0) + (if negb (hasGuide g p d) then GUIDECOST * len else 0)).

(* 35-112 expand: the fields of the new entry *)
Definition fnext (F : fenv) (d1 d2 : midx) (center : point) (g : gg) (e : entry fext) (d : dir) : fext :=
  let p := epos e in let x := eext e in let cur := getLastDir (ebuf e) in
  let n := getNextGrid p d in
  let len := getEdgeLength F g p d in
  let known := negb (x_vx x =? FMAX) && negb (x_vy x =? FMAX) in
  let vx := if is_via_dir d then 0 else if known && is_x_dir d then x_vx x + len else x_vx x in
  let vy := if is_via_dir d then 0 else if known && negb (is_x_dir d) then x_vy x + len else x_vy x in
  let viaup := if is_via_dir d then dir_eqb d DD else x_viaup x in
  let t := if x_tlen x =? FMAX then FMAX else x_tlen x + len in
  let t := if negb (dir_eqb cur DUnk) && negb (dir_eqb cur d) then len else t in
  let t := if is_via_dir d then FMAX else t in
  let dist := Z.abs (px (getPoint g n) - px center) + Z.abs (py (getPoint g n) - py center) in
  let path := getNextPathCost F g e d in
  mkFX path (path + getEstCost F g n d1 d2 d) vx vy viaup t dist.
(* 614-639 the start entries *)
Definition finit (F : fenv) (d1 d2 : midx) (center : point) (g : gg) (i : midx) : fext :=
  let dist := Z.abs (px (getPoint g i) - px center) + Z.abs (py (getPoint g i) - py center) in
  mkFX 0 (getEstCost F g i d1 d2 DUnk) FMAX FMAX true FMAX dist.
(* FlexWavefront.h:61-75 operator<: the top of the queue is an entry not less than any other *)
Definition wf_lt (a b : entry fext) : bool :=
  if negb (x_cost (eext a) =? x_cost (eext b)) then x_cost (eext b) <? x_cost (eext a)
  else if negb (x_dist (eext a) =? x_dist (eext b)) then x_dist (eext b) <? x_dist (eext a)
  else if negb (mz (epos a) =? mz (epos b)) then mz (epos a) <? mz (epos b)
  else x_path (eext a) <? x_path (eext b).
(* 597-612 of search: the box of the access points of the pin *)
Definition dst_box (g : gg) (aps : list midx) : midx * midx :=
  (fold_left mi_min aps (mkMI (nx g - 1) (ny g - 1) (nz g - 1)), fold_left mi_max aps (mkMI 0 0 0)).
(* 591-666 search with its costs *)
Definition fare_search (F : fenv) (pick : nat -> list (entry fext) -> nat) (center : point) (aps : list midx)
    (fuel tbfuel : nat) (g : gg) (cc : list midx) (cc1 cc2 : midx) : sresult :=
  let '(d1, d2) := dst_box g aps in
  search fext (fnext F d1 d2 center) (finit F d1 d2 center) pick fuel tbfuel g cc cc1 cc2.
