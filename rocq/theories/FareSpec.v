(* What a trip through the routing grid costs, independent of the search.  A trip is a start point and
   the directions of its steps, the last step first. *)
From Verif Require Import Base GeomModel GeomSpec GridModel GridSpec MazeModel MazeSpec FareModel.

Fixpoint stop (s : midx) (ds : list dir) : midx := match ds with [] => s | d :: r => step (stop s r) d end.
(* the points of the trip, the last one first *)
Fixpoint stops (s : midx) (ds : list dir) : list midx :=
  match ds with [] => [s] | d :: r => stop s ds :: stops s r end.
(* every step follows an existing edge and stays off the source points *)
Fixpoint legal (g : gg) (s : midx) (ds : list dir) : Prop :=
  match ds with
  | [] => True
  | d :: r => legal g s r /\ d <> DUnk /\ hasEdge g (stop s r) d = true /\ isSrc g (stop s ds) = false
  end.

(* distance between the two ends of a step, vias measured by the height of the layers *)
Definition hop (F : fenv) (g : gg) (p : midx) (d : dir) : Z :=
  let a := getPoint g p in let b := getPoint g (step p d) in
  Z.abs (px b - px a) + Z.abs (py b - py a) + Z.abs (fe_height F (mz (step p d)) - fe_height F (mz p)).
(* the price of an edge: its length, once for itself and again for each marking it carries, and a fixed
   charge when it is blocked *)
Definition edge_price (F : fenv) (g : gg) (p : midx) (d : dir) : Z :=
  hop F g p d * (1 + (if hasGridCost g p d then 2 else 0) + (if hasDRCCost g p d then fe_drc F else 0) +
                 (if hasMarkerCost g p d then fe_marker F else 0) + (if hasShapeCost g p d then 8 else 0) +
                 (if hasGuide g p d then 0 else 1)) +
  (if isBlocked g p d then 640 * fe_width F (getLayerNum g (mz p)) else 0).
(* the sum of the prices of the edges *)
Fixpoint price (F : fenv) (g : gg) (s : midx) (ds : list dir) : Z :=
  match ds with [] => 0 | d :: r => price F g s r + edge_price F g (stop s r) d end.

(* what was travelled in x and in y since the last via, and the direction of that via *)
Fixpoint since_via (F : fenv) (g : gg) (s : midx) (ds : list dir) : option (Z * Z * dir) :=
  match ds with
  | [] => None
  | d :: r =>
    match d, since_via F g s r with
    | (DU | DD), _ => Some (0, 0, d)
    | (DE | DW), Some (a, b, v) => Some (a + hop F g (stop s r) d, b, v)
    | _, Some (a, b, v) => Some (a, b + hop F g (stop s r) d, v)
    | _, None => None
    end
  end.
(* a change of direction *)
Definition bend (ds : list dir) (d : dir) : Z :=
  match ds with [] => 0 | e :: _ => if dir_eqb e d then 0 else 1 end.
(* a via at a forbidden distance from the last via: every axis that was travelled at all is at a
   forbidden distance.  A via reached by going up lies below the current layer. *)
Definition via_clash (F : fenv) (g : gg) (s : midx) (ds : list dir) (d : dir) : bool :=
  match since_via F g s ds with
  | Some (a, b, v) =>
    is_via_dir d && ((0 <? a) || (0 <? b)) &&
    (negb (0 <? a) || fe_v2v F (mz (stop s ds)) (dir_eqb v DU) (dir_eqb d DD) true a) &&
    (negb (0 <? b) || fe_v2v F (mz (stop s ds)) (dir_eqb v DU) (dir_eqb d DD) false b)
  | None => false
  end.
(* a turn within a layer at a forbidden distance from the last via, measured along the axis left *)
Definition turn_clash (F : fenv) (g : gg) (s : midx) (ds : list dir) (d : dir) : bool :=
  match since_via F g s ds, ds with
  | Some (a, b, v), e :: _ =>
    negb (is_via_dir d) && negb (dir_eqb e d) &&
    match e with
    | DE | DW => fe_turn F (mz (stop s ds)) (dir_eqb v DU) true a
    | DN | DS => fe_turn F (mz (stop s ds)) (dir_eqb v DU) false b
    | _ => false
    end
  | _, _ => false
  end.
Definition surcharge (F : fenv) (g : gg) (s : midx) (ds : list dir) (d : dir) : Z :=
  bend ds d +
  (if via_clash F g s ds d then (if fe_late F then fe_marker F else fe_drc F) * hop F g (stop s ds) d else 0) +
  (if turn_clash F g s ds d then (if fe_late F then fe_drc F else fe_marker F) * hop F g (stop s ds) d else 0).
(* the fare: edges, bends and clashes *)
Fixpoint fare (F : fenv) (g : gg) (s : midx) (ds : list dir) : Z :=
  match ds with [] => 0 | d :: r => fare F g s r + edge_price F g (stop s r) d + surcharge F g s r d end.

(* sorted tracks, higher layers higher, costs and widths not negative *)
Definition fare_ok (F : fenv) (g : gg) : Prop :=
  grid_sorted g /\
  (forall z, 0 <= z -> z + 1 < nz g -> fe_height F z <= fe_height F (z + 1)) /\
  0 <= fe_drc F /\ 0 <= fe_marker F /\ (forall l, 0 <= fe_width F l) /\ fe_pen F = false.
(* no surcharge of a single step exceeds K *)
Definition charge_limit (F : fenv) (g : gg) (K : Z) : Prop :=
  1 <= K /\
  forall p d, d <> DUnk -> hasEdge g p d = true ->
    (forall a b c len, fe_v2v F (mz p) a b c len = false) /\ (forall a b len, fe_turn F (mz p) a b len = false) \/
    1 + Z.max (fe_drc F) (fe_marker F) * hop F g p d <= K.
(* the forbidden lengths do not contain the largest value of a coordinate, and no trip without repeated
   points gets that far within a layer *)
Definition lengths_fit (F : fenv) (g : gg) (cc : list midx) : Prop :=
  (forall z a b c, fe_v2v F z a b c FMAX = false) /\ (forall z a b, fe_turn F z a b FMAX = false) /\
  forall s ds a b v, In s cc -> legal g s ds -> NoDup (stops s ds) ->
    since_via F g s ds = Some (a, b, v) -> a < FMAX /\ b < FMAX.
(* the destinations are access points of the pin *)
Definition dst_ok (g : gg) (aps : list midx) : Prop :=
  (forall p, In p aps -> valid g p) /\ (forall p, valid g p -> isDst g p = true -> In p aps).
(* the queue delivers a member that is not less than any other *)
Definition heap_pick (pick : nat -> list (entry fext) -> nat) : Prop :=
  forall k wf, wf <> [] -> exists e, nth_error wf (pick k wf) = Some e /\ forall e', In e' wf -> wf_lt e e' = false.
(* changes of direction on the way, when the start was entered in direction [l] (DUnk: not entered) *)
Fixpoint turns (l : dir) (ds : list dir) : Z :=
  match ds with
  | [] => 0
  | d :: r => turns l r + bend (r ++ match l with DUnk => [] | _ => [l] end) d
  end.
(* every step follows an existing edge *)
Fixpoint on_edges (g : gg) (s : midx) (ds : list dir) : Prop :=
  match ds with [] => True | d :: r => on_edges g s r /\ d <> DUnk /\ hasEdge g (stop s r) d = true end.
(* what was travelled since the last turn within the layer; None: no such turn *)
Fixpoint since_turn (F : fenv) (g : gg) (s : midx) (ds : list dir) : option Z :=
  match ds with
  | d :: r =>
    match r with [] => None | e :: _ =>
    if is_via_dir d || is_via_dir e then None
    else if dir_eqb d e then option_map (fun t => t + hop F g (stop s r) d) (since_turn F g s r)
    else Some (hop F g (stop s r) d)
    end
  | [] => None
  end.
(* a via at a forbidden distance from the last turn *)
Definition via_after_turn (F : fenv) (g : gg) (s : midx) (ds : list dir) (d : dir) : bool :=
  match since_turn F g s ds, ds with
  | Some t, e :: _ => is_via_dir d && fe_turn F (mz (stop s ds)) (dir_eqb d DD) (is_x_dir e) t
  | _, _ => false
  end.
