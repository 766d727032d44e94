(* FlexDRWorker::routeNet and its helpers (src/dr/FlexDR_maze.cpp:2471-2988).
   Not modelled here: the area map and the min-area patches (see PatchModel.v; they only add rectangles),
   the path costs added at the end
   (2919-2926: see C14), the region query, debug output.
   ALLOW_PIN_AS_FEEDTHROUGH is the constant false of src/global.cpp:58. *)
From Verif Require Import Base GeomModel GridModel MazeModel.

(* src/db/drObj/drPin.h, drAccessPattern.h: a pin is an id and the grid points of its access patterns;
   [preal]: hasFrTerm() *)
Record dpin := mkPin { pid : Z; paps : list midx; preal : bool }.
Definition pin_is (a b : dpin) : bool := pid a =? pid b.

(* std::set<drPin*, frBlockObjectComp> (ordered by id) *)
Fixpoint pset_ins (p : dpin) (s : list dpin) : list dpin :=
  match s with
  | [] => [p]
  | q :: r => if pid p <? pid q then p :: s else if pid p =? pid q then s else q :: pset_ins p r
  end.
Definition pset_erase (p : dpin) (s : list dpin) : list dpin := filter (fun q => negb (pin_is q p)) s.
(* std::set<FlexMazeIdx> *)
Fixpoint mset_ins (p : midx) (s : list midx) : list midx :=
  match s with
  | [] => [p]
  | q :: r => if mi_lt p q then p :: s else if mi_eq p q then s else q :: mset_ins p r
  end.
(* std::map<FlexMazeIdx, std::set<drPin*>>, in insertion order: the order is only used to choose the
   pin that guides the cost estimate (2591-2616) *)
Definition pmap := list (midx * list dpin).
Fixpoint pmap_find (m : pmap) (k : midx) : option (list dpin) :=
  match m with [] => None | (k', s) :: r => if mi_eq k' k then Some s else pmap_find r k end.
(* m[k] = f(m[k]), creating the entry if there is none *)
Fixpoint pmap_upd (m : pmap) (k : midx) (f : list dpin -> list dpin) : pmap :=
  match m with
  | [] => [(k, f [])]
  | (k', s) :: r => if mi_eq k' k then (k', f s) :: r else (k', s) :: pmap_upd r k f
  end.
Definition pmap_erase (m : pmap) (k : midx) : pmap := filter (fun e => negb (mi_eq (fst e) k)) m.

(* routing objects written for a net.  drPathSeg: maze indices, layer, end points, truncated end styles;
   drVia: maze indices of the lower and upper layer point, cut layer, origin, special access via *)
Inductive fig :=
| Seg (a b : midx) (layer : Z) (pa pb : point) (truncB truncE : bool)
| Via (a b : midx) (cut : Z) (o : point) (special : bool).

(* 2471-2507 routeNet_prep *)
Definition prep_pin (st : gg * list dpin * pmap * list midx) (p : dpin) :=
  let '(g, unc, m, rap) := st in
  fold_left (fun '(g, unc, m, rap) mi =>
      (setDst g mi, unc, pmap_upd m mi (pset_ins p), if preal p then mset_ins mi rap else rap))
    (paps p) (g, pset_ins p unc, m, rap).
Definition routeNet_prep (g : gg) (pins : list dpin) := fold_left prep_pin pins (g, [], [], []).

(* 2642-2652 and 2570-2588: take pin [p] off the entry of [mi]; resetDst when nobody else is there.
   Returns the grid, the map, and whether the pin was found *)
Definition take_off (g : gg) (m : pmap) (p : dpin) (mi : midx) : gg * pmap * bool :=
  match pmap_find m mi with
  | None => (g, m, false)
  | Some s =>
    if existsb (fun q => pin_is q p) s then
      let s' := pset_erase p s in
      if (length s' =? 0)%nat then (resetDst g mi, pmap_erase m mi, true)
      else (g, pmap_upd m mi (pset_erase p), true)
    else (g, m, false)
  end.

Section Route.
(* 2530-2544: distance of an access pattern to the centre of the pins (abs values: not negative) *)
Variable src_dist : list dpin -> midx -> Z.
(* 2598-2605: distance of an access pattern to the box of the connected component *)
Variable dst_dist : midx -> midx -> midx -> Z.

(* 2539-2555 the farthest pin; None: no pin has an access pattern *)
Definition far_pin (unc : list dpin) : option dpin :=
  fst (fold_left (fun acc p =>
    fold_left (fun '(cur, best) mi =>
      let d := src_dist unc mi in if d >=? best then (Some p, d) else (cur, best)) (paps p) acc)
    unc (None, 0)).

(* 2509-2589 routeNet_setSrc; None: null pointer dereference.  The new grid, pins, map, connected
   component and its box *)
Definition setSrc_step (p : dpin) (st : gg * pmap * list midx * midx * midx) (mi : midx) :=
  let '(g, m, cc, c1, c2) := st in
  let '(g', m', hit) := take_off g m p mi in
  (* 2581: the source flag is set between the erase and the reset of the destination flag *)
  (if hit then setSrc g' mi else g', m', cc ++ [mi], mi_min c1 mi, mi_max c2 mi).
Definition routeNet_setSrc (g : gg) (unc : list dpin) (m : pmap) :=
  match far_pin unc with
  | None => None
  | Some p =>
    Some (pset_erase p unc,
          fold_left (setSrc_step p) (paps p)
            (g, m, [], mkMI (nx g - 1) (ny g - 1) (nz g - 1), mkMI 0 0 0))
  end.

(* 2591-2616 routeNet_getNextDst; INT_MAX is the initial distance *)
Definition routeNet_getNextDst (c1 c2 : midx) (m : pmap) : option dpin :=
  (fix go (m : pmap) (best : Z) (cur : option dpin) :=
     match m with
     | [] => cur
     | (k, s) :: r =>
       let d := dst_dist c1 c2 k in
       let '(best, cur) := if d <? best then (d, hd_error s) else (best, cur) in
       if best =? 0 then cur else go r best cur
     end) m (2 ^ 31 - 1) None.

(* 2618-2621 mazePinInit (A* costs are not part of the model) *)
Definition mazePinInit (g : gg) : gg := with_prev g (fun _ => false).

(* 2675-2695: the grid points of a straight piece of the path, ends included *)
Definition span_points (a b : midx) : list midx :=
  if negb (mx a =? mx b) && (my a =? my b) && (mz a =? mz b) then
    map (fun x => mkMI x (my a) (mz a)) (zrange (Z.min (mx a) (mx b)) (Z.max (mx a) (mx b)))
  else if (mx a =? mx b) && negb (my a =? my b) && (mz a =? mz b) then
    map (fun y => mkMI (mx a) y (mz a)) (zrange (Z.min (my a) (my b)) (Z.max (my a) (my b)))
  else if (mx a =? mx b) && (my a =? my b) && negb (mz a =? mz b) then
    map (fun z => mkMI (mx a) (my a) z) (zrange (Z.min (mz a) (mz b)) (Z.max (mz a) (mz b)))
  else [].
(* 2671-2702 *)
Fixpoint path_points (path : list midx) : list midx :=
  match path with
  | a :: (b :: _) as r => span_points a b ++ path_points r
  | _ => []
  end.
(* 2629-2659: the pins at the end of the path leave the set of unconnected pins *)
Definition drop_pin (st : gg * list dpin * pmap) (p : dpin) :=
  let '(g, unc, m) := st in
  let '(g, m) := fold_left (fun '(g, m) mi => fst (take_off g m p mi)) (paps p) (g, m) in
  (g, pset_erase p unc, m).
(* 2623-2714 routeNet_postAstarUpdate.  An empty path is reported; the code then dereferences
   path.cbegin() only if there are points to insert, i.e. never *)
Definition routeNet_postAstarUpdate (g : gg) (path cc : list midx) (unc : list dpin) (m : pmap)
    (first : bool) : gg * list midx * list dpin * pmap :=
  let '(g, unc, m) :=
    match path with
    | [] => (g, unc, m)
    | mi :: _ =>
      let m := pmap_upd m mi (fun s => s) in
      match pmap_find m mi with
      | Some pins => fold_left drop_pin pins (g, unc, m)
      | None => (g, unc, m)
      end
    end in
  let '(g, cc) :=
    if first then
      let g := fold_left resetSrc cc g in
      match path with [p] => (setSrc g p, [p]) | _ => (g, []) end
    else (g, cc) in
  let pts := path_points path in
  let g := fold_left setSrc pts g in
  let loc := fold_left (fun s p => mset_ins p s) pts [] in
  let cc := cc ++ (if first then loc
                   else filter (fun p => negb (mi_eq p (hd (mkMI 0 0 0) path))) loc) in
  (g, cc, unc, m).

(* FlexGridGraph.h:112-114 isSVia *)
Definition isSVia (g : gg) (p : midx) : bool := getBit_w (gbits g (getIdx g p)) 9.
(* 2734-2915: the objects of one straight piece *)
Definition in_aps (rap : list midx) (p : midx) : bool := existsb (mi_eq p) rap.
Definition write_piece (g : gg) (rap : list midx) (p q : midx) : list fig :=
  let '(a, b) := if mi_lt q p then (q, p) else (p, q) in
  if (negb (mx a =? mx b) && (my a =? my b) && (mz a =? mz b))
     || ((mx a =? mx b) && negb (my a =? my b) && (mz a =? mz b)) then
    [Seg a b (getLayerNum g (mz a)) (getPoint g a) (getPoint g b) (in_aps rap a) (in_aps rap b)]
  else if (mx a =? mx b) && (my a =? my b) && negb (mz a =? mz b) then
    map (fun z => Via (mkMI (mx a) (my a) z) (mkMI (mx a) (my a) (z + 1)) (getLayerNum g z + 1)
                      (getPoint g a) (isSVia g (mkMI (mx a) (my a) z)))
        (zrange (mz a) (mz b - 1))
  else [].
(* 2716-2917 routeNet_postAstarWritePath *)
Fixpoint writePath (g : gg) (rap : list midx) (path : list midx) : list fig :=
  match path with
  | a :: (b :: _) as r => write_piece g rap a b ++ writePath g rap r
  | _ => []
  end.

Variable E : Type.
Variable next_ext : option dpin -> gg -> entry E -> dir -> E.
Variable init_ext : option dpin -> gg -> midx -> E.
Variable pick : nat -> nat -> list (entry E) -> nat.

Record rstate := mkRS {
  rsg : gg; rsunc : list dpin; rsmap : pmap; rscc : list midx; rsc1 : midx; rsc2 : midx;
  rsfirst : bool; rsfigs : list fig; rsn : nat }.   (* rsn: number of searches made *)
Inductive rresult :=
| ROk (st : rstate)        (* returns true *)
| RFail (st : rstate)      (* returns false *)
| RNull (st : rstate)      (* null pointer dereference *)
| RHang (st : rstate)      (* the search did not end within its fuel *)
| RMore (st : rstate).     (* more than [n] rounds *)
(* 2967-2986 the connection loop *)
Fixpoint route_loop (n fuel tbfuel : nat) (rap : list midx) (st : rstate) : rresult :=
  match rsunc st with
  | [] => ROk st
  | _ =>
    match n with
    | O => RMore st
    | S n =>
      let g := mazePinInit (rsg st) in
      match routeNet_getNextDst (rsc1 st) (rsc2 st) (rsmap st) with
      | None => RNull st
      | next =>
        match search E (next_ext next) (init_ext next) (pick (rsn st)) fuel tbfuel g (rscc st) (rsc1 st) (rsc2 st) with
        | SFound g f =>
          let '(g, cc, unc, m) :=
            routeNet_postAstarUpdate g (fpath f) (froot f) (rsunc st) (rsmap st) (rsfirst st) in
          route_loop n fuel tbfuel rap
            (mkRS g unc m cc (fbox1 f) (fbox2 f) false
                  (rsfigs st ++ writePath g rap (fpath f)) (S (rsn st)))
        | SFail g => RFail st
        | _ => RHang st
        end
      end
    end
  end.
(* 2943-2988 routeNet *)
Definition routeNet (n fuel tbfuel : nat) (g : gg) (pins : list dpin) : rresult :=
  let st0 := mkRS g [] [] [] (mkMI 0 0 0) (mkMI 0 0 0) true [] 0 in
  if (length pins <=? 1)%nat then ROk st0
  else
    let '(g, unc, m, rap) := routeNet_prep g pins in
    match routeNet_setSrc g unc m with
    | None => RNull st0
    | Some (unc, (g, m, cc, c1, c2)) =>
      route_loop n fuel tbfuel rap (mkRS g unc m cc c1 c2 true [] 0)
    end.
End Route.
