(* Loading existing routing into a routing clip and writing it back
   (src/dr/FlexDR_init.cpp:40-294, 385-433, 803-864; src/dr/FlexDR_end.cpp:33-475, 519-546;
   src/dr/FlexDR_maze.cpp:2029-2103, 2257-2470).
   Simplified: the worker is its route box, the isInitDR flag and its sub-nets; the layer widths are a
   function; the region queries on wires, vias and patches are parameters (which objects a query on the
   clip returns) or are evaluated on the object boxes (the query at a boundary point); vectors of new
   objects are lists; debug output is dropped. *)
From Verif Require Import Base GeomModel.

(* src/frBaseTypes.h:68-72 frEndStyleEnum *)
Inductive estyle := StTruncate | StExtend | StVariable.
(* src/db/infra/frSegStyle.h frSegStyle: begin style and extension, end style and extension, width *)
Record sstyle := mkSt { bSty : estyle; bExt : Z; eSty : estyle; eExt : Z; sWid : Z }.
(* frSegStyle::setBeginStyle, setEndStyle *)
Definition set_begin (s : sstyle) (e : estyle) (x : Z) : sstyle := mkSt e x (eSty s) (eExt s) (sWid s).
Definition set_end (s : sstyle) (e : estyle) (x : Z) : sstyle := mkSt (bSty s) (bExt s) e x (sWid s).
(* src/db/obj/frShape.h frPathSeg / src/db/drObj/drShape.h drPathSeg: layer, begin, end, style *)
Record wire := mkW { wl : Z; wb : point; we : point; ws : sstyle }.
(* src/db/obj/frShape.h:522-537 frPathSeg::getBBox *)
Definition seg_box (w : wire) : box :=
  let h := Z.quot (sWid (ws w)) 2 in
  if negb (px (wb w) =? px (we w))
  then box_set (px (wb w) - bExt (ws w)) (py (wb w) - h) (px (we w) + eExt (ws w)) (py (we w) + h)
  else box_set (px (wb w) - h) (py (wb w) - bExt (ws w)) (px (we w) + h) (py (we w) + eExt (ws w)).
(* routing figures: wires; vias (origin, layers, via definition); patches (origin, layer, offset box) *)
Inductive fig := FSeg (w : wire) | FVia (o : point) (l1 l2 d : Z) | FPatch (o : point) (l : Z) (off : box).

(* which list a piece goes to: netRouteObjs or netExtObjs *)
Inductive side := Route | Ext.

Section Clip.
Variable isInit : bool.          (* FlexDRWorker::isInitDR *)
Variable b : box.                (* FlexDRWorker::getRouteBox *)
Variable lw : Z -> Z.            (* frLayer::getWidth *)

Definition half (w : wire) : Z := Z.quot (lw (wl w)) 2.

(* src/dr/FlexDR_init.cpp:40-232 initNetObjs_pathSeg.  A diagonal wire yields nothing (229-231). *)
Definition load_seg (w : wire) : list (side * wire) :=
  let bp := wb w in
  let ep := we w in
  if px bp =? px ep then
    if (bleft b <=? px bp) && (if isInit then px bp <? bright b else px bp <=? bright b) then
      (* 60-88 *)
      (if py bp <? bbottom b then
         let e := mkPt (px ep) (Z.min (py ep) (bbottom b)) in
         if py ep <? bbottom b then [(Ext, mkW (wl w) bp e (ws w))]
         else [(Route, mkW (wl w) bp e
                 (if negb (py ep =? bbottom b) then set_end (ws w) StExtend (half w) else ws w))]
       else []) ++
      (* 89-112 *)
      (if negb ((py bp >=? btop b) || (py ep <=? bbottom b)) then
         let s := ws w in
         let s := if py bp <? bbottom b then set_begin s StExtend (half w) else s in
         let s := if py ep >? btop b then set_end s StExtend (half w) else s in
         [(Route, mkW (wl w) (mkPt (px bp) (Z.max (py bp) (bbottom b)))
                             (mkPt (px ep) (Z.min (py ep) (btop b))) s)]
       else []) ++
      (* 113-136 *)
      (if py ep >? btop b then
         let e := mkPt (px bp) (Z.max (py bp) (btop b)) in
         if py bp >? btop b then [(Ext, mkW (wl w) e ep (ws w))]
         else [(Route, mkW (wl w) e ep
                 (if negb (py bp =? btop b) then set_begin (ws w) StExtend (half w) else ws w))]
       else [])
    else [(Ext, w)]
  else if py bp =? py ep then
    if (bbottom b <=? py bp) && (if isInit then py bp <? btop b else py bp <=? btop b) then
      (* 155-180 *)
      (if px bp <? bleft b then
         let e := mkPt (Z.min (px ep) (bleft b)) (py ep) in
         if px ep <? bleft b then [(Ext, mkW (wl w) bp e (ws w))]
         else [(Route, mkW (wl w) bp e
                 (if negb (px ep =? bleft b) then set_end (ws w) StExtend (half w) else ws w))]
       else []) ++
      (* 181-203 *)
      (if negb ((px bp >=? bright b) || (px ep <=? bleft b)) then
         let s := ws w in
         let s := if px bp <? bleft b then set_begin s StExtend (half w) else s in
         let s := if px ep >? bright b then set_end s StExtend (half w) else s in
         [(Route, mkW (wl w) (mkPt (Z.max (px bp) (bleft b)) (py bp))
                             (mkPt (Z.min (px ep) (bright b)) (py ep)) s)]
       else []) ++
      (* 204-227 *)
      (if px ep >? bright b then
         let e := mkPt (Z.max (px bp) (bright b)) (py bp) in
         if px bp >? bright b then [(Ext, mkW (wl w) e ep (ws w))]
         else [(Route, mkW (wl w) e ep
                 (if negb (px bp =? bright b) then set_begin (ws w) StExtend (half w) else ws w))]
       else [])
    else [(Ext, w)]
  else [].

(* 385-433 and 803-864: a wire of netRouteObjs stays routable only if both its ends are in the box *)
Definition final_side (x : side * wire) : side * wire :=
  match fst x with
  | Route => if box_contains_pt b (wb (snd x)) true && box_contains_pt b (we (snd x)) true then x else (Ext, snd x)
  | Ext => x
  end.
(* 234-263 initNetObjs_via and 265-294 initNetObjs_patchWire: the same test on the origin *)
Definition origin_in (o : point) : bool :=
  (px o >=? bleft b) && (py o >=? bbottom b) &&
  (if isInit then (px o <? bright b) && (py o <? btop b) else (px o <=? bright b) && (py o <=? btop b)).
Definition load_fig (f : fig) : list (side * fig) :=
  match f with
  | FSeg w => map (fun x => (fst (final_side x), FSeg (snd (final_side x)))) (load_seg w)
  | FVia o _ _ _ => [(if origin_in o then Route else Ext, f)]
  | FPatch o _ _ => [(if origin_in o then Route else Ext, f)]
  end.
Definition on_side (s : side) (l : list (side * fig)) : list fig :=
  map snd (filter (fun x => match fst x, s with Route, Route | Ext, Ext => true | _, _ => false end) l).
(* the routable and the fixed figures of a list of figures *)
Definition loaded (s : side) (figs : list fig) : list fig := on_side s (flat_map load_fig figs).

(* src/dr/FlexDR_end.cpp:48-197 endRemoveNets_pathSeg: the wires kept in the design (the shortened
   copies, or the wire itself) and the boundary points *)
Definition remove_seg (w : wire) : list wire * list (point * Z) :=
  let bp := wb w in
  let ep := we w in
  if px bp =? px ep then
    if (bleft b <=? px bp) && (if isInit then px bp <? bright b else px bp <=? bright b) &&
       negb ((py bp >? btop b) || (py ep <? bbottom b)) then
      (* 72-104 *)
      let lo := if py bp <? bbottom b then
          let p := mkPt (px ep) (Z.min (py ep) (bbottom b)) in
          ([mkW (wl w) bp p (if py ep >? bbottom b then set_end (ws w) StExtend (half w) else ws w)],
           if py ep >=? bbottom b then [(p, wl w)] else [])
        else ([], []) in
      (* 105-134 *)
      let hi := if py ep >? btop b then
          let p := mkPt (px bp) (Z.max (py bp) (btop b)) in
          ([mkW (wl w) p ep (if py bp <? btop b then set_begin (ws w) StExtend (half w) else ws w)],
           if py bp <=? btop b then [(p, wl w)] else [])
        else ([], []) in
      (fst lo ++ fst hi, snd lo ++ snd hi)
    else ([w], [])
  else if py bp =? py ep then
    if (bbottom b <=? py bp) && (if isInit then py bp <? btop b else py bp <=? btop b) &&
       negb ((px bp >? bright b) || (px ep <? bleft b)) then
      (* 146-176 *)
      let lo := if px bp <? bleft b then
          let p := mkPt (Z.min (px ep) (bleft b)) (py ep) in
          ([mkW (wl w) bp p (if px ep >? bleft b then set_end (ws w) StExtend (half w) else ws w)],
           if px ep >=? bleft b then [(p, wl w)] else [])
        else ([], []) in
      (* 177-196 *)
      let hi := if px ep >? bright b then
          let p := mkPt (Z.max (px bp) (bright b)) (py bp) in
          ([mkW (wl w) p ep (if px bp <? bright b then set_begin (ws w) StExtend (half w) else ws w)],
           if px bp <=? bright b then [(p, wl w)] else [])
        else ([], []) in
      (fst lo ++ fst hi, snd lo ++ snd hi)
    else ([w], [])
  else ([w], []).
(* 199-241 endRemoveNets_via, endRemoveNets_patchWire *)
Definition remove_fig (f : fig) : list fig * list (point * Z) :=
  match f with
  | FSeg w => (map FSeg (fst (remove_seg w)), snd (remove_seg w))
  | FVia o _ _ _ => (if origin_in o then [] else [f], [])
  | FPatch o _ _ => (if origin_in o then [] else [f], [])
  end.

(* ---- endAddNets_merge, src/dr/FlexDR_end.cpp:313-441, on the figures of one net *)
Variable pin_at : Z -> point -> Z -> bool.       (* 322-340: a pin of the net at the point on the layer *)
Variable manuGrid : Z.                           (* frTechObject::getManufacturingGrid *)
(* the region query's order: whether the second of two wires is delivered first *)
Variable swap : point -> Z -> bool.

(* 342-346 *)
Definition skip_pt (n : Z) (p : point) (l : Z) : bool :=
  if negb (Z.rem (px p) manuGrid =? 0) || negb (Z.rem (py p) manuGrid =? 0) then false else pin_at n p l.
(* 356-377: a wire found at the point (by its box) that begins or ends there *)
Definition ends_at (p : point) (l : Z) (f : fig) : bool :=
  match f with
  | FSeg w => (wl w =? l) && box_contains_pt (seg_box w) p true && (pt_eq (wb w) p || pt_eq (we w) p)
  | _ => false
  end.
Definition is_vert (f : fig) : bool := match f with FSeg w => px (wb w) =? px (we w) | _ => false end.
(* 378-388 *)
Definition patch_at (p : point) (l : Z) (f : fig) : bool :=
  match f with
  | FPatch o l' off => (l' =? l) && box_contains_pt off (mkPt 0 0) true && pt_eq o p
  | _ => false
  end.
(* 392-407: the two horizontal wires [w0] (first found) and [w1] become one *)
Definition join_h (w0 w1 : wire) : wire :=
  mkW (wl w0) (mkPt (Z.min (px (wb w0)) (px (wb w1))) (py (wb w0)))
              (mkPt (Z.max (px (we w0)) (px (we w1))) (py (we w0)))
    (if px (wb w0) <? px (wb w1) then set_end (ws w0) (eSty (ws w1)) (eExt (ws w1))
     else set_begin (ws w0) (bSty (ws w1)) (bExt (ws w1))).
(* 417-433 *)
Definition join_v (w0 w1 : wire) : wire :=
  mkW (wl w0) (mkPt (px (wb w0)) (Z.min (py (wb w0)) (py (wb w1))))
              (mkPt (px (we w0)) (Z.max (py (we w0)) (py (we w1))))
    (if py (wb w0) <? py (wb w1) then set_end (ws w0) (eSty (ws w1)) (eExt (ws w1))
     else set_begin (ws w0) (bSty (ws w1)) (bExt (ws w1))).
(* 319-440 one boundary point *)
Definition merge_pt (n : Z) (figs : list fig) (pl : point * Z) : list fig :=
  let '(p, l) := pl in
  if skip_pt n p l then figs
  else
    let here := filter (ends_at p l) figs in
    let rest := filter (fun f => negb (ends_at p l f)) figs in
    let horz := filter (fun f => negb (is_vert f)) here in
    let vert := filter is_vert here in
    if existsb (patch_at p l) figs then figs
    else match horz, vert with
         | [FSeg w0; FSeg w1], [] => rest ++ [FSeg (if swap p l then join_h w1 w0 else join_h w0 w1)]
         | [], [FSeg w0; FSeg w1] => rest ++ [FSeg (if swap p l then join_v w1 w0 else join_v w0 w1)]
         | _, _ => figs
         end.
Definition merge_net (n : Z) (figs : list fig) (pts : list (point * Z)) : list fig :=
  fold_left (merge_pt n) pts figs.

(* ---- the whole write-back *)
(* the design's routing: net and figure *)
Definition db := list (Z * fig).
(* drNet: getFrNet, isModified, getBestRouteConnFigs *)
Record subnet := mkSub { sn_net : Z; sn_mod : bool; sn_best : list fig }.
(* queryDRObj(getRouteBox()): whether the query returns the figure *)
Variable found : fig -> bool.

(* 33-46 endGetModNets *)
Definition mod_net (subs : list subnet) (n : Z) : bool := existsb (fun s => sn_mod s && (sn_net s =? n)) subs.
(* set<pair<frPoint, frLayerNum>>::insert *)
Definition bp_lt (a c : point * Z) : bool :=
  if pt_eq (fst a) (fst c) then snd a <? snd c else pt_lt (fst a) (fst c).
Fixpoint bp_ins (a : point * Z) (s : list (point * Z)) {struct s} : list (point * Z) :=
  match s with
  | [] => [a]
  | c :: r => if bp_lt a c then a :: s else if bp_lt c a then c :: bp_ins a r else s
  end.
(* 243-284 endRemoveNets *)
Definition removed_from (subs : list subnet) (d : db) : db :=
  flat_map (fun x => if found (snd x) && mod_net subs (fst x)
                     then map (fun f => (fst x, f)) (fst (remove_fig (snd x))) else [x]) d.
Definition bound_pts (subs : list subnet) (d : db) (n : Z) : list (point * Z) :=
  fold_left (fun s a => bp_ins a s)
    (flat_map (fun x => if found (snd x) && mod_net subs (fst x) && (fst x =? n)
                        then snd (remove_fig (snd x)) else []) d) [].
(* 443-471: the best routes of every modified sub-net (endGetModNets marks all sub-nets of such a net) *)
Definition added (subs : list subnet) : db :=
  flat_map (fun s => if mod_net subs (sn_net s) then map (fun f => (sn_net s, f)) (sn_best s) else []) subs.
Definition figs_of (n : Z) (d : db) : list fig := map snd (filter (fun x => fst x =? n) d).
(* the merge at all boundary points of one net *)
Definition merge_db (pts : Z -> list (point * Z)) (d : db) (n : Z) : db :=
  filter (fun x => negb (fst x =? n)) d ++ map (fun f => (n, f)) (merge_net n (figs_of n d) (pts n)).
(* 472-474: [nets] are the keys of boundPts *)
Definition write_back (subs : list subnet) (d : db) : db :=
  fold_left (merge_db (bound_pts subs d)) (nodup Z.eq_dec (map sn_net (filter sn_mod subs)))
    (removed_from subs d ++ added subs).
End Clip.

(* ---- which result is written *)
(* The search inside a clip.  [St] is the state of the clip's routing, [markers] the number of violation
   markers the checker reports for it, [quick] getNumQuickMarkers. *)
Section Best.
Variable St : Type.
Variable markers quick : St -> Z.
Variable enableDRC : bool.
Variable bloat : Z.                               (* workerMarkerBloatWidth *)
(* src/dr/FlexDR_maze.cpp:2315-2468 route(): [step i] is one rip-up round (mazeIterInit, which always
   returns true, the routing of the nets and route_drc); the result is what setBestRouteConnFigs and
   setBestMarkers recorded last *)
Variable step : nat -> St -> St.
Fixpoint route_rounds (n i : nat) (cur : St) (best : option St) {struct n} : option St :=
  match n with
  | O => best
  | S n =>
    let cur := step i cur in
    let save := match i, best with
                | O, _ => true
                | _, Some s => enableDRC && ((markers cur <? markers s) || (bloat >? 0))
                | _, None => enableDRC && ((markers cur <? 0) || (bloat >? 0))
                end in
    let best := if save then Some cur else best in
    if (if enableDRC then markers cur =? 0 else quick cur =? 0) then best
    else route_rounds n (S i) cur best
  end.
(* 2257-2264 and the loop *)
Definition route (mazeEndIter : nat) (ripupMode initNumMarkers : Z) (s : St) : option St :=
  if enableDRC && (ripupMode =? 0) && (initNumMarkers =? 0) then None
  else route_rounds mazeEndIter 0 s None.
End Best.
(* src/dr/FlexDR_init.cpp:3992-4009 initMarkers: [real] markers found in the DRC box, [recheck] ones *)
Definition init_num_markers (drIter real : Z) : Z :=
  if drIter <=? 1 then (if real =? 0 then 1 else real) else real.
(* 4019-4021 init: skipRouting *)
Definition skip_routing (enableDRC : bool) (drIter initNum : Z) (needRecheck : bool) : bool :=
  enableDRC && negb (drIter =? 0) && (initNum =? 0) && negb needRecheck.
(* src/dr/FlexDR_end.cpp:519-533 end(): whether the clip is written back *)
Definition writes (skip enableDRC : bool) (drIter ripupMode initNum bestNum : Z) (needRecheck : bool) : bool :=
  if skip then false
  else if enableDRC && negb (drIter =? 0) && (initNum =? 0) && negb needRecheck then false
  else if enableDRC && (ripupMode =? 0) && (bestNum >? initNum) then false
  else if enableDRC && negb (drIter =? 0) && (ripupMode =? 1) && (bestNum >? 5 * initNum) then false
  else true.
(* the outcome of one clip: [real] markers before, [recheck] whether one of them asks for a recheck,
   [best] the markers of the routing kept by the worker *)
Definition clip_written (enableDRC : bool) (drIter ripupMode real : Z) (recheck : bool) (best : Z) : bool :=
  let i := init_num_markers drIter real in
  writes (skip_routing enableDRC drIter i recheck) enableDRC drIter ripupMode i best recheck.
(* src/dr/FlexDR.cpp:1935-2001: the rip-up modes of the passes of FlexDR::main, numbered from 0; all of
   them have the checker enabled *)
Definition main_ripup : list Z :=
  [1; 1; 1] ++ repeat 0 14 ++ [1] ++ repeat 0 7 ++ [1] ++ repeat 0 7 ++ [1] ++ repeat 0 7 ++ [1] ++
  repeat 0 7 ++ [1] ++ repeat 0 7 ++ [1] ++ repeat 0 7.
(* src/dr/FlexDR_maze.cpp:2029-2103 route_queue (used by every pass of main): the last routing is kept *)
Definition route_queue_best {St} (states : list St) : option St :=
  match rev states with [] => None | s :: _ => Some s end.
