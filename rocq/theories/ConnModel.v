(* FlexDR::checkConnectivity and its helpers (src/dr/FlexDR_conn.cpp).
   A net is the list of its routing objects (path segments first, then vias: initDRObjs, 139-179).
   The region query is a parameter [pins_at]: the ids of the net's own terms and instance terms whose
   shapes contain a point on a layer (the filter on getNet(), 46-70, is part of it).
   std::map and std::set are lists in ascending key order where the order has an effect (pin numbers) and
   in insertion order otherwise.  Not modelled: markers, messages, region-query updates, the batching of
   nets, the deletion of patch wires (762-790). *)
From Verif Require Import Base GeomModel MazeModel TreeModel.

(* pair<frPoint, frLayerNum> *)
Definition loc := (point * Z)%type.
Definition loc_eqb (a b : loc) : bool := pt_eq (fst a) (fst b) && (snd a =? snd b).
(* frPathSeg: begin, end, layer, begin / end style is frcTruncateEndStyle; frVia: origin, the two layers *)
Inductive robj :=
| RSeg (bp ep : point) (l : Z) (tb te : bool)
| RVia (o : point) (l1 l2 : Z).

(* ---- map<frBlockObject*, set<pair<frPoint, frLayerNum>>, frBlockObjectComp>, ascending id *)
Definition p2e := list (Z * list loc).
Definition loc_ins (k : loc) (s : list loc) : list loc := if existsb (loc_eqb k) s then s else s ++ [k].
Fixpoint p2e_ins (id : Z) (k : loc) (m : p2e) {struct m} : p2e :=
  match m with
  | [] => [(id, [k])]
  | (i, s) :: r => if id <? i then (id, [k]) :: m else if id =? i then (i, loc_ins k s) :: r else (i, s) :: p2e_ins id k r
  end.
Section Pins.
Variable pins_at : point -> Z -> list Z.
(* 36-72 checkConnectivity_pin2epMap_helper *)
Definition pin2epMap_helper (p : point) (l : Z) (m : p2e) : p2e :=
  fold_left (fun m id => p2e_ins id (p, l) m) (pins_at p l) m.
(* 81-112 the loop over path segments; the second component is extEndPoints *)
Definition pin2ep_seg (st : p2e * list loc) (o : robj) : p2e * list loc :=
  match o with
  | RSeg bp ep l tb te =>
    let '(m, ext) := st in
    let '(m, ext) := if tb then (pin2epMap_helper bp l m, ext) else (m, loc_ins (bp, l) ext) in
    if te then (pin2epMap_helper ep l m, ext) else (m, loc_ins (ep, l) ext)
  | RVia _ _ _ => st
  end.
(* 113-136 the loop over vias *)
Definition pin2ep_via (ext : list loc) (m : p2e) (o : robj) : p2e :=
  match o with
  | RSeg _ _ _ _ _ => m
  | RVia o l1 l2 =>
    let m := if existsb (loc_eqb (o, l1)) ext then m else pin2epMap_helper o l1 m in
    if existsb (loc_eqb (o, l2)) ext then m else pin2epMap_helper o l2 m
  end.
Definition pin2epMap (objs : list robj) : p2e :=
  let '(m, ext) := fold_left pin2ep_seg objs ([], []) in
  fold_left (pin2ep_via ext) objs m.
End Pins.

(* ---- map<pair<frPoint, frLayerNum>, set<int>> *)
Definition nmap := list (loc * list nat).
Fixpoint nset_ins (i : nat) (s : list nat) {struct s} : list nat :=
  match s with
  | [] => [i]
  | j :: r => if (i <? j)%nat then i :: s else if (i =? j)%nat then s else j :: nset_ins i r
  end.
Fixpoint nm_ins (k : loc) (i : nat) (m : nmap) {struct m} : nmap :=
  match m with
  | [] => [(k, [i])]
  | (k', s) :: r => if loc_eqb k k' then (k', nset_ins i s) :: r else (k', s) :: nm_ins k i r
  end.
Definition numbered {A} (l : list A) : list (nat * A) := combine (seq 0 (length l)) l.

(* 181-216 checkConnectivity_nodeMap_routeObjEnd *)
Definition nm_end (m : nmap) (x : nat * robj) : nmap :=
  match snd x with
  | RSeg bp ep l _ _ => nm_ins (ep, l) (fst x) (nm_ins (bp, l) (fst x) m)
  | RVia o l1 l2 => nm_ins (o, l2) (fst x) (nm_ins (o, l1) (fst x) m)
  end.
Definition routeObjEnd (objs : list robj) (m : nmap) : nmap := fold_left nm_end (numbered objs) m.

(* vector<map<frCoord, map<frCoord, pair<frCoord, int>>>>: (layer, track, end) -> (begin, index) *)
Definition mhelp := list ((Z * Z * Z) * (Z * nat)).
Definition mh_key (a b : Z * Z * Z) : bool :=
  match a, b with (a1, a2, a3), (b1, b2, b3) => (a1 =? b1) && (a2 =? b2) && (a3 =? b3) end.
(* helper[l][t][e] = v *)
Fixpoint mh_set (k : Z * Z * Z) (v : Z * nat) (m : mhelp) {struct m} : mhelp :=
  match m with
  | [] => [(k, v)]
  | (k', v') :: r => if mh_key k k' then (k, v) :: r else (k', v') :: mh_set k v r
  end.
(* mp.lower_bound(c) on helper[l][t]: the entry with the least end >= c *)
Fixpoint mh_lower (l t c : Z) (m : mhelp) {struct m} : option (Z * (Z * nat)) :=
  match m with
  | [] => None
  | ((l', t', e'), v) :: r =>
    let rest := mh_lower l t c r in
    if (l' =? l) && (t' =? t) && (c <=? e')
    then match rest with Some (e, w) => if e <? e' then rest else Some (e', v) | None => Some (e', v) end
    else rest
  end.
(* 218-234 checkConnectivity_nodeMap_routeObjSplit_helper *)
Definition split_helper (crossPt : point) (track split l : Z) (h : mhelp) (m : nmap) : nmap :=
  match mh_lower l track split h with
  | None => m
  | Some (endP, (beginP, i)) => if (split <? endP) && (beginP <? split) then nm_ins (crossPt, l) i m else m
  end.
(* 240-261: the two helper maps *)
Definition mh_fill (st : mhelp * mhelp) (x : nat * robj) : mhelp * mhelp :=
  let '(hz, vt) := st in
  match snd x with
  | RSeg bp ep l _ _ =>
    if px bp =? px ep then (hz, mh_set (l, px bp, py ep) (py bp, fst x) vt)
    else (mh_set (l, py bp, px ep) (px bp, fst x) hz, vt)
  | RVia _ _ _ => st
  end.
(* 262-317: end points of every object looked up in the segments of the other direction, vias in both *)
Definition nm_split (hz vt : mhelp) (m : nmap) (o : robj) : nmap :=
  match o with
  | RSeg bp ep l _ _ =>
    if px bp =? px ep
    then split_helper ep (py ep) (px ep) l hz (split_helper bp (py bp) (px bp) l hz m)
    else split_helper ep (px ep) (py ep) l vt (split_helper bp (px bp) (py bp) l vt m)
  | RVia p l1 l2 =>
    let m := split_helper p (px p) (py p) l1 vt (split_helper p (py p) (px p) l1 hz m) in
    split_helper p (px p) (py p) l2 vt (split_helper p (py p) (px p) l2 hz m)
  end.
Definition routeObjSplit (objs : list robj) (m : nmap) : nmap :=
  let '(hz, vt) := fold_left mh_fill (numbered objs) ([], []) in
  fold_left (nm_split hz vt) objs m.
(* 320-337 checkConnectivity_nodeMap_pin; [n] is currCnt *)
Fixpoint nm_pins (n : nat) (pins : p2e) (m : nmap) {struct pins} : nmap :=
  match pins with
  | [] => m
  | (_, s) :: r => nm_pins (S n) r (fold_left (fun m k => nm_ins k n m) s m)
  end.
(* 339-347 checkConnectivity_nodeMap *)
Definition nodeMap (objs : list robj) (pins : p2e) : nmap :=
  nm_pins (length objs) pins (routeObjSplit objs (routeObjEnd objs [])).

(* 401-417: adjVec, the pairs idx1 < idx2 of every set *)
Fixpoint pairs (s : list nat) {struct s} : list (nat * nat) :=
  match s with [] => [] | i :: r => map (fun j => (i, j)) r ++ pairs r end.
Definition adjVec (m : nmap) (i : nat) : list nat :=
  flat_map (fun '(x, y) => (if Nat.eqb x i then [y] else []) ++ (if Nat.eqb y i then [x] else []))
    (flat_map (fun e => pairs (snd e)) m).

(* 388-515 checkConnectivity_astar: result, adjVisited; 449-455 on-path pins start with cost 5 *)
Definition conn_astar (pick : nat -> list wf -> nat) (fuel : nat) (m : nmap) (gCnt nCnt : nat)
    : option (bool * (nat -> bool)) :=
  match tree_search (adjVec m) gCnt nCnt (fun i => if (gCnt <=? i)%nat then 5 else 0) pick fuel with
  | None => None
  | Some (vis, _) => Some (all_pins gCnt nCnt vis, vis)
  end.

(* ---- merging of overlapping segments *)
(* pair<pair<frCoord, frCoord>, int>, compared lexicographically by std::sort (911) *)
Definition span := (Z * Z * nat)%type.
Definition span_lt (a b : span) : bool :=
  let '(b1, e1, i1) := a in let '(b2, e2, i2) := b in
  if b1 =? b2 then if e1 =? e2 then (i1 <? i2)%nat else e1 <? e2 else b1 <? b2.
Fixpoint span_ins (a : span) (l : list span) {struct l} : list span :=
  match l with [] => [a] | b :: r => if span_lt b a then b :: span_ins a r else a :: l end.
Definition span_sort (l : list span) : list span := fold_right span_ins [] l.

(* 919-967 checkConnectivity_merge_perform_helper.
   State: ovlpCnt, currStart, currEnd, localVictims, victims, newSegSpans.
   currEnd starts as INT_MIN (None here: every start is >= it) *)
Record mstate := mkM { mo : Z; mst : Z; men : option Z; mloc : list nat; mvic : list nat; mnew : list (Z * Z) }.
Definition merge_step (st : mstate) (s : span) : mstate :=
  let '(b, e, i) := s in
  match men st with
  | Some en =>
    if en <=? b
    then let o := mo st + 1 in
         if 2 <=? o
         then mkM 0 b (Some e) [i] (mvic st ++ mloc st) (mnew st ++ [(mst st, en)])
         else mkM 0 b (Some e) [i] (mvic st) (mnew st)
    else mkM (mo st + 1) (mst st) (Some (Z.max en e)) (mloc st ++ [i]) (mvic st) (mnew st)
  | None => mkM 0 b (Some e) [i] (mvic st) (mnew st)
  end.
Definition merge_helper (spans : list span) : list nat * list (Z * Z) :=
  let st := fold_left merge_step spans (mkM 0 (2 ^ 31 - 1) None [] [] []) in
  if 1 <=? mo st
  then (mvic st ++ mloc st, mnew st ++ [(mst st, match men st with Some e => e | None => - 2 ^ 31 end)])
  else (mvic st, mnew st).

(* 794-828 merge1: the track of a segment: direction (true: vertical), layer, coordinate *)
Definition track := (bool * Z * Z)%type.
Definition track_eqb (a b : track) : bool :=
  match a, b with (a1, a2, a3), (b1, b2, b3) => Bool.eqb a1 b1 && (a2 =? b2) && (a3 =? b3) end.
Definition track_of (o : robj) : option track :=
  match o with
  | RSeg bp ep l _ _ => if px bp =? px ep then Some (true, l, px bp) else if py bp =? py ep then Some (false, l, py bp) else None
  | RVia _ _ _ => None
  end.
Definition on_track (t : track) (o : robj) : bool :=
  match track_of o with Some t' => track_eqb t t' | None => false end.
(* 895-910 merge_perform: the span of a segment along its track *)
Definition span_of (o : robj) : Z * Z :=
  match o with
  | RSeg bp ep _ _ _ => if px bp =? px ep then (py bp, py ep) else (px bp, px ep)
  | RVia _ _ _ => (0, 0)
  end.
(* netRouteObjs[i] after removals is a null pointer: None *)
Definition obj_spans (t : track) (objs : list (option robj)) : list span :=
  flat_map (fun '(i, o) => match o with
     | Some o => if on_track t o then [(fst (span_of o), snd (span_of o), i)] else []
     | None => [] end) (numbered objs).
Definition merge_perform (t : track) (objs : list (option robj)) : list nat * list (Z * Z) :=
  merge_helper (span_sort (obj_spans t objs)).
(* 969-1012 merge_commit: the first victims take over the merged spans, the rest is removed *)
Definition set_span (t : track) (s : Z * Z) (o : option robj) : option robj :=
  match o, t with
  | Some (RSeg _ _ l tb te), (true, _, c) => Some (RSeg (mkPt c (fst s)) (mkPt c (snd s)) l tb te)
  | Some (RSeg _ _ l tb te), (false, _, c) => Some (RSeg (mkPt (fst s) c) (mkPt (snd s) c) l tb te)
  | _, _ => o
  end.
Fixpoint set_nth {A} (i : nat) (v : A) (l : list A) {struct l} : list A :=
  match l with [] => [] | a :: r => match i with O => v :: r | S i => a :: set_nth i v r end end.
Fixpoint merge_commit (t : track) (victims : list nat) (spans : list (Z * Z)) (objs : list (option robj)) {struct victims} : list (option robj) :=
  match victims, spans with
  | [], _ => objs
  | v :: vs, s :: ss => merge_commit t vs ss (set_nth v (set_span t s (nth v objs None)) objs)
  | v :: vs, [] => merge_commit t vs [] (set_nth v None objs)
  end.
(* 830-893 merge2 and merge3 on one net: the victims of all tracks are computed first and committed
   afterwards.  Tracks in order of first occurrence instead of layer and coordinate. *)
Fixpoint tracks_of (objs : list robj) (seen : list track) {struct objs} : list track :=
  match objs with
  | [] => seen
  | o :: r => match track_of o with
              | Some t => tracks_of r (if existsb (track_eqb t) seen then seen else seen ++ [t])
              | None => tracks_of r seen
              end
  end.
Definition merge_plan (objs : list (option robj)) (ts : list track) : list (track * (list nat * list (Z * Z))) :=
  map (fun t => (t, merge_perform t objs)) ts.
Definition commit_one (objs : list (option robj)) (x : track * (list nat * list (Z * Z))) : list (option robj) :=
  merge_commit (fst x) (fst (snd x)) (snd (snd x)) objs.
Fixpoint live (objs : list (option robj)) {struct objs} : list robj :=
  match objs with [] => [] | Some o :: r => o :: live r | None :: r => live r end.
Definition merge_net (objs : list robj) : list robj :=
  live (fold_left commit_one (merge_plan (map Some objs) (tracks_of objs [])) (map Some objs)).

(* 1060-1155 for one net: merge, collect pins, node map, search *)
Record conn_result := mkCR { cr_objs : list robj; cr_pins : p2e; cr_ok : bool; cr_kept : nat -> bool }.
Definition checkConnectivity (pins_at : point -> Z -> list Z) (pick : nat -> list wf -> nat) (fuel : nat)
    (net : list robj) : option conn_result :=
  let objs := merge_net net in
  let pins := pin2epMap pins_at objs in
  let gCnt := length objs in
  match conn_astar pick fuel (nodeMap objs pins) gCnt (gCnt + length pins) with
  | None => None
  | Some (ok, kept) => Some (mkCR objs pins ok kept)
  end.

(* ---- 525-735 checkConnectivity_final: clean-up of a net that passed *)
(* 539-547: nodeMap without the objects that are deleted *)
Definition nm_erase (kept : nat -> bool) (m : nmap) : nmap := map (fun e => (fst e, filter kept (snd e))) m.
(* 585-594: reverseNodeMap, rebuilt from the locations shared by several items (a set; insertion order here) *)
Definition rev_at (m : nmap) (i : nat) : list loc :=
  flat_map (fun e => if Nat.eqb (length (snd e)) 1 then [] else if existsb (Nat.eqb i) (snd e) then [fst e] else []) m.
(* 612-630: the object ends at the location, or is a via *)
Definition ends_at (objs : list robj) (k : loc) (i : nat) : bool :=
  match nth_error objs i with
  | Some (RSeg bp ep _ _ _) => pt_eq bp (fst k) || pt_eq ep (fst k)
  | _ => true
  end.
(* 598-640: a location with a pin where no object ends: the wire with the largest index is split there *)
Definition split_of (objs : list robj) (e : loc * list nat) : list (loc * nat) :=
  let gCnt := length objs in
  let ws := filter (fun i => (i <? gCnt)%nat) (snd e) in
  if existsb (fun i => (gCnt <=? i)%nat) (snd e) && negb (existsb (ends_at objs (fst e)) ws)
  then match rev ws with i :: _ => [(fst e, i)] | [] => [] end
  else [].
(* pair<frPoint, frLayerNum>::operator< *)
Definition pt_lt (a b : point) : bool := if px a =? px b then py a <? py b else px a <? px b.
Definition loc_lt (a b : loc) : bool := if pt_eq (fst a) (fst b) then snd a <? snd b else pt_lt (fst a) (fst b).
(* psSplits (596), visited from the right (643) *)
Fixpoint split_ins (x : loc * nat) (l : list (loc * nat)) {struct l} : list (loc * nat) :=
  match l with [] => [x] | y :: r => if loc_lt (fst x) (fst y) then y :: split_ins x r else x :: l end.
Definition psSplits (objs : list robj) (m : nmap) : list (loc * nat) := fold_right split_ins [] (flat_map (split_of objs) m).
(* an object with its set in reverseNodeMap; None: deleted *)
Definition fobj := option (robj * list loc).
(* 642-694: one split.  The new piece is appended; the C++ numbers it from nCnt on *)
Definition split_one (fs : list fobj) (x : loc * nat) : list fobj :=
  let p := fst (fst x) in
  match nth (snd x) fs None with
  | Some (RSeg bp ep l tb te, pts) =>
    let isHorz := py bp =? py ep in
    let le k := if isHorz then px (fst k) <=? px p else py (fst k) <=? py p in
    let ge k := if isHorz then px p <=? px (fst k) else py p <=? py (fst k) in
    set_nth (snd x) (Some (RSeg bp p l tb true, filter le pts)) fs ++ [Some (RSeg p ep l true te, filter ge pts)]
  | _ => fs
  end.
(* minmax_element (713) *)
Definition pt_min (l : list loc) (d : point) : point := fold_right (fun k a => if pt_lt (fst k) a then fst k else a) d l.
Definition pt_max (l : list loc) (d : point) : point := fold_right (fun k a => if pt_lt a (fst k) then fst k else a) d l.
(* 696-732: shrink to the shared locations *)
Definition shrink (f : fobj) : option robj :=
  match f with
  | Some (RSeg bp ep l tb te, k :: r) =>
    let mn := pt_min r (fst k) in let mx := pt_max r (fst k) in
    if pt_lt bp mn || pt_lt mx ep then Some (RSeg mn mx l tb te) else Some (RSeg bp ep l tb te)
  | Some (o, _) => Some o
  | None => None
  end.
Definition conn_final (objs : list robj) (pins : p2e) (kept : nat -> bool) : list robj :=
  let m := nm_erase kept (nodeMap objs pins) in
  let fs := map (fun x => if kept (fst x) then Some (snd x, rev_at m (fst x)) else None) (numbered objs) in
  live (map shrink (fold_left split_one (psSplits objs m) fs)).
