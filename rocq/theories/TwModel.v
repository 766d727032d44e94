(* Wires and vias of a net as written to the DEF after track assignment: merging of wires on a track, splitting at
   vias and at crossings (src/io/io.cpp:5010-5025 fillConnFigs_net, 5056-5086 splitVia_helper, 5089-5313
   mergeSplitConnFigs).  Layers are within the technology (mergedPathSegs.at does not throw). *)
From Verif Require Import Base GeomModel ClipModel.

(* std::map and std::set as lists of distinct keys in ascending order; [ltb] is operator< of the key *)
Section Keys.
Context {A : Type}.
Variable ltb : A -> A -> bool.
Fixpoint kins (a : A) (l : list A) : list A :=
  match l with
  | [] => [a]
  | c :: r => if ltb a c then a :: l else if ltb c a then c :: kins a r else l
  end.
Definition kset (l : list A) : list A := fold_left (fun s a => kins a s) l [].
End Keys.

Section Tw.
Variable lw : Z -> Z.          (* frLayer::getWidth; getDefaultSegStyle: extended ends of half the width *)
Variable vcut : Z -> Z.        (* frViaDef::getCutLayerNum *)

(* 5113-5119: direction, track, begin and end along the track *)
Definition is_h (w : wire) : bool := negb (px (wb w) =? px (we w)).
Definition w_track (w : wire) : Z := if is_h w then py (wb w) else px (wb w).
Definition w_lo (w : wire) : Z := if is_h w then px (wb w) else py (wb w).
Definition w_hi (w : wire) : Z := if is_h w then px (we w) else py (we w).
(* the key of pathSegMergeMap: layer, direction, track *)
Definition tkey : Type := (Z * bool * Z)%type.
Definition w_key (w : wire) : tkey := (wl w, is_h w, w_track w).
Definition key_eqb (a c : tkey) : bool :=
  let '(l1, h1, t1) := a in let '(l2, h2, t2) := c in (l1 =? l2) && Bool.eqb h1 h2 && (t1 =? t2).
Definition key_ltb (a c : tkey) : bool :=
  let '(l1, h1, t1) := a in let '(l2, h2, t2) := c in
  (l1 <? l2) || ((l1 =? l2) && ((negb h1 && h2) || (Bool.eqb h1 h2 && (t1 <? t2)))).
(* 5109-5112: wires of length 0 are left out *)
Definition has_length (w : wire) : bool := negb ((px (wb w) =? px (we w)) && (py (wb w) =? py (we w))).
Definition wires_of (figs : list fig) : list wire := flat_map (fun f => match f with FSeg w => [w] | _ => [] end) figs.
Definition long_wires (figs : list fig) : list wire := filter has_length (wires_of figs).

(* 5117-5118: what the inner map has at a coordinate, in the order of insertion; true: a begin *)
Definition events (ws0 : list wire) (c : Z) : list (wire * bool) :=
  flat_map (fun w => (if w_lo w =? c then [(w, true)] else []) ++ (if w_hi w =? c then [(w, false)] else [])) ws0.
(* 5141-5144: newPathSeg (none when hasSeg is false), cnt and the wires made so far *)
Record mstate := mkMS { m_cur : option wire; m_cnt : Z; m_out : list wire }.
Definition max_begin (s : sstyle) (e : wire * bool) : sstyle :=
  let '(w, isb) := e in if isb && (bExt (ws w) >? bExt s) then set_begin s (bSty (ws w)) (bExt (ws w)) else s.
Definition max_end (s : sstyle) (e : wire * bool) : sstyle :=
  let '(w, isb) := e in if negb isb && (eExt (ws w) >? eExt s) then set_end s (eSty (ws w)) (eExt (ws w)) else s.
Definition last_end (p : point) (e : wire * bool) : point := let '(w, isb) := e in if isb then p else we w.
(* 5147-5196.  The width in [style] stays 0 *)
Definition merge_step (ws0 : list wire) (st : mstate) (c : Z) : mstate :=
  let evs := events ws0 c in
  let cnt := fold_left (fun n e => if snd e : bool then n + 1 else n - 1) evs (m_cnt st) in
  match m_cur st, evs with
  | None, (w0, _) :: _ =>
      if cnt >? 0
      then mkMS (Some (mkW (wl w0) (wb w0) (we w0) (fold_left max_begin evs (mkSt StTruncate 0 StTruncate 0 0)))) cnt (m_out st)
      else mkMS None cnt (m_out st)
  | None, [] => mkMS None cnt (m_out st)
  | Some w, _ =>
      if cnt =? 0
      then mkMS None cnt (m_out st ++ [mkW (wl w) (wb w) (fold_left last_end evs (we w)) (fold_left max_end evs (ws w))])
      else mkMS (Some w) cnt (m_out st)
  end.
Definition merge_track (ws0 : list wire) : list wire :=
  m_out (fold_left (merge_step ws0) (kset Z.ltb (flat_map (fun w => [w_lo w; w_hi w]) ws0)) (mkMS None 0 [])).
(* 5137-5198: mergedPathSegs; the tracks without a merged wire have an empty list *)
Definition tracks : Type := list (tkey * list wire).
Definition on_key (k : tkey) (l : list wire) : list wire := filter (fun w => key_eqb (w_key w) k) l.
Definition merged (figs : list fig) : tracks :=
  let l := long_wires figs in map (fun k => (k, merge_track (on_key k l))) (kset key_ltb (map w_key l)).

(* 5062-5085 splitVia_helper on the wires of one track: the first wire that satisfies the test is split *)
Definition default_ext (l : Z) : Z := Z.quot (lw l) 2.
Fixpoint split_at (isH : bool) (x y : Z) (l : list wire) : list wire * list wire :=
  match l with
  | [] => ([], [])
  | w :: r =>
      if (negb isH && (px (wb w) <? x) && (px (we w) >? x)) || (isH && (py (wb w) <? y) && (py (we w) >? y))
      then (mkW (wl w) (wb w) (mkPt x y) (set_end (ws w) StExtend (default_ext (wl w))) :: r,
            [mkW (wl w) (mkPt x y) (we w) (set_begin (ws w) StExtend (default_ext (wl w)))])
      else let '(a, n) := split_at isH x y r in (w :: a, n)
  end.
Definition splitVia_helper (l : Z) (isH : bool) (track x y : Z) (m : tracks) : tracks :=
  map (fun kt => if key_eqb (fst kt) (l, isH, track) then (fst kt, let '(a, n) := split_at isH x y (snd kt) in a ++ n) else kt) m.
(* 5120-5127 viaMergeMap: one via for each place and cut layer, the last one; in the order x, y, cut layer *)
Definition vkey : Type := (Z * Z * Z)%type.
Definition via_key (f : fig) : list vkey := match f with FVia o _ _ d => [(px o, py o, vcut d)] | _ => [] end.
Definition vkey_eqb (a c : vkey) : bool := let '(x1, y1, z1) := a in let '(x2, y2, z2) := c in (x1 =? x2) && (y1 =? y2) && (z1 =? z2).
Definition vkey_ltb (a c : vkey) : bool :=
  let '(x1, y1, z1) := a in let '(x2, y2, z2) := c in
  (x1 <? x2) || ((x1 =? x2) && ((y1 <? y2) || ((y1 =? y2) && (z1 <? z2)))).
Definition via_keys (figs : list fig) : list vkey := kset vkey_ltb (flat_map via_key figs).
Definition via_at (figs : list fig) (k : vkey) : option fig :=
  fold_left (fun r f => match via_key f with [k'] => if vkey_eqb k' k then Some f else r | _ => r end) figs None.
(* 5203-5228: isH is 0 at the third call too *)
Definition split_via (m : tracks) (k : vkey) : tracks :=
  let '(x, y, cut) := k in
  let m := splitVia_helper (cut - 1) true y x y m in
  let m := splitVia_helper (cut - 1) false x x y m in
  let m := splitVia_helper (cut + 1) false x x y m in
  splitVia_helper (cut + 1) false x x y m.

(* 5244-5290: a vertical wire and a horizontal wire; the new wires, if any *)
Definition cross_pair (a c : wire) : option (wire * list wire * (wire * list wire)) :=
  let sa := (py (wb c) >? py (wb a)) && (py (wb c) <? py (we a)) in
  let sc := (px (wb a) >? px (wb c)) && (px (wb a) <? px (we c)) in
  let cut w p q :=
    (mkW (wl w) (wb w) p (set_end (ws w) StExtend (default_ext (wl w))),
     [mkW (wl w) q (we w) (set_begin (ws w) StExtend (default_ext (wl w)))]) in
  if sa || sc
  then Some (if sa then cut a (mkPt (px (we a)) (py (we c))) (mkPt (px (we a)) (py (wb c))) else (a, []),
             if sc then cut c (mkPt (px (we a)) (py (we c))) (mkPt (px (we a)) (py (wb c))) else (c, []))
  else None.
(* 5241-5301: the wires of one horizontal track against one vertical wire *)
Fixpoint cross_one (a : wire) (l : list wire) : option (wire * list wire * (list wire * list wire)) :=
  match l with
  | [] => None
  | c :: r =>
      match cross_pair a c with
      | Some (a', na, (c', nc)) => Some (a', na, (c' :: r, nc))
      | None => match cross_one a r with Some (a', na, (r', nc)) => Some (a', na, (c :: r', nc)) | None => None end
      end
  end.
(* 5236-5304: a vertical track against a horizontal track, at most one split *)
Fixpoint cross (vs hs : list wire) : option (list wire * list wire * list wire) :=
  match vs with
  | [] => None
  | a :: r =>
      match cross_one a hs with
      | Some (a', na, (h', nc)) => Some (a' :: r, na, h' ++ nc)
      | None => match cross r hs with Some (r', na, h') => Some (a :: r', na, h') | None => None end
      end
  end.
Definition tk_get (m : tracks) (k : tkey) : list wire := flat_map (fun kt => if key_eqb (fst kt) k then snd kt else []) m.
Definition tk_set (k : tkey) (v : list wire) (m : tracks) : tracks := map (fun kt => if key_eqb (fst kt) k then (fst kt, v) else kt) m.
Definition cross_tracks (m : tracks) (vh : tkey * tkey) : tracks :=
  match cross (tk_get m (fst vh)) (tk_get m (snd vh)) with
  | Some (a, na, h) => tk_set (snd vh) h (tk_set (fst vh) (a ++ na) m)
  | None => m
  end.
(* 5231-5307: on each layer all vertical tracks with all horizontal tracks, in ascending order *)
Definition pairs_of (ks : list tkey) : list (tkey * tkey) :=
  flat_map (fun v : tkey => flat_map (fun h : tkey =>
    let '(l1, h1, _) := v in let '(l2, h2, _) := h in if (l1 =? l2) && negb h1 && h2 then [(v, h)] else []) ks) ks.
Definition split_crossings (m : tracks) : tracks := fold_left cross_tracks (pairs_of (map fst m)) m.

(* 5089-5313 mergeSplitConnFigs *)
Definition merge_split (figs : list fig) : list fig :=
  let m := split_crossings (fold_left split_via (via_keys figs) (merged figs)) in
  map FSeg (flat_map snd m) ++ flat_map (fun k => match via_at figs k with Some f => [f] | None => [] end) (via_keys figs).
End Tw.
