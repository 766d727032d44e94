(* Routing guides of a net: src/io/io_guide.cpp.
   Guide rectangles are turned into per-layer, per-track intervals of gcells (genGuides_merge), split at
   crossings and pins (genGuides_split), searched for a tree connecting the pins (genGuides_astar) and
   written back, trimmed (genGuides_final).
   Simplified: vector indexed by layer number is a function of the layer with the number of layers;
   std::map<frCoord, interval_set> is a list in ascending key order; loops from lower_bound(begin) while
   first <= end are filters on that range; boost::icl::interval_set<frCoord> is the ascending list of its
   closed intervals (it joins intervals that overlap or touch, and inserts no empty interval).
   The gcell-to-pin map is the list, per pin in the order of pin2GCellMap, of the pin's gcells.
   Not modelled: messages, the special process node (addCoverGuide, gCell2AP*Map). *)
From Verif Require Import Base GeomModel GCellModel MazeModel TreeModel ConnModel.

Definition iset := list (Z * Z).
(* interval_set::insert of a non-empty closed interval *)
Fixpoint is_ins (lo hi : Z) (s : iset) {struct s} : iset :=
  match s with
  | [] => [(lo, hi)]
  | (a, c) :: r =>
    if hi + 1 <? a then (lo, hi) :: s
    else if c + 1 <? lo then (a, c) :: is_ins lo hi r
    else is_ins (Z.min lo a) (Z.max hi c) r
  end.
Definition is_add (lo hi : Z) (s : iset) : iset := if lo <=? hi then is_ins lo hi s else s.
(* boost::icl::contains(set, element) *)
Definition is_has (s : iset) (x : Z) : bool := existsb (fun i => (fst i <=? x) && (x <=? snd i)) s.
(* operator& *)
Definition is_inter (s t : iset) : iset :=
  flat_map (fun i => flat_map (fun j =>
    let lo := Z.max (fst i) (fst j) in let hi := Z.min (snd i) (snd j) in
    if lo <=? hi then [(lo, hi)] else []) t) s.

(* map<frCoord, interval_set>: m[t].insert(closed(lo, hi)) *)
Definition tmap := list (Z * iset).
Fixpoint tm_add (t lo hi : Z) (m : tmap) {struct m} : tmap :=
  match m with
  | [] => [(t, is_add lo hi [])]
  | (k, s) :: r => if t <? k then (t, is_add lo hi []) :: m
                   else if t =? k then (k, is_add lo hi s) :: r
                   else (k, s) :: tm_add t lo hi r
  end.
Definition intvs := Z -> tmap.
Definition iv_add (l t lo hi : Z) (v : intvs) : intvs := fun l' => if l' =? l then tm_add t lo hi (v l) else v l'.
(* for (i = a; i <= b; i++) *)
Definition zrange (a b : Z) : list Z := map (fun i => a + Z.of_nat i) (seq 0 (Z.to_nat (b - a + 1))).

Section Guide.
Variables xg yg : gpat.                  (* the gcell patterns *)
Variable nlay : Z.                       (* tech->getLayers().size() *)
Variable horz : Z -> bool.               (* getDir() == frcHorzPrefRoutingDir *)

(* ---- genGuides_merge (36-136) *)
(* 43-51 first and last gcell of a guide rectangle *)
Definition cell1 (b : box) : point := gcell_idx xg yg (ll b).
Definition cell2 (b : box) : point := gcell_idx xg yg (mkPt (bright b - 1) (btop b - 1)).
(* 55-70 *)
Definition push_rect (v : intvs) (r : Z * box) : intvs :=
  let '(l, b) := r in
  let x1 := px (cell1 b) in let y1 := py (cell1 b) in
  let x2 := px (cell2 b) in let y2 := py (cell2 b) in
  if horz l then fold_left (fun v i => iv_add l i x1 x2 v) (zrange y1 y2) v
  else fold_left (fun v i => iv_add l i y1 y2 v) (zrange x1 x2) v.
Definition push_rects (rects : list (Z * box)) : intvs := fold_left push_rect rects (fun _ => []).
(* 85-108 haveLU: a guide of a neighbour layer crosses both tracks t - 1 and t between b and e *)
Definition crossing (v : intvs) (l' t b e : Z) : bool :=
  existsb (fun x => (b <=? fst x) && (fst x <=? e) && is_has (snd x) t && is_has (snd x) (t - 1)) (v l').
Definition haveLU (v : intvs) (l t b e : Z) : bool :=
  ((0 <=? l - 2) && crossing v (l - 2) t b e) || ((l + 2 <? nlay) && crossing v (l + 2) t b e).
(* 82-121 one interval shared by tracks t - 1 and t: the touching guide (track, begin, end, layer) it needs;
   None models exit(1) *)
Definition touch_piece (v : intvs) (l t : Z) (i : Z * Z) : option (list (Z * Z * Z * Z)) :=
  let '(b, e) := i in
  if haveLU v l t b e then Some []
  else if l + 2 <? nlay then Some [(b, t - 1, t, l + 2)]
  else if 0 <=? l - 2 then Some [(b, t - 1, t, l - 2)]
  else None.
Fixpoint cat_opt {A B} (f : A -> option (list B)) (l : list A) {struct l} : option (list B) :=
  match l with
  | [] => Some []
  | a :: r => match f a, cat_opt f r with Some x, Some y => Some (x ++ y) | _, _ => None end
  end.
(* 74-126 the tracks of one layer *)
Fixpoint touch_tracks (v : intvs) (l : Z) (prev : option (Z * iset)) (m : tmap) {struct m}
    : option (list (Z * Z * Z * Z)) :=
  match m with
  | [] => Some []
  | (t, s) :: r =>
    let here := match prev with
                | Some (p, ps) => if t =? p + 1 then cat_opt (touch_piece v l t) (is_inter s ps) else Some []
                | None => Some []
                end in
    match here, touch_tracks v l (Some (t, s)) r with Some x, Some y => Some (x ++ y) | _, _ => None end
  end.
Definition touch_guides (v : intvs) : option (list (Z * Z * Z * Z)) :=
  cat_opt (fun l => touch_tracks v l None (v l)) (zrange 0 (nlay - 1)).
(* 127-129 *)
Definition add_touch (v : intvs) (g : Z * Z * Z * Z) : intvs :=
  let '(t, b, e, l) := g in iv_add l t b e v.
Definition genGuides_merge (rects : list (Z * box)) : option intvs :=
  let v := push_rects rects in
  match touch_guides v with None => None | Some gs => Some (fold_left add_touch gs v) end.

(* ---- pins: genGuides_gCell2TermMap (267-333), one rectangle of a pin on layer l; die: for getGCellBox *)
Variable die : box.
Variable nonpref : bool.                 (* USENONPREFTRACKS *)
Definition pin_rect_cells (l : Z) (b : box) : list loc :=
  let p1 := gcell_idx xg yg (mkPt (bleft b - 1) (bbottom b - 1)) in
  let p2 := gcell_idx xg yg (ur b) in
  let tmp := gcell_idx xg yg (ll b) in
  let gb := gcell_box die xg yg tmp in
  let condition2 := pt_eq (ll b) (ll gb) in
  let condition3 := (negb (horz l) && negb nonpref && (bleft b =? bleft gb)) ||
                    (horz l && negb nonpref && (bbottom b =? bbottom gb)) in
  flat_map (fun x => flat_map (fun y =>
    if condition2 && (x =? px tmp - 1) && (y =? py tmp - 1) then []
    else if condition3 && (((x =? px tmp - 1) && negb (horz l)) || ((y =? py tmp - 1) && horz l)) then []
    else [(mkPt x y, l)]) (zrange (py p1) (py p2))) (zrange (px p1) (px p2)).

(* ---- genGuides_split (138-264) *)
Variable via_access : Z.                 (* VIA_ACCESS_LAYERNUM *)
(* a gcell on a layer from its track and its position on the track, and back *)
Definition cell_at (l t c : Z) : point := if horz l then mkPt c t else mkPt t c.
Definition track_of (l : Z) (p : point) : Z := if horz l then py p else px p.
Definition pos_of (l : Z) (p : point) : Z := if horz l then px p else py p.
(* set<frCoord>::insert *)
Fixpoint zs_ins (x : Z) (s : list Z) {struct s} : list Z :=
  match s with
  | [] => [x]
  | y :: r => if x <? y then x :: s else if x =? y then s else y :: zs_ins x r
  end.
(* 192-213 the tracks of a neighbour layer that cross track t between b and e *)
Definition crossings (v : intvs) (l' t b e : Z) : list Z :=
  map fst (filter (fun x => (b <=? fst x) && (fst x <=? e) && is_has (snd x) t) (v l')).
(* 171-184, 220-236 the pins' gcells on this piece of the track *)
Definition pin_pos (pins : list (list loc)) (l t b e : Z) : list Z :=
  map (fun k => pos_of l (fst k))
    (filter (fun k => (snd k =? l) && (track_of l (fst k) =? t) && (b <=? pos_of l (fst k)) && (pos_of l (fst k) <=? e))
       (concat pins)).
Definition line_idx (v : intvs) (pins : list (list loc)) (l t b e : Z) : list Z :=
  fold_left (fun s x => zs_ins x s)
    ((if 0 <=? l - 2 then crossings v (l - 2) t b e else []) ++
     (if l + 2 <? nlay then crossings v (l + 2) t b e else []) ++
     pin_pos pins l t b e) [].
Definition piece (l t a c : Z) : Z * box := (l, mkBox (cell_at l t a) (cell_at l t c)).
(* 246-258 *)
Fixpoint pieces_of (l t a : Z) (s : list Z) {struct s} : list (Z * box) :=
  match s with [] => [] | c :: r => piece l t a c :: pieces_of l t c r end.
(* 161-260 one interval; None models exit(1) *)
Definition split_piece (v : intvs) (pins : list (list loc)) (retry : bool) (l t : Z) (i : Z * Z) : option (list (Z * box)) :=
  let '(b, e) := i in
  if negb retry && (l <=? via_access) then Some (map (fun x => piece l t x x) (zrange b e))
  else match line_idx v pins l t b e with
       | [] => None
       | [x] => Some [piece l t x x]
       | x :: r => Some (pieces_of l t x r)
       end.
Definition split_track (v : intvs) (pins : list (list loc)) (retry : bool) (l : Z) (x : Z * iset) : option (list (Z * box)) :=
  cat_opt (split_piece v pins retry l (fst x)) (snd x).
Definition genGuides_split (v : intvs) (pins : list (list loc)) (retry : bool) : option (list (Z * box)) :=
  cat_opt (fun l => cat_opt (split_track v pins retry l) (v l)) (zrange 0 (nlay - 1)).
(* pin2GCellMap after the split (171-184, 220-236): the pin's gcells that lie on an interval *)
Definition on_guide (v : intvs) (k : loc) : bool :=
  (0 <=? snd k) && (snd k <? nlay) &&
  existsb (fun x => (fst x =? track_of (snd k) (fst k)) && is_has (snd x) (pos_of (snd k) (fst k))) (v (snd k)).
Definition pin2GCell (v : intvs) (pins : list (list loc)) : list (list loc) := map (filter (on_guide v)) pins.

(* ---- genGuides_buildNodeMap (819-855) *)
Definition guide_ends (m : nmap) (x : nat * (Z * box)) : nmap :=
  nm_ins (ur (snd (snd x)), fst (snd x)) (fst x) (nm_ins (ll (snd (snd x)), fst (snd x)) (fst x) m).
Definition buildNodeMap (rects : list (Z * box)) (pins : list (list loc)) : nmap :=
  nm_pins (length rects) (map (fun s => (0, s)) pins) (fold_left guide_ends (numbered rects) []).

(* ---- genGuides_astar (857-1046) *)
Variable allowFT : bool.                 (* ALLOW_PIN_AS_FEEDTHROUGH *)
(* 878-909 one pair idx1 < idx2 of a set *)
Definition pair_edges (gCnt : nat) (force : bool) (l : Z) (p : nat * nat) : list (nat * nat) :=
  let '(i, j) := p in
  if ((gCnt <=? i) && (gCnt <=? j))%nat then []
  else if ((i <? gCnt) && (j <? gCnt))%nat then (if negb (l =? via_access) then [(i, j); (j, i)] else [])
  else
    let g := Nat.min i j in
    let q := Nat.max i j in
    if allowFT || force then [(q, g); (g, q)]
    else if (q =? gCnt)%nat then [(q, g)] else [(g, q)].
(* 911-921 *)
Definition nm_find (m : nmap) (k : loc) : list nat :=
  match find (fun e => loc_eqb k (fst e)) m with Some e => snd e | None => [] end.
Definition layer_edges (m : nmap) (gCnt : nat) (p : point) (l : Z) (i : nat) : list (nat * nat) :=
  if (i <? gCnt)%nat
  then flat_map (fun j => if (j <? gCnt)%nat then [(i, j); (j, i)] else []) (nm_find m (p, l + 2))
  else [].
Definition entry_edges (m : nmap) (gCnt : nat) (force : bool) (e : loc * list nat) : list (nat * nat) :=
  flat_map (pair_edges gCnt force (snd (fst e))) (pairs (snd e)) ++
  flat_map (layer_edges m gCnt (fst (fst e)) (snd (fst e))) (snd e).
Definition guide_edges (m : nmap) (gCnt : nat) (force : bool) : list (nat * nat) := flat_map (entry_edges m gCnt force) m.
Definition guide_adj (m : nmap) (gCnt : nat) (force : bool) (i : nat) : list nat :=
  map snd (filter (fun e => Nat.eqb (fst e) i) (guide_edges m gCnt force)).
(* 943-961 *)
Definition guide_seed (gCnt : nat) (force : bool) (i : nat) : Z :=
  if allowFT && (gCnt <=? i)%nat then 2 else if force && (gCnt <=? i)%nat then 10 else 0.
(* 938-1046: result, adjVisited, adjPrevIdx.  Outer None: the search did not finish (never happens with
   enough fuel) *)
Variable pick : nat -> list wf -> nat.
Variable fuel : nat.
Definition genGuides_astar (m : nmap) (gCnt nCnt : nat) (force : bool) : option (bool * (nat -> bool) * (nat -> option nat)) :=
  match tree_search (guide_adj m gCnt force) gCnt nCnt (guide_seed gCnt force) pick fuel with
  | None => None
  | Some (vis, prev) => Some ((nCnt =? gCnt + 1)%nat || all_pins gCnt nCnt vis, vis, prev)
  end.

(* ---- genGuides_final (688-817) *)
(* 698-738 the gcell at which a pin is tied to a guide *)
Definition pin_end (pins : list (list loc)) (rects : list (Z * box)) (g q : nat) : list (nat * loc) :=
  match nth_error rects g, nth_error pins q with
  | Some (l, b), Some s =>
    if existsb (loc_eqb (ll b, l)) s then [(q, (ll b, l))]
    else if existsb (loc_eqb (ur b, l)) s then [(q, (ur b, l))] else []
  | _, _ => []
  end.
Definition pin_rec (pins : list (list loc)) (rects : list (Z * box)) (vis : nat -> bool) (prev : nat -> option nat) (i : nat)
    : list (nat * loc) :=
  let gCnt := length rects in
  if negb (vis i) then []
  else match prev i with
       | None => []
       | Some p => if ((i <? gCnt) && (gCnt <=? p))%nat then pin_end pins rects i (p - gCnt)
                   else if ((gCnt <=? i) && (p <? gCnt))%nat then pin_end pins rects p (i - gCnt) else []
       end.
Definition pin_recs (pins : list (list loc)) (rects : list (Z * box)) (vis : nat -> bool) (prev : nat -> option nat) : list (nat * loc) :=
  flat_map (pin_rec pins rects vis prev) (seq 0 (length rects + length pins)).
(* 745-770 updatedNodeMap *)
Definition final_map (recs : list (nat * loc)) (rects : list (Z * box)) (vis : nat -> bool) : nmap :=
  fold_left (fun m x => if vis (fst x) then guide_ends m x else m) (numbered rects)
    (fold_left (fun m x => nm_ins (snd x) (length rects + fst x)%nat m) recs []).
Definition nm_has (m : nmap) (k : loc) : bool := existsb (fun e => loc_eqb k (fst e)) m.
Fixpoint set_nth {A} (l : list A) (i : nat) (x : A) {struct l} : list A :=
  match l, i with [], _ => [] | _ :: r, O => x :: r | a :: r, S j => a :: set_nth r j x end.
(* 771-793 one entry of the map; None models exit(1) *)
Definition trim (m : nmap) (gCnt : nat) (rects : option (list (Z * box))) (e : loc * list nat) : option (list (Z * box)) :=
  match rects with
  | None => None
  | Some rects =>
    match snd e with
    | [i] =>
      if (i <? gCnt)%nat then
        let '(p, l) := fst e in
        if negb (nm_has m (p, l + 2)) && negb (nm_has m (p, l - 2)) then
          match nth_error rects i with
          | Some (gl, b) =>
            Some (set_nth rects i (gl, if pt_eq (ll b) p then mkBox (ur b) (ur b) else mkBox (ll b) (ll b)))
          | None => None
          end
        else Some rects
      else None
    | _ => Some rects
    end
  end.
(* the order in which the map is walked *)
Variable walk : nmap -> nmap.
(* 794-816 the guides written, and where the pins are tied *)
Definition genGuides_final (pins : list (list loc)) (rects : list (Z * box)) (vis : nat -> bool) (prev : nat -> option nat)
    : option (list (Z * box) * list (nat * loc)) :=
  let recs := pin_recs pins rects vis prev in
  let m := final_map recs rects vis in
  match fold_left (trim m (length rects)) (walk m) (Some rects) with
  | None => None
  | Some out => Some (map snd (filter (fun x => vis (fst x)) (numbered out)), recs)
  end.

(* ---- genGuides (576-686).  None models exit(1), or a search that does not finish *)
Definition attempt (v : intvs) (pins : list (list loc)) (retry force : bool) : option (option (list (Z * box) * list (nat * loc))) :=
  match genGuides_split v pins retry with
  | None => None
  | Some rects =>
    let pins := pin2GCell v pins in
    match genGuides_astar (buildNodeMap rects pins) (length rects) (length rects + length pins) force with
    | None => None
    | Some (ok, vis, prev) =>
      if ok then match genGuides_final pins rects vis prev with None => None | Some r => Some (Some r) end
      else Some None
    end
  end.
Definition genGuides (rects : list (Z * box)) (pins : list (list loc)) : option (list (Z * box) * list (nat * loc)) :=
  match genGuides_merge rects with
  | None => None
  | Some v =>
    match attempt v pins false false with
    | None => None
    | Some (Some r) => Some r
    | Some None =>
      match attempt v pins true false with
      | None => None
      | Some (Some r) => Some r
      | Some None =>
        if allowFT then None
        else match attempt v pins true true with Some (Some r) => Some r | _ => None end
      end
    end
  end.
End Guide.
