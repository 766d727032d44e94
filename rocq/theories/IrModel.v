(* The wire and vias that track assignment gives to a guide before it chooses a track, and what prefers one track to
   another (src/ta/FlexTA_init.cpp:92-458 initIroute and its helpers; src/ta/FlexTA_assign.cpp:598-634 getWlenCost and
   getPinCost; src/ta/FlexTA_end.cpp saveToGuides).  Coordinates are unbounded.  minBegin = INT_MAX and maxEnd = INT_MIN
   with their flags are None.  The GF14 part of getPinCost is not modelled. *)
From Verif Require Import Base GeomModel TwModel.

(* a path segment assigned to a guide *)
Record tseg := mkTS { ts_layer : Z; ts_b : point; ts_e : point }.
(* a guide: net, layer, points, assigned wires *)
Record tguide := mkTG { tg_net : Z; tg_layer : Z; tg_b : point; tg_e : point; tg_routes : list tseg }.
Definition pt_same (p q : point) : bool := (px p =? px q) && (py p =? py q).

Section Ir.
Variable isH : bool.                 (* the direction of the panel *)
Variable brl nlay : Z.               (* BOTTOM_ROUTING_LAYER, the number of layers *)
Variable guides : list tguide.       (* all guides, in the order the region query gives them *)
Variable routeBox : box.

(* isH ? p.x() : p.y() and the other *)
Definition along (p : point) : Z := if isH then px p else py p.
Definition across (p : point) : Z := if isH then py p else px p.
(* queryGuide with the box of one point: guides whose box meets it (frGuide.h:106-108) *)
Definition query_guides (p : point) (l : Z) : list tguide :=
  filter (fun g => (tg_layer g =? l) && box_contains_pt (box_set (px (tg_b g)) (py (tg_b g)) (px (tg_e g)) (py (tg_e g))) p true) guides.
(* 315-337: the guides on the next layers below and above *)
Definition nbr_guides (l : Z) (p : point) : list tguide :=
  (if l - 2 >=? brl then query_guides p (l - 2) else []) ++ (if l + 2 <? nlay then query_guides p (l + 2) else []).

(* minBegin, maxEnd, downViaCoordSet, upViaCoordSet, wlen *)
Record irst := mkIR { ir_min : option Z; ir_max : option Z; ir_down : list Z; ir_up : list Z; ir_wlen : Z }.
Definition omin (o : option Z) (c : Z) : option Z := match o with None => Some c | Some m => Some (Z.min m c) end.
Definition omax (o : option Z) (c : Z) : option Z := match o with None => Some c | Some m => Some (Z.max m c) end.
Definition zins (c : Z) (s : list Z) : list Z := kins Z.ltb c s.
(* 344-351, 365-369: a via to layer [l'] at [c] *)
Definition add_via (l l' c : Z) (s : irst) : irst :=
  if l' =? l - 2 then mkIR (ir_min s) (ir_max s) (zins c (ir_down s)) (ir_up s) (ir_wlen s)
  else mkIR (ir_min s) (ir_max s) (ir_down s) (zins c (ir_up s)) (ir_wlen s).
(* 353-371: one wire of a neighbour; [first]: i = 0 *)
Definition nbr_seg (first : bool) (l : Z) (s : irst) (w : tseg) : irst :=
  let c := along (ts_b w) in
  let s := if first then mkIR (omin (ir_min s) c) (ir_max s) (ir_down s) (ir_up s) (ir_wlen s)
           else mkIR (ir_min s) (omax (ir_max s) c) (ir_down s) (ir_up s) (ir_wlen s) in
  add_via l (ts_layer w) c s.
(* 338-381: one neighbour at the point [cp] *)
Definition nbr_step (first : bool) (net l : Z) (cp : point) (s : irst) (n : tguide) : irst :=
  if tg_net n =? net then
    let s := match tg_routes n with
             | [] => add_via l (tg_layer n) (along (tg_b n)) s
             | ws => fold_left (nbr_seg first l) ws s
             end in
    let w := ir_wlen s - (if pt_same cp (tg_e n) then 1 else 0) + (if pt_same cp (tg_b n) then 1 else 0) in
    mkIR (ir_min s) (ir_max s) (ir_down s) (ir_up s) w
  else s.
(* 313-382 *)
Definition nbr_all (g : tguide) : irst :=
  let s := fold_left (nbr_step true (tg_net g) (tg_layer g) (tg_b g)) (nbr_guides (tg_layer g) (tg_b g)) (mkIR None None [] [] 0) in
  fold_left (nbr_step false (tg_net g) (tg_layer g) (tg_e g)) (nbr_guides (tg_layer g) (tg_e g)) s.
(* what initIroute_helper returns: begin, end, down vias, up vias, wlen, wlen2 (None: INT_MAX) *)
Record irext := mkIE { ie_b : Z; ie_e : Z; ie_down : list Z; ie_up : list Z; ie_wlen : Z; ie_wlen2 : option Z }.

(* a terminal at a point (queryGRPin): net, instance with pin access or not; for each pin hasPinAccess; the access points
   of the instance's terminal, moved to its place *)
Record tterm := mkTT { tt_net : Z; tt_acc : bool; tt_pins : list bool; tt_aps : list (option (Z * point)) }.
(* 158-196, 247-280: the pins of a terminal; [idx] is pinIdx, which only grows for a pin whose access point is refused *)
Fixpoint pin_loop (ok : Z * point -> bool) (acc : bool) (aps : list (option (Z * point))) (pins : list bool) (idx : nat) : option (Z * point) :=
  match pins with
  | [] => None
  | p :: pins =>
      if negb p || negb acc then pin_loop ok acc aps pins idx
      else match nth idx aps None with
           | None => pin_loop ok acc aps pins idx
           | Some ap => if ok ap then Some ap else pin_loop ok acc aps pins (S idx)
           end
  end.
(* 140-198: the first terminal of the net with an access point on the layer in the panel *)
Fixpoint term_loop (ok : Z * point -> bool) (net : Z) (ts : list tterm) : option (Z * point) :=
  match ts with
  | [] => None
  | t :: ts => if tt_net t =? net then match pin_loop ok (tt_acc t) (tt_aps t) (tt_pins t) 0 with Some ap => Some ap | None => term_loop ok net ts end
               else term_loop ok net ts
  end.
Definition in_panel (ap : Z * point) : bool := box_contains_pt routeBox (snd ap) true.
(* 92-201: initIroute_helper_pin; [terms p]: queryGRPin *)
Definition has_nbr (net l : Z) (p : point) : bool := existsb (fun n => tg_net n =? net) (query_guides p l).
Definition ir_pin (terms : point -> list tterm) (g : tguide) : option irext :=
  if negb (pt_same (tg_b g) (tg_e g)) then None
  else
    let l := tg_layer g in
    let hasDown := if l - 2 >=? brl then has_nbr (tg_net g) (l - 2) (tg_b g) else false in
    let hasUp := if l + 2 <? nlay then has_nbr (tg_net g) (l + 2) (tg_b g) else false in
    match term_loop (fun ap => (fst ap =? l) && in_panel ap) (tg_net g) (terms (tg_b g)) with
    | None => None
    | Some ap => let c := along (snd ap) in
                 Some (mkIE c c (if hasDown then [c] else []) (if hasUp then [c] else []) 0 (Some (across (snd ap))))
    end.
(* 212-285: the coordinate wanted by a pin; a terminal of the net without a usable access point sets it to 0 *)
Fixpoint term_want (net : Z) (ts : list tterm) (w : option Z) : option Z :=
  match ts with
  | [] => w
  | t :: ts => if tt_net t =? net then
                 match pin_loop in_panel (tt_acc t) (tt_aps t) (tt_pins t) 0 with
                 | Some ap => Some (across (snd ap))
                 | None => term_want net ts (Some 0)
                 end
               else term_want net ts w
  end.
Definition pin_want (terms : point -> list tterm) (g : tguide) : option Z :=
  term_want (tg_net g) (terms (tg_b g) ++ (if pt_same (tg_e g) (tg_b g) then [] else terms (tg_e g))) None.
(* 286-399: initIroute_helper_generic *)
Definition ir_generic (terms : point -> list tterm) (g : tguide) : irext :=
  let s := nbr_all g in
  let b := match ir_min s with Some c => c | None => along (tg_b g) end in
  let e := match ir_max s with Some c => c | None => along (tg_e g) end in
  let '(b, e) := if b >? e then (e, b) else (b, e) in
  let e := if b =? e then e + 1 else e in
  mkIE b e (ir_down s) (ir_up s) (ir_wlen s) (pin_want terms g).
(* 203-209 *)
Definition ir_helper (terms : point -> list tterm) (g : tguide) : irext :=
  match ir_pin terms g with Some x => x | None => ir_generic terms g end.

(* 414-458: the wire and the vias (cut layer, place) of the guide on a track *)
Definition at_track (t c : Z) : point := if isH then mkPt c t else mkPt t c.
Definition ir_wire (x : irext) (l t : Z) : tseg := mkTS l (at_track t (ie_b x)) (at_track t (ie_e x)).
Definition ir_vias (x : irext) (l t : Z) : list (Z * point) :=
  map (fun c => (l + 1, at_track t c)) (ie_up x) ++ map (fun c => (l - 1, at_track t c)) (ie_down x).
(* FlexTA_assign.cpp:598-631; [endBox] is the gcell of the end of the guide *)
Definition wlen_cost (wlen : Z) (endBox : box) (t : Z) : Z :=
  let lo := if isH then bbottom endBox else bleft endBox in
  let hi := if isH then btop endBox else bright endBox in
  let w := if wlen <=? 0 then Z.abs wlen * (t - lo) else Z.abs wlen * (hi - t) in
  if w <? 0 then 0 else w.
(* FlexTA_assign.cpp:633-637, 791-792 *)
Definition pin_cost (pitch : Z) (want : option Z) (t : Z) : Z :=
  let tmp := match want with Some c => Z.abs (t - c) | None => 0 end in
  if tmp =? 0 then 0 else 4 * pitch + tmp.
(* FlexTA_end.cpp:33-48: the guide keeps the wire only *)
Definition save_guide (g : tguide) (w : tseg) : tguide := mkTG (tg_net g) (tg_layer g) (tg_b g) (tg_e g) [w].
End Ir.
