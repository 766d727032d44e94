(* Fixed shapes in track assignment: the intervals charged on the tracks (src/ta/FlexTA_init.cpp:660-700, 703-727, 765-768,
   860-885) and the cost of a wire on a track (src/ta/FlexTA_assign.cpp:661-735).  GF14 is not modelled.  Region queries give
   the values whose box meets the query box, in any order. *)
From Verif Require Import Base GeomModel TaModel.

(* owner of a charge: nobody, a net, or a shape of another guide with its net *)
Inductive cowner := ONone | ONet (n : Z) | OGuide (pin net : Z).
Record charge := mkCh { ch_box : box; ch_own : cowner }.
(* a fixed shape: a pin (frcTerm, frcInstTerm), a wire or via, or a blockage; its net; its box *)
Inductive fkind := FPin | FMetal | FBlock.
Record fshape := mkFS { fs_kind : fkind; fs_net : option Z; fs_box : box }.

Section Fix.
Variable isH : bool.
Variable tracks : list Z.            (* trackLocs of the layer *)
Variable width : Z.                  (* width of the layer *)
Variable spc : option (Z -> Z -> Z). (* getMinSpacing: the spacing for a width and a parallel run length *)
Variable minobs : bool.              (* USEMINSPACING_OBS *)

(* 860-885 *)
Definition bloat_dist (f : fshape) : Z :=
  let b := fs_box f in
  let objWidth := match fs_kind f with FBlock => if minobs then width else box_width b | _ => box_width b end in
  let prl := if isH then bright b - bleft b else btop b - bbottom b in
  match spc with None => width | Some find => find objWidth prl end + Z.quot width 2.
(* 660-700; the value charged has the owner [net] *)
Definition fixed_helper (b : box) (dist : Z) (own : cowner) : list charge :=
  let bl := box_bloat b dist in
  let locs := tracks_between tracks (if isH then getTrackIdx tracks (bbottom bl) (btop bl) else getTrackIdx tracks (bleft bl) (bright bl)) in
  map (fun t => mkCh (if isH then box_set (bleft bl) t (bright bl) t else box_set t (bbottom bl) t (btop bl)) own) locs.
Definition own_of (o : option Z) : cowner := match o with Some n => ONet n | None => ONone end.
(* 713-742, 765-768: one shape; TASHAPEBLOATWIDTH * width in float is taken as 3 * width / 2 *)
Definition fixed_shape (f : fshape) : list charge :=
  let b := box_bloat (fs_box f) (-1) in
  match fs_kind f with
  | FPin => fixed_helper b (Z.quot (3 * width) 2) (own_of (fs_net f))
  | FMetal => fixed_helper b (bloat_dist f) (own_of (fs_net f))
  | FBlock => fixed_helper b (bloat_dist f) ONone
  end.

(* FlexTA_assign.cpp:661-707 for a routing layer; None: exit *)
Definition overlap (a b : box) : Z :=
  - Z.max (bleft a) (bleft b) + Z.min (bright a) (bright b) - Z.max (bbottom a) (bbottom b) + Z.min (btop a) (btop b) + 1.
Definition meet (a b : box) : bool :=
  (bleft a <=? bright b) && (bleft b <=? bright a) && (bbottom a <=? btop b) && (bbottom b <=? btop a).
Definition foreign (pin net : Z) (o : cowner) : bool :=
  match o with ONone => true | ONet n => negb (net =? n) | OGuide p n => negb (p =? pin) && negb (net =? n) end.
Fixpoint overlaps_sum (pin net : Z) (b : box) (cs : list charge) : option Z :=
  match cs with
  | [] => Some 0
  | c :: cs => let o := overlap b (ch_box c) in
               if o <=? 0 then None
               else match overlaps_sum pin net b cs with Some r => Some (if foreign pin net (ch_own c) then o + r else r) | None => None end
  end.
Definition drc_helper (pitch pin net : Z) (cut : bool) (b : box) (cs : list charge) : option Z :=
  match overlaps_sum pin net b (filter (fun c => meet b (ch_box c)) cs) with
  | None => None
  | Some o => Some (if o =? 0 then 0 else if cut then pitch * 2 else Z.max (pitch * 2) o)
  end.
(* 709-724: the wire from b to e on the track t *)
Definition wire_cost (pitch pin net b e t : Z) (cs : list charge) : option Z :=
  drc_helper pitch pin net false (if isH then box_set b t e t else box_set t b t e) cs.
End Fix.
