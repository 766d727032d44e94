(* What the access points of a pin should be, without the maps and loops of the model. *)
From Verif Require Import Base GeomModel GridModel ApModel.

(* a coordinate on a track in the preferred direction of layer [l] *)
Definition on_track (E : aenv) (l c : Z) : Prop :=
  exists t k, In t (e_tracks E) /\ tp_layer t = l /\ tp_vert t = negb (e_horz E l) /\
              0 <= k < tp_num t /\ c = tp_start t + k * tp_space t.
(* rounding towards zero to the manufacturing grid, after halving towards zero *)
Definition middle (E : aenv) (a b : Z) : Z := Z.quot (Z.quot (a + b) 2) (e_manu E) * e_manu E.
(* the middle between two neighbouring tracks *)
Definition half_track (E : aenv) (l c : Z) : Prop :=
  exists a b, on_track E l a /\ on_track E l b /\ a < b /\ (forall x, on_track E l x -> ~ a < x < b) /\
              c = middle E a b /\ a < c < b.
Definition tracks_on_grid (E : aenv) : Prop :=
  0 < e_manu E /\ forall l c, on_track E l c -> exists k, c = k * e_manu E.

(* the layer whose tracks are used across the first layer's: the next routing layer above, or below at the top *)
Definition second (E : aenv) (l l2 : Z) : Prop :=
  (l + 2 <= e_top E /\ l2 = l + 2) \/ (e_top E < l + 2 /\ e_bottom E <= l - 2 /\ l2 = l - 2).

(* c is the middle of [lo, hi], and no two tracks are inside *)
Definition center_of (E : aenv) (l lo hi c : Z) : Prop :=
  c = middle E lo hi /\ forall a b, on_track E l a -> on_track E l b -> lo <= a <= hi -> lo <= b <= hi -> a = b.
(* the lower metal of one of the two preferred single-cut vias fits in r and, placed at c, ends on an edge of r *)
Definition flush (E : aenv) (r : box) (l : Z) (horz : bool) (c : Z) : Prop :=
  l + 1 <= e_top E /\
  exists v, In v (firstn 2 (e_vias E (l + 1))) /\
    bright (v_box1 v) - bleft (v_box1 v) <= bright r - bleft r /\ btop (v_box1 v) - bbottom (v_box1 v) <= btop r - bbottom r /\
    if horz then c + btop (v_box1 v) = btop r \/ c + bbottom (v_box1 v) = bbottom r
    else c + bright (v_box1 v) = bright r \/ c + bleft (v_box1 v) = bleft r.

(* 0 on a track, 1 between two tracks, 2 in the middle of the shape, 3 a via there is flush with the shape;
   the first that applies *)
Definition coord_type (E : aenv) (tl lo hi : Z) (flushP : Z -> Prop) (c t : Z) : Prop :=
  lo <= c <= hi /\
  ((t = 0 /\ on_track E tl c) \/
   (t = 1 /\ ~ on_track E tl c /\ half_track E tl c) \/
   (t = 2 /\ ~ on_track E tl c /\ ~ half_track E tl c /\ center_of E tl lo hi c) \/
   (t = 3 /\ ~ on_track E tl c /\ ~ half_track E tl c /\ ~ center_of E tl lo hi c /\ flushP c)).

(* a macro or top-level pin rectangle that runs along its layer and is thinner than two wires *)
Definition thin (E : aenv) (r : box) (l : Z) : Prop :=
  let dx := bright r - bleft r in let dy := btop r - bbottom r in
  e_kind E <> StdPin /\
  ((e_horz E l = true /\ dy <= dx /\ dy < 2 * e_width E l) \/ (e_horz E l = false /\ dx < dy /\ dx < 2 * e_width E l)).

(* coordinate across the wires of layer l, and along them *)
Definition across (E : aenv) (l : Z) (p : point) : Z := if e_horz E l then py p else px p.
Definition along (E : aenv) (l : Z) (p : point) : Z := if e_horz E l then px p else py p.

(* [p] is a place for an access point in rectangle [r] of the pin, with these types *)
Definition candidate (E : aenv) (l : Z) (r : box) (p : point) (low high : Z) : Prop :=
  0 <= l < e_nlayers E /\ e_routing E l = true /\ In r (e_rects E l) /\
  e_minwidth E l <= bright r - bleft r /\ e_minwidth E l <= btop r - bbottom r /\
  bleft r <= px p <= bright r /\ bbottom r <= py p <= btop r /\
  (e_kind E = StdPin -> l + 2 <= e_top E -> e_rightway E (l + 2) = true -> high = 0) /\
  exists l2, second E l l2 /\
    ((thin E r l /\ low = 0 /\ across E l p = (if e_horz E l then middle E (bbottom r) (btop r) else middle E (bleft r) (bright r))) \/
     (~ thin E r l /\
      coord_type E l (if e_horz E l then bbottom r else bleft r) (if e_horz E l then btop r else bright r)
                 (flush E r l (e_horz E l)) (across E l p) low)) /\
    0 <= high <= 2 /\
    coord_type E l2 (if e_horz E l then bleft r else bbottom r) (if e_horz E l then bright r else btop r)
               (fun _ => False) (along E l p) high.

(* --- legality ---------------------------------------------------------------------------------- *)
Definition planar_dir (d : dir) : Prop := d = DW \/ d = DE \/ d = DS \/ d = DN.
(* d runs along the wires of layer l *)
Definition right_way (E : aenv) (l : Z) (d : dir) : Prop :=
  if e_horz E l then d = DW \/ d = DE else d = DS \/ d = DN.
Definition inside (r : box) (p : point) : Prop := bleft r <= px p <= bright r /\ bbottom r <= py p <= btop r.
(* the place two wire widths away *)
Definition two_widths (E : aenv) (l : Z) (p : point) (d : dir) (q : point) : Prop :=
  match d with
  | DW => px q = px p - 2 * e_width E l /\ py q = py p
  | DE => px q = px p + 2 * e_width E l /\ py q = py p
  | DS => py q = py p - 2 * e_width E l /\ px q = px p
  | DN => py q = py p + 2 * e_width E l /\ px q = px p
  | _ => False
  end.
Definition legal_planar (E : aenv) (l : Z) (p : point) (low : Z) (d : dir) : Prop :=
  planar_dir d /\
  (* cells: not on the via access layers, and only if the wire leaves the pin *)
  (e_kind E = StdPin -> e_vialayer E < l /\ ~ (e_inpin_lo E <= l <= e_inpin_hi E) /\
     forall q r, two_widths E l p d q -> In r (e_rects E l) -> ~ inside r q) /\
  (* layer rules *)
  (~ right_way E l d -> e_rectonly E l = false) /\
  (right_way E l d -> e_rightway E l = true -> low = 0) /\
  e_wire E l p d = true.

(* the pin rectangles that overlap the box b *)
Definition overlapping (E : aenv) (l : Z) (b r : box) : Prop :=
  In r (e_rects E l) /\ Z.max (bleft r) (bleft b) < Z.min (bright r) (bright b) /\
  Z.max (bbottom r) (bbottom b) < Z.min (btop r) (btop b).
(* the least distance left by these rectangles to a side of b, [f r] being the distance left by r *)
Definition least_gap (E : aenv) (l : Z) (b : box) (f : box -> Z) (g : Z) : Prop :=
  (exists r, overlapping E l b r /\ g = Z.max 0 (f r)) /\ forall r, overlapping E l b r -> g <= Z.max 0 (f r).
(* how far the box b reaches beyond the pin: the largest of the four distances, or of left and right only *)
Definition overhang (E : aenv) (l : Z) (b : box) (lr : bool) (h : Z) : Prop :=
  exists gl gr gb gt,
    least_gap E l b (fun r => bleft r - bleft b) gl /\ least_gap E l b (fun r => bright b - bright r) gr /\
    least_gap E l b (fun r => bbottom r - bbottom b) gb /\ least_gap E l b (fun r => btop b - btop r) gt /\
    h = if lr then Z.max gl gr else Z.max (Z.max gl gr) (Z.max gb gt).
Definition needs_in_pin (E : aenv) (l low high : Z) : Prop := e_inpin_lo E <= l <= e_inpin_hi E \/ low = 3 \/ high = 3.
Definition box_in (a b : box) : Prop :=
  bleft b <= bleft a /\ bright a <= bright b /\ bbottom b <= bbottom a /\ btop a <= btop b.
Definition at_pt (b : box) (p : point) : box :=
  mkBox (mkPt (bleft b + px p) (bbottom b + py p)) (mkPt (bright b + px p) (btop b + py p)).
Definition legal_via (E : aenv) (l : Z) (p : point) (low high : Z) (v : viadef) : Prop :=
  (l = e_vialayer E \/ l = e_vialayer E + 2) /\ e_kind E <> IoPin /\
  In v (firstn 2 (e_vias E (l + 1))) /\
  (needs_in_pin E l low high -> overhang E l (at_pt (v_box1 v) p) false 0) /\
  box_in (at_pt (v_box1 v) p) (e_boundary E) /\ box_in (at_pt (v_box2 v) p) (e_boundary E) /\
  e_via E l p v = true.

(* near the left or right side of the cell *)
Definition near_side (E : aenv) (l : Z) (p : point) : Prop :=
  e_kind E <> IoPin /\ (px p <= bleft (e_boundary E) + 3 * e_width E l \/ bright (e_boundary E) - 3 * e_width E l <= px p).

(* worth recording: some legal access; for cells on the via access layer, a legal via *)
Definition worth (E : aenv) (l : Z) (p : point) (low high : Z) : Prop :=
  (exists v, legal_via E l p low high v) \/
  (~ (e_kind E = StdPin /\ l = e_vialayer E) /\ exists d, legal_planar E l p low d).

(* frAccess.h:121-123 getCost *)
Definition ap_cost (a : ap) : Z := ap_low a + 4 * ap_high a.
Definition cheaper (k : Z) (aps : list ap) : Z := Z.of_nat (length (filter (fun a => ap_cost a <? k) aps)).
(* the numbers of access points at which the search stops: 3 and 3 (global.cpp:67-68), and 1 *)
Definition quota (E : aenv) : Z := match e_kind E with StdPin => e_minstd E | MacroPin => e_minmacro E | IoPin => 1 end.
