(* Pin access points of one pin: src/pa/FlexPA_prep.cpp:104-1117 (generation, legality, selection) and
   src/pa/FlexPA_init.cpp:347-411 initTrackCoords.
   Simplifications common to the file:
   - the merged shape of the pin on a layer (mergePinShapes, 43-102) is given by the list of its maximal
     rectangles in the order of gtl::get_max_rectangles; gtl::contains of its polygons is "in one of them";
   - the design-rule checker is an oracle: [e_wire] and [e_via] say whether the checker reports no marker
     for the trial wire or via (596-680, 783-867);
   - a via definition is its two metal boxes around the origin; [e_vias l] are the single-cut vias of
     cut layer l in the order of initViaRawPriority;
   - coordinates are unbounded; the counters for the statistics are not modelled. *)
From Verif Require Import Base GeomModel GridModel.

(* src/db/obj/frTrackPattern.h; [tp_vert] = isHorizontal() = vertical tracks *)
Record track := mkTrack { tp_layer : Z; tp_vert : bool; tp_start : Z; tp_num : Z; tp_space : Z }.
(* frViaDef: bounding boxes of the layer1 and layer2 figures *)
Record viadef := mkVia { v_box1 : box; v_box2 : box }.
(* CORE, TIEHIGH, TIELOW, ANTENNACELL / BLOCK, PAD, PAD_POWER, RING / no instance.  Cells of other
   classes get no access points (FlexPA_prep.cpp:1133-1142). *)
Inductive kind := StdPin | MacroPin | IoPin.

(* everything the generation reads *)
Record aenv := mkAE {
  e_bottom : Z; e_top : Z; e_nlayers : Z;
  e_routing : Z -> bool; e_horz : Z -> bool; e_width : Z -> Z; e_minwidth : Z -> Z;
  e_rectonly : Z -> bool; e_rightway : Z -> bool;
  e_manu : Z; e_tracks : list track; e_vias : Z -> list viadef;
  e_vialayer : Z; e_inpin_lo : Z; e_inpin_hi : Z; e_minstd : Z; e_minmacro : Z;
  e_kind : kind; e_boundary : box; e_rects : Z -> list box;
  e_wire : Z -> point -> dir -> bool; e_via : Z -> point -> viadef -> bool }.

(* src/db/obj/frAccess.h frAccessPoint: accesses, types, single-cut vias *)
Record ap := mkAP { ap_pt : point; ap_layer : Z; ap_w : bool; ap_e : bool; ap_s : bool; ap_n : bool; ap_u : bool;
                    ap_low : Z; ap_high : Z; ap_vias : list viadef }.

(* --- std::map<frCoord, int>, as a list with increasing keys --------------------------------- *)
Definition cmap := list (Z * Z).
Fixpoint cfind (k : Z) (m : cmap) : option Z :=
  match m with [] => None | (k', v) :: r => if k =? k' then Some v else cfind k r end.
(* write entry [k] as a function of the old entry *)
Fixpoint cupd (f : option Z -> Z) (k : Z) (m : cmap) : cmap :=
  match m with
  | [] => [(k, f None)]
  | (k', v) :: r => if k <? k' then (k, f None) :: m else if k =? k' then (k, f (Some v)) :: r else (k', v) :: cupd f k r
  end.
(* map::insert keeps an existing entry; m[k] = v; the smaller of the old and the new cost *)
Definition cinsert (k v : Z) : cmap -> cmap := cupd (fun o => match o with Some w => w | None => v end) k.
Definition cput (k v : Z) : cmap -> cmap := cupd (fun _ => v) k.
Definition cmin (k v : Z) : cmap -> cmap := cupd (fun o => match o with Some w => Z.min w v | None => v end) k.
(* the entries from lower_bound(lo) until a key above hi *)
Fixpoint cseg (lo hi : Z) (m : cmap) : cmap :=
  match m with
  | [] => []
  | (k, v) :: r => if k <? lo then cseg lo hi r else if hi <? k then [] else (k, v) :: cseg lo hi r
  end.

(* --- FlexPA_init.cpp:347-411 initTrackCoords ------------------------------------------------ *)
(* 361-372: the tracks in the preferred direction of a layer *)
Definition track_coords (t : track) : list Z :=
  map (fun k => tp_start t + Z.of_nat k * tp_space t) (seq 0 (Z.to_nat (tp_num t))).
Definition full_coords (E : aenv) (l : Z) : cmap :=
  fold_left (fun m t => if (tp_layer t =? l) && Bool.eqb (negb (e_horz E l)) (tp_vert t)
                        then fold_left (fun m c => cput c 0 m) (track_coords t) m else m)
            (e_tracks E) [].
(* 385-396: coordinates half-way between neighbours, rounded to the manufacturing grid (C++ division) *)
Fixpoint half_coords (g : Z) (prev : option Z) (m : cmap) : list Z :=
  match m with
  | [] => []
  | (c, _) :: r =>
    let h := match prev with
             | Some p => let h := Z.quot (Z.quot (c + p) 2) g * g in
                         if negb (h =? c) && negb (h =? p) then [h] else []
             | None => []
             end in
    h ++ half_coords g (Some c) r
  end.
(* 397-399 *)
Definition all_coords (E : aenv) (l : Z) : cmap :=
  fold_left (fun m c => cput c 1 m) (half_coords (e_manu E) None (full_coords E l)) (full_coords E l).

(* --- generation ------------------------------------------------------------------------------ *)
(* FlexPA_prep.cpp:104-113 *)
Definition gen_grid (tracks : cmap) (lo hi : Z) (m : cmap) : cmap :=
  fold_left (fun m e => cinsert (fst e) (snd e) m) (cseg lo hi tracks) m.
(* 116-146 *)
Definition gen_center (E : aenv) (lo hi : Z) (m : cmap) : cmap :=
  if (2 <=? Z.of_nat (length (filter (fun e => snd e =? 0) (cseg lo hi m)))) then m
  else cmin (Z.quot (Z.quot (lo + hi) 2) (e_manu E) * e_manu E) 2 m.
(* 238-247, 711-720: the first two single-cut vias *)
Definition first_vias (E : aenv) (l : Z) : list viadef := firstn 2 (e_vias E (l + 1)).
(* 228-292 *)
Definition gen_enc (E : aenv) (r : box) (l : Z) (horz : bool) (m : cmap) : cmap :=
  if l + 1 >? e_top E then m
  else fold_left (fun m v =>
    let b := v_box1 v in
    if (bright b - bleft b >? bright r - bleft r) || (btop b - bbottom b >? btop r - bbottom r) then m
    else if horz then cmin (bbottom r + (0 - bbottom b)) 3 (cmin (btop r - (btop b - 0)) 3 m)
    else cmin (bleft r + (0 - bleft b)) 3 (cmin (bright r - (bright b - 0)) 3 m)) (first_vias E l) m.
(* 148-208 *)
Definition new_ap (E : aenv) (l : Z) (planar via : bool) (p : point) (low high : Z) : ap :=
  let wrong := planar && negb (e_rectonly E l) in
  let right := planar && negb (e_rightway E l && negb (low =? 0)) in
  let we := if e_horz E l then right else wrong in
  let sn := if e_horz E l then wrong else right in
  mkAP p l we we sn sn via low high [].
Definition in_set (s : list (point * Z)) (p : point) (l : Z) : bool :=
  existsb (fun q => pt_eq (fst q) p && (snd q =? l)) s.
(* the points made so far and apset *)
Definition gst := (list ap * list (point * Z))%type.
Definition add_ap (E : aenv) (r : box) (l : Z) (planar via : bool) (low high : Z) (p : point) (st : gst) : gst :=
  if negb (box_contains_pt r p true) then st
  else if in_set (snd st) p l then st
  else (fst st ++ [new_ap E l planar via p low high], (p, l) :: snd st).
(* 210-226 *)
Definition gen_aps (E : aenv) (r : box) (l : Z) (planar via : bool) (xs ys : cmap) (lt ut : Z) (st : gst) : gst :=
  fold_left (fun st ex => fold_left (fun st ey =>
      let low := if e_horz E l then snd ey else snd ex in
      let high := if e_horz E l then snd ex else snd ey in
      if (low =? lt) && (high =? ut) then add_ap E r l planar via low high (mkPt (fst ex) (fst ey)) st else st) ys st)
    xs st.
(* 300-309: None = exit(1) *)
Definition second_layer (E : aenv) (l : Z) : option Z :=
  if l + 2 <=? e_top E then Some (l + 2) else if l - 2 >=? e_bottom E then Some (l - 2) else None.
(* 317-328; gtl::guess_orientation is horizontal for squares *)
Definition center_line (E : aenv) (r : box) (l : Z) (macro : bool) : bool :=
  let dx := bright r - bleft r in let dy := btop r - bbottom r in
  let rh := dx >=? dy in
  macro && ((rh && e_horz E l) || (negb rh && negb (e_horz E l))) &&
  ((rh && (dy <? 2 * e_width E l)) || (negb rh && (dx <? 2 * e_width E l))).
(* 331-387, the two coordinate maps: across the layer (y for a horizontal layer) and along it.  In both
   branches of isLayer1Horz the code is the same with x and y exchanged, except that lowerType = 0 (364) is
   missing from the second one: see [lower_type]. *)
Definition low_range (E : aenv) (r : box) (l : Z) : Z * Z := if e_horz E l then (bbottom r, btop r) else (bleft r, bright r).
Definition high_range (E : aenv) (r : box) (l : Z) : Z * Z := if e_horz E l then (bleft r, bright r) else (bbottom r, btop r).
Definition low_coords (E : aenv) (r : box) (l : Z) (cl : bool) (lt : Z) : cmap :=
  let (lo, hi) := low_range E r l in
  if cl then map (fun e => (fst e, 0)) (gen_center E lo hi [])
  else let m := gen_grid (all_coords E l) lo hi [] in
       let m := if lt >=? 2 then gen_center E lo hi m else m in
       if lt >=? 3 then gen_enc E r l (e_horz E l) m else m.
Definition high_coords (E : aenv) (r : box) (l l2 : Z) (ut : Z) : cmap :=
  let (lo, hi) := high_range E r l in
  let m := gen_grid (all_coords E l2) lo hi [] in
  let m := if ut >=? 2 then gen_center E lo hi m else m in
  if ut >=? 3 then gen_enc E r l (negb (e_horz E l)) m else m.
(* 364 *)
Definition lower_type (E : aenv) (l : Z) (cl : bool) (lt : Z) : Z := if cl && e_horz E l then 0 else lt.
(* 293-391 *)
Definition gen_rect (E : aenv) (l : Z) (planar via : bool) (lt ut : Z) (macro : bool) (r : box) (st : gst) : option gst :=
  if Z.min (bright r - bleft r) (btop r - bbottom r) <? e_minwidth E l then Some st
  else match second_layer E l with
  | None => None
  | Some l2 =>
    let cl := center_line E r l macro in
    let low := low_coords E r l cl lt in
    let high := high_coords E r l l2 ut in
    let xs := if e_horz E l then high else low in
    let ys := if e_horz E l then low else high in
    Some (gen_aps E r l planar via xs ys (lower_type E l cl lt) ut st)
  end.
Fixpoint ofold {A S} (f : A -> S -> option S) (l : list A) (s : S) : option S :=
  match l with [] => Some s | a :: r => match f a s with Some s' => ofold f r s' | None => None end end.
(* 407-421 *)
Definition allow_planar (E : aenv) (l : Z) : bool :=
  match e_kind E with
  | StdPin => negb (((l >=? e_inpin_lo E) && (l <=? e_inpin_hi E)) || (l <=? e_vialayer E))
  | _ => true
  end.
Definition is_macro (E : aenv) : bool := match e_kind E with StdPin => false | _ => true end.
(* 455-459, 426 *)
Definition allow_via (E : aenv) (l : Z) : bool :=
  ((l =? e_vialayer E) || (l =? e_vialayer E + 2)) && match e_kind E with IoPin => false | _ => true end.
(* 394-437 *)
Definition gen_layer (E : aenv) (lt ut : Z) (l : Z) (st : gst) : option gst :=
  if negb (e_routing E l) then Some st
  else if negb (is_macro E) && (l + 2 <=? e_top E) && e_rightway E (l + 2) && negb (ut =? 0) then Some st
  else ofold (gen_rect E l (allow_planar E l) (allow_via E l) lt ut (is_macro E)) (e_rects E l) st.
(* 445-479: layers from the top; an empty shape has no rectangle *)
Definition gen_points (E : aenv) (lt ut : Z) (st : gst) : option gst :=
  ofold (gen_layer E lt ut) (rev (map Z.of_nat (seq 0 (Z.to_nat (e_nlayers E))))) st.

(* --- legality -------------------------------------------------------------------------------- *)
(* 481-515; stepSizeMultiplier = 2 (FlexPA.h:131) *)
Definition end_point (E : aenv) (l : Z) (p : point) (d : dir) : point :=
  let s := 2 * e_width E l in
  match d with
  | DW => mkPt (px p - s) (py p) | DE => mkPt (px p + s) (py p)
  | DS => mkPt (px p) (py p - s) | DN => mkPt (px p) (py p + s)
  | _ => p
  end.
Definition on_pin (E : aenv) (l : Z) (p : point) : bool := existsb (fun r => box_contains_pt r p true) (e_rects E l).
(* 593-682 *)
Definition check_planar (E : aenv) (l : Z) (p : point) (d : dir) (acc : bool) : bool :=
  if negb acc then false
  else if negb (is_macro E) && on_pin E l (end_point E l p d) then false
  else e_wire E l p d.
Definition shift (b : box) (p : point) : box :=
  mkBox (mkPt (bleft b + px p) (bbottom b + py p)) (mkPt (bright b + px p) (btop b + py p)).
(* 737-740: extents of the intersection with the pin; (0, 0, 0, 0) if it is empty *)
Definition overlap (r v : box) : box :=
  mkBox (mkPt (Z.max (bleft r) (bleft v)) (Z.max (bbottom r) (bbottom v)))
        (mkPt (Z.min (bright r) (bright v)) (Z.min (btop r) (btop v))).
Definition has_area (b : box) : bool := (bleft b <? bright b) && (bbottom b <? btop b).
Definition hull (a b : box) : box :=
  mkBox (mkPt (Z.min (bleft a) (bleft b)) (Z.min (bbottom a) (bbottom b)))
        (mkPt (Z.max (bright a) (bright b)) (Z.max (btop a) (btop b))).
Definition extents (E : aenv) (l : Z) (v : box) : box :=
  match filter has_area (map (fun r => overlap r v) (e_rects E l)) with
  | [] => mkBox (mkPt 0 0) (mkPt 0 0)
  | b :: bs => fold_left hull bs b
  end.
(* 698-704 *)
Definition via_in_pin (E : aenv) (l : Z) (low high : Z) : bool :=
  ((l >=? e_inpin_lo E) && (l <=? e_inpin_hi E)) || (low =? 3) || (high =? 3).
(* 722-731 *)
Definition lr_bound (E : aenv) (l : Z) (p : point) : bool :=
  match e_kind E with
  | IoPin => false
  | _ => (px p <=? bleft (e_boundary E) + 3 * e_width E l) || (px p >=? bright (e_boundary E) - 3 * e_width E l)
  end.
(* 741-750 *)
Definition max_ext (E : aenv) (l : Z) (p : point) (inpin : bool) (v : viadef) : Z :=
  let b := shift (v_box1 v) p in
  let x := extents E l b in
  let le := Z.max 0 (bleft x - bleft b) in
  let re := Z.max 0 (- bright x + bright b) in
  let be := Z.max 0 (bbottom x - bbottom b) in
  let te := Z.max 0 (- btop x + btop b) in
  if lr_bound E l p && negb inpin then Z.max le re else Z.max (Z.max le re) (Z.max be te).
(* 751-775 *)
Definition via_ok (E : aenv) (l : Z) (p : point) (inpin : bool) (v : viadef) : bool :=
  if inpin && (max_ext E l p inpin v >? 0) then false
  else if match e_kind E with IoPin => false | _ =>
            negb (box_contains_box (e_boundary E) (shift (v_box1 v) p) true) end then false
  else if match e_kind E with IoPin => false | _ =>
            negb (box_contains_box (e_boundary E) (shift (v_box2 v) p) true) end then false
  else e_via E l p v.
(* the set of (extension, index, via), ordered by extension and then index *)
Fixpoint vinsert (k : Z) (v : viadef) (s : list (Z * viadef)) : list (Z * viadef) :=
  match s with
  | [] => [(k, v)]
  | (k', v') :: r => if k <? k' then (k, v) :: s else (k', v') :: vinsert k v r
  end.
Definition valid_vias (E : aenv) (l : Z) (p : point) (inpin : bool) : list viadef :=
  map snd (fold_left (fun s v => if via_ok E l p inpin v then vinsert (max_ext E l p inpin v) v s else s)
                     (first_vias E l) []).
(* 684-781, 869-895: D is never an access (188) *)
Definition check_ap (E : aenv) (a : ap) : ap :=
  let l := ap_layer a in let p := ap_pt a in
  let vs := if ap_u a then valid_vias E l p (via_in_pin E l (ap_low a) (ap_high a)) else [] in
  mkAP p l (check_planar E l p DW (ap_w a)) (check_planar E l p DE (ap_e a))
       (check_planar E l p DS (ap_s a)) (check_planar E l p DN (ap_n a))
       (ap_u a && negb (match vs with [] => true | _ => false end)) (ap_low a) (ap_high a) vs.
(* frAccess.h:57-59 *)
Definition has_access (a : ap) : bool := ap_e a || ap_s a || ap_w a || ap_n a || ap_u a.
(* 950-963 *)
Definition keep (E : aenv) (a : ap) : bool :=
  match e_kind E with
  | StdPin => ((ap_layer a =? e_vialayer E) && ap_u a) || (negb (ap_layer a =? e_vialayer E) && has_access a)
  | _ => has_access a
  end.
(* 964-994 *)
Definition enough (E : aenv) (n : Z) : bool :=
  match e_kind E with StdPin => n >=? e_minstd E | MacroPin => n >=? e_minmacro E | IoPin => n >? 0 end.
(* 922-996: the points kept so far, apset, and whether the search is over *)
Definition pin_round (E : aenv) (lt ut : Z) (aps : list ap) (s : list (point * Z)) :
    option (list ap * list (point * Z) * bool) :=
  match gen_points E lt ut ([], s) with
  | None => None
  | Some (tmp, s') =>
    let aps' := aps ++ filter (keep E) (map (check_ap E) tmp) in
    Some (aps', s', enough E (Z.of_nat (length aps')))
  end.
(* 1020-1080 *)
Definition rounds : list (Z * Z) :=
  [(0,0); (1,0); (2,0); (3,0); (0,1); (1,1); (2,1); (3,1); (0,2); (1,2); (2,2); (3,2)].
Fixpoint pin_rounds (E : aenv) (rs : list (Z * Z)) (aps : list ap) (s : list (point * Z)) : option (list ap) :=
  match rs with
  | [] => Some aps
  | (lt, ut) :: r =>
    match pin_round E lt ut aps s with
    | None => None
    | Some (aps', s', true) => Some aps'
    | Some (aps', s', false) => pin_rounds E r aps' s'
    end
  end.
(* 998-1117: the access points recorded for the pin ([] = "Error: no ap"); None = exit(1) *)
Definition prep_pin (E : aenv) : option (list ap) := pin_rounds E rounds [] [].
