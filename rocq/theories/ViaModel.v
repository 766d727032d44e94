(* Default vias of the cut layers and the vias made by the router (src/io/io_parser_helper.cpp:46-139 initDefaultVias,
   211-258 initCutLayerWidth, 261-299 getViaRawPriority; src/pa/FlexPA_init.cpp:292-344 initViaRawPriority).
   Via shapes are rectangles on known layers.  Areas are within an int.  The nodes with their own via choice
   (initDefaultVias_N16, initDefaultVias_GF14) and messages are not modelled. *)
From Verif Require Import Base GeomModel GcModel TwModel.
From Coq Require Import String.

Inductive ldir := DirH | DirV | DirNone.
Definition is_dirH (d : ldir) : bool := match d with DirH => true | _ => false end.
Definition is_dirV (d : ldir) : bool := match d with DirV => true | _ => false end.
(* src/db/tech/frViaDef.h:82-185; shapes with their layer; [v_class]: cutClass and cutClassIdx *)
Record vdef := mkVD {
  v_name : string; v_default : bool; v_l1 : list (Z * box); v_l2 : list (Z * box); v_cut : list (Z * box);
  v_class : option Z; v_gen : bool }.
(* src/db/obj/frVia.h:51-137 getLayer1BBox, getLayer2BBox, getCutBBox at the origin; the same box as gtl::extents *)
Definition bbox_join (a c : box) : box :=
  mkBox (mkPt (Z.min (bleft a) (bleft c)) (Z.min (bbottom a) (bbottom c))) (mkPt (Z.max (bright a) (bright c)) (Z.max (btop a) (btop c))).
Definition bbox_of (figs : list (Z * box)) : box :=
  match figs with
  | [] => mkBox (mkPt 0 0) (mkPt 0 0)
  | f :: r => fold_left (fun b g => bbox_join b (snd g)) r (snd f)
  end.
(* getLayer1Num, getLayer2Num, getCutLayerNum: exit(1) without a shape *)
Definition layer_of (figs : list (Z * box)) : option Z := match figs with [] => None | f :: _ => Some (fst f) end.

Section Via.
Variable dir : Z -> ldir.           (* frLayer::getDir *)
Variable is_cut : Z -> bool.        (* frLayer::getType() == CUT *)
Variable lname : Z -> string.       (* frLayer::getName *)
Variables bottom top : Z.           (* getBottomLayerNum, getTopLayerNum *)
Variable brl : Z.                   (* BOTTOM_ROUTING_LAYER *)
Variable via_gen : bool.            (* ENABLE_VIA_GEN *)

(* gtl::area of the union of the shapes *)
Definition union_area (figs : list (Z * box)) : Z := Z.of_nat (area_in (bbox_of figs) (map snd figs)).
Definition enc_horz (figs : list (Z * box)) : bool := deltaX (bbox_of figs) >? deltaY (bbox_of figs).
Definition enc_width (figs : list (Z * box)) : Z := Z.min (deltaX (bbox_of figs)) (deltaY (bbox_of figs)).
Definition not_align (figs : list (Z * box)) (l : Z) : bool :=
  (enc_horz figs && is_dirV (dir l)) || (negb (enc_horz figs) && is_dirH (dir l)).
(* viaRawPriorityTuple (pa/FlexPA.h:38, io/io.h:40) as a list, false = 0 and true = 1 *)
Definition prio : Type := list Z.
Definition b2z (b : bool) : Z := if b then 1 else 0.
(* getViaRawPriority, io_parser_helper.cpp:261-299 and FlexPA_init.cpp:306-344 *)
Definition raw_priority (v : vdef) : option prio :=
  match layer_of (v_l1 v), layer_of (v_l2 v) with
  | Some l1, Some l2 =>
      Some [b2z (negb (v_default v)); enc_width (v_l1 v); enc_width (v_l2 v); b2z (not_align (v_l2 v) l2);
            union_area (v_l2 v); union_area (v_l1 v); b2z (not_align (v_l1 v) l1)]
  | _, _ => None
  end.
(* operator< of std::tuple *)
Fixpoint prio_ltb (a c : prio) : bool :=
  match a, c with
  | x :: r, y :: s => (x <? y) || ((x =? y) && prio_ltb r s)
  | [], _ :: _ => true
  | _, [] => false
  end.
(* 47-50: the vias of a cut layer in the order of the technology *)
Definition on_layer (l : Z) (v : vdef) : bool := match layer_of (v_cut v) with Some c => c =? l | None => false end.
Definition layer_vias (vs : list vdef) (l : Z) : list vdef := filter (on_layer l) vs.
Definition num_cut (v : vdef) : Z := Z.of_nat (List.length (v_cut v)).
(* layerNum2ViaDefs[layerNum][cutNum]: for each priority the last via, in ascending order *)
Definition prios (vs : list vdef) : list prio := flat_map (fun v => match raw_priority v with Some p => [p] | None => [] end) vs.
Fixpoint prio_eqb (a c : prio) : bool :=
  match a, c with [], [] => true | x :: r, y :: s => (x =? y) && prio_eqb r s | _, _ => false end.
Definition via_of (vs : list vdef) (p : prio) : option vdef :=
  fold_left (fun r v => match raw_priority v with Some q => if prio_eqb q p then Some v else r | None => r end) vs None.
Definition ranked (vs : list vdef) (l n : Z) : list vdef :=
  let c := filter (fun v => num_cut v =? n) (layer_vias vs l) in
  flat_map (fun p => match via_of c p with Some v => [v] | None => [] end) (kset prio_ltb (prios c)).
(* all shapes present: no exit(1) in 48-64 *)
Definition all_shapes (v : vdef) : bool :=
  match layer_of (v_l1 v), layer_of (v_l2 v) with Some _, Some _ => true | _, _ => false end.
Definition has_cut (v : vdef) : bool := match v_cut v with [] => false | _ => true end.

(* 100-106: the box turned over the diagonal *)
Definition turn (b : box) : box := box_set (bbottom b) (bleft b) (btop b) (bright b).
(* 75-137: the via made from the best one, if it does not lie along the layers *)
Definition gen_via (l : Z) (v : vdef) : option vdef :=
  match layer_of (v_l1 v), layer_of (v_l2 v), layer_of (v_cut v) with
  | Some l1, Some l2, Some lc =>
      let t1 := negb (Bool.eqb (enc_horz (v_l1 v)) (is_dirH (dir l1))) in
      let t2 := negb (Bool.eqb (enc_horz (v_l2 v)) (is_dirH (dir l2))) in
      if t1 || t2
      then Some (mkVD (lname lc ++ "_FR") false
                      [(l1, if t1 then turn (bbox_of (v_l1 v)) else bbox_of (v_l1 v))]
                      [(l2, if t2 then turn (bbox_of (v_l2 v)) else bbox_of (v_l2 v))]
                      [(lc, bbox_of (v_cut v))] None true)
      else None
  | _, _, _ => None
  end.

(* the vias of the technology and the default via of each layer (setDefaultViaDef) *)
Record vtech := mkVT { t_vias : list vdef; t_default : Z -> option vdef }.
Definition upd {A} (f : Z -> A) (l : Z) (a : A) : Z -> A := fun k => if k =? l then a else f k.
(* 55-138: one layer; [vs] are the vias added to the layers at the start *)
Definition init_layer (vs : list vdef) (st : option vtech) (l : Z) : option vtech :=
  match st with
  | None => None
  | Some t =>
      if negb (is_cut l) then Some t
      else if negb (forallb all_shapes (layer_vias vs l)) then None
      else match ranked vs l 1 with
           | v :: _ =>
               match (if via_gen && (l >=? brl) then gen_via l v else None) with
               | Some g => Some (mkVT (t_vias t ++ [g]) (upd (t_default t) l (Some g)))
               | None => Some (mkVT (t_vias t) (upd (t_default t) l (Some v)))
               end
           | [] => if l >=? brl then None else Some t
           end
  end.
Definition layer_range : list Z := zrange bottom (top + 1).
(* 46-139; None: exit(1) *)
Definition init_default_vias (vs : list vdef) : option vtech :=
  if forallb has_cut vs then fold_left (init_layer vs) layer_range (Some (mkVT vs (fun _ => None))) else None.

(* FlexPA_init.cpp:292-304 and FlexPA_prep.cpp:236-245, 711-719: the vias tried at an access point below cut layer l *)
Definition trial_vias (vs : list vdef) (l : Z) : list vdef := firstn 2 (ranked vs l 1).

(* 211-258 initCutLayerWidth; frRect::width is the shorter side; None: exit(1) *)
Definition cut_width (w : Z -> Z) (t : vtech) (l : Z) : option Z :=
  if negb (is_cut l) then Some (w l)
  else if w l =? 0
       then match t_default t l with
            | Some v => match v_cut v with f :: _ => Some (Z.min (deltaX (snd f)) (deltaY (snd f))) | [] => None end
            | None => if l >=? brl then None else Some (w l)
            end
       else Some (w l).
End Via.
