(* Instances that share access points, and the rows of instances whose access patterns are chosen together.
   src/pa/FlexPA_init.cpp:38-275, src/pa/FlexPA_prep.cpp:1249-1295, 1339-1362. *)
From Verif Require Import Base GeomModel ApModel.

(* src/db/obj/frInst.h: an instance; masters and instances are named by their ids (frBlockObjectComp compares ids) *)
Record inst := mkInst { i_id : Z; i_master : Z; i_xf : xform }.

(* What the functions read. [u_figs m]: layers of the shapes of the pins of master m that are not skipped;
   [u_box m]: boundary of master m; [u_pins m]: the pins of master m. *)
Record uenv := mkUE {
  u_bottom : Z; u_top : Z; u_nlayers : Z; u_horz : Z -> bool; u_tracks : list track;
  u_figs : Z -> list Z; u_box : Z -> box; u_pins : Z -> list Z }.

(* std::numeric_limits<frLayerNum>: int *)
Definition INT_MAX : Z := 2 ^ 31 - 1.
Definition INT_MIN : Z := - 2 ^ 31.

Section M.
Variable E : uenv.

(* FlexPA_init.cpp:38-52 getPrefTrackPatterns *)
Definition pref_tracks : list track :=
  filter (fun t => if u_horz E (tp_layer t) then negb (tp_vert t) else tp_vert t) (u_tracks E).

(* FlexPA_init.cpp:55-104 initUniqueInstance_refBlock2PinLayerRange, one master; None: the master is left out *)
Definition pin_range (m : Z) : option (Z * Z) :=
  let mn := fold_left (fun a l => if l >=? u_bottom E then Z.min a l else a) (u_figs E m) INT_MAX in
  let mx := fold_left (fun a l => Z.max a l) (u_figs E m) INT_MIN in
  if (mn <? u_bottom E) || (mx >? u_top E) then None else Some (mn, Z.min (mx + 2) (u_nlayers E)).

(* FlexPA_init.cpp:106-122 hasTrackPattern *)
Definition has_track (t : track) (b : box) : bool :=
  let low := tp_start t in
  let high := low + tp_space t * (tp_num t - 1) in
  if tp_vert t then negb ((low >? bright b) || (high <? bleft b))
  else negb ((low >? btop b) || (high <? bbottom b)).

(* x % s where s is frUInt4 (frTrackPattern.h): x is converted to unsigned int first *)
Definition umod (x s : Z) : Z := (x mod 2 ^ 32) mod s.

Definition inst_box (i : inst) : box := inst_bbox (u_box E (i_master i)) (i_xf i).

(* FlexPA_init.cpp:157-182: one entry of the offset vector; None: division by zero *)
Definition offset1 (range : Z * Z) (i : inst) (t : track) : option Z :=
  if (tp_layer t >=? fst range) && (tp_layer t <=? snd range) then
    if has_track t (inst_box i) then
      if tp_space t =? 0 then None
      else Some (umod (if tp_vert t then xo (i_xf i) else yo (i_xf i)) (tp_space t))
    else Some (tp_space t)
  else Some (tp_space t).
Fixpoint offsets (range : Z * Z) (i : inst) (ts : list track) : option (list Z) :=
  match ts with
  | [] => Some []
  | t :: r => match offset1 range i t with
              | None => None
              | Some o => match offsets range i r with None => None | Some os => Some (o :: os) end
              end
  end.

(* FlexPA_init.cpp:132-134: the key of an instance: master, orientation, offsets.
   None: the master was left out (dereferencing end()), or a division by zero *)
Definition key_of (i : inst) : option (Z * orient * list Z) :=
  match pin_range (i_master i) with
  | None => None
  | Some rg => match offsets rg i pref_tracks with
               | None => None
               | Some os => Some (i_master i, ori (i_xf i), os)
               end
  end.
Definition key := (Z * orient * list Z)%type.
Definition orient_eq_dec : forall a b : orient, {a = b} + {a <> b}.
Proof. decide equality. Defined.
Definition key_eq_dec : forall a b : key, {a = b} + {a <> b}.
Proof. intros a b. repeat decide equality. Defined.

(* set<frInst*, frBlockObjectComp>::insert *)
Fixpoint set_insert (i : inst) (l : list inst) : list inst :=
  match l with
  | [] => [i]
  | x :: r => if i_id i <? i_id x then i :: l else if i_id i =? i_id x then l else x :: set_insert i r
  end.
(* FlexPA_init.cpp:183: refBlockOT2Insts[master][orient][offset].insert(inst). Simplified: the groups are kept in
   order of appearance, not in the order of the three nested maps (the order only numbers the groups) *)
Fixpoint grp_insert (k : key) (i : inst) (gs : list (key * list inst)) : list (key * list inst) :=
  match gs with
  | [] => [(k, [i])]
  | (k', l) :: r => if key_eq_dec k' k then (k', set_insert i l) :: r else (k', l) :: grp_insert k i r
  end.
(* FlexPA_init.cpp:137-195 *)
Fixpoint groups (is : list inst) (gs : list (key * list inst)) : option (list (key * list inst)) :=
  match is with
  | [] => Some gs
  | i :: r => match key_of i with None => None | Some k => groups r (grp_insert k i gs) end
  end.
(* FlexPA_init.cpp:201-218: uniqueInstances: the first of each group *)
Definition uniques (gs : list (key * list inst)) : list inst :=
  flat_map (fun g => firstn 1 (snd g)) gs.
(* FlexPA_init.cpp:213-215: inst2unique *)
Fixpoint unique_of (gs : list (key * list inst)) (i : inst) : option inst :=
  match gs with
  | [] => None
  | (_, l) :: r => if existsb (fun x => i_id x =? i_id i) l then hd_error l else unique_of r i
  end.

(* FlexPA_init.cpp:248-275 initPinAccess. [cnt p]: getNumPinAccess of pin p. One unique instance: *)
Fixpoint pa_pins (ps : list Z) (cnt : Z -> Z) (idx : option Z) : option ((Z -> Z) * option Z) :=
  match ps with
  | [] => Some (cnt, idx)
  | p :: r =>
      let cnt' := fun q => if q =? p then cnt q + 1 else cnt q in
      match idx with
      | None => pa_pins r cnt' (Some (cnt p))
      | Some k => if k =? cnt p then pa_pins r cnt' idx else None  (* exit(1) *)
      end
  end.
Fixpoint pa_uniques (us : list inst) (cnt : Z -> Z) (acc : list (Z * Z)) : option (list (Z * Z)) :=
  match us with
  | [] => Some acc
  | u :: r => match pa_pins (u_pins E (i_master u)) cnt None with
              | None => None
              | Some (cnt', idx) => pa_uniques r cnt' (acc ++ [(i_id u, match idx with Some k => k | None => 0 end)])
              end
  end.
Fixpoint lookup (l : list (Z * Z)) (k : Z) : option Z :=
  match l with [] => None | (a, b) :: r => if a =? k then Some b else lookup r k end.

(* FlexPA_init.cpp:237-275 initUniqueInstance, initPinAccess: the pin access index of an instance.
   None: undefined behaviour or exit *)
Definition access_index (is : list inst) (i : inst) : option Z :=
  match groups is [] with
  | None => None
  | Some gs => match pa_uniques (uniques gs) (fun _ => 0) [] with
               | None => None
               | Some idx => match unique_of gs i with None => None | Some u => lookup idx (i_id u) end
               end
  end.

(* FlexPA_prep.cpp:1339-1362 revertAccessPoints: the place of an access point of unique instance u, as stored *)
Definition stored_place (u : inst) (p : point) : point :=
  pt_transform p (mkXf (- xo (i_xf u)) (- yo (i_xf u)) R0).
(* src/dr/FlexDR_init.cpp:1370-1390, src/ta/FlexTA_init.cpp:159-170: its place for instance i *)
Definition used_place (i : inst) (q : point) : point := pt_transform q (mkXf (xo (i_xf i)) (yo (i_xf i)) R0).
(* a shape of the master, placed (frInstTerm shapes: getUpdatedXform) *)
Definition placed (i : inst) (r : box) : box :=
  box_transform r (inst_updated_xform (u_box E (i_master i)) (i_xf i) false).

(* FlexPA_prep.cpp:1254-1265 instLocComp *)
Definition loc_lt (a b : inst) : bool :=
  if yo (i_xf a) =? yo (i_xf b) then xo (i_xf a) <? xo (i_xf b) else yo (i_xf a) <? yo (i_xf b).
(* FlexPA_prep.cpp:1270-1295: rows of the sorted instances *)
Fixpoint rows_loop (is : list inst) (prevY prevX : Z) (row : list inst) (rows : list (list inst)) : list (list inst) :=
  match is with
  | [] => match row with [] => rows | _ => rows ++ [row] end
  | i :: r =>
      let brk := negb (yo (i_xf i) =? prevY) || (xo (i_xf i) >? prevX) in
      let rows' := if brk then match row with [] => rows | _ => rows ++ [row] end else rows in
      let row' := if brk then match row with [] => row | _ => [] end else row in
      rows_loop r (yo (i_xf i)) (bright (inst_box i)) (row' ++ [i]) rows'
  end.
Definition rows (is : list inst) : list (list inst) := rows_loop is INT_MIN INT_MIN [] [].
End M.
