(* Track assignment (/repo/src/ta): which track a guide gets, where spacing costs are charged, and
   the re-assignment loop.
   Simplifications common to the file:
   - int and unsigned int are Z (no overflow), std::numeric_limits<frUInt4>::max() is [UMAX];
   - the cost of putting the current guide on a track is an oracle [cost loc] = (total cost,
     violation cost), see FlexTA_assign.cpp:783-799: the code computes it from the cost map, the
     wire length and the pin distance, none of which the track choice changes;
   - the minimum spacing rule of a layer for two fixed widths is an oracle [req prl]
     (TechModel.find1/find2 for the table rules);
   - (frCoord)sqrt(v) is [Z.sqrt v]: exact for v < 2^53, and v is the square of a 32-bit int. *)
From Verif Require Import Base Stl GeomModel.

(* std::numeric_limits<frUInt4>::max() *)
Definition UMAX : Z := 4294967295.

(* the values of i in  for (int i = a; i <= b; i++)  and  for (int i = a; i >= b; i--) *)
Definition up (a b : Z) : list Z := map (fun k => a + Z.of_nat k) (seq 0 (Z.to_nat (b - a + 1))).
Definition down (a b : Z) : list Z := map (fun k => a - Z.of_nat k) (seq 0 (Z.to_nat (a - b + 1))).

(* ta/FlexTA.h:154-157 getTrackIdx *)
Definition getTrackIdx (tracks : list Z) (loc1 loc2 : Z) : Z * Z :=
  (Z.of_nat (lower_bound tracks loc1), Z.of_nat (upper_bound tracks loc2) - 1).

(* ta/FlexTA_assign.cpp:574-596 assignIroute_availTracks: [low], [high] are the bounds, across the
   routing direction, of the gcell of the guide *)
Definition availTracks (tracks : list Z) (low high : Z) : Z * Z := getTrackIdx tracks low (high - 1).

(* --- choosing a track --------------------------------------------------------------------------- *)
Section BestTrack.
  Variable tracks : list Z.
  Variable cost : Z -> Z * Z.
  Variable init : bool.       (* isInitTA(), FlexTA.h:147-149 *)

  (* the reference parameters of assignIroute_bestTrack_helper *)
  Record best := mkBest { bCost : Z; bLoc : Z; bIdx : Z; bDrc : Z }.
  (* FlexTA_assign.cpp:830-833 *)
  Definition best0 : best := mkBest UMAX 0 (-1) 0.

  (* FlexTA_assign.cpp:801-824; None = trackLocs[trackIdx] out of range *)
  Definition helper (i : Z) (s : best) : option best :=
    if (i <? 0) || (Z.of_nat (length tracks) <=? i) then None else
    let loc := nth (Z.to_nat i) tracks 0 in
    let '(currCost, drcCost) := cost loc in
    let c := if init then currCost else drcCost in
    if c <? bCost s then Some (mkBest c loc i drcCost)
    else Some (mkBest (bCost s) (bLoc s) (bIdx s) drcCost).

  (* one of the loops: try the indices of [l] in turn, break when drcCost is 0 *)
  Fixpoint scan (l : list Z) (s : best) : option best :=
    match l with
    | [] => Some s
    | i :: l' =>
      match helper i s with
      | None => None
      | Some s' => if bDrc s' =? 0 then Some s' else scan l' s'
      end
    end.
  (* two loops, the second one under  if (drcCost) *)
  Definition scan2 (l1 l2 : list Z) (s : best) : option best :=
    match scan l1 s with
    | None => None
    | Some s' => if bDrc s' =? 0 then Some s' else scan l2 s'
    end.
  (* FlexTA_assign.cpp:872-889: alternate upwards and downwards from [start] *)
  Definition try_in (idx1 idx2 i : Z) (s : best) : option best :=
    if (i >=? idx1) && (i <=? idx2) then helper i s else Some s.
  Fixpoint zigzag (idx1 idx2 start : Z) (l : list Z) (s : best) : option best :=
    match l with
    | [] => Some s
    | i :: l' =>
      match try_in idx1 idx2 (start + i) s with
      | None => None
      | Some s' =>
        if bDrc s' =? 0 then Some s' else
        match try_in idx1 idx2 (start - i - 1) s' with
        | None => None
        | Some s'' => if bDrc s'' =? 0 then Some s'' else zigzag idx1 idx2 start l' s''
        end
      end
    end.

  (* outcome: the chosen location and index and the cost stored in the guide (:963-967); the error
     exit (:948-961); an out-of-range read *)
  Inductive choice := Chosen (loc idx stored : Z) | NoTrack | OutOfRange.

  (* FlexTA_assign.cpp:826-968.  [wlen] is getWlenHelper(), [wlen2] getWlenHelper2() if present *)
  Definition bestTrack (wlen : Z) (wlen2 : option Z) (idx1 idx2 : Z) : choice :=
    let r :=
      match wlen2 with
      | Some coord =>
        let start := Z.max (Z.min (Z.of_nat (lower_bound tracks coord)) idx2) idx1 in
        if wlen >? 0 then scan2 (up start idx2) (down (start - 1) idx1) best0
        else if wlen =? 0 then zigzag idx1 idx2 start (up 0 (idx2 - idx1)) best0
        else scan2 (down start idx1) (up (start + 1) idx2) best0
      | None =>
        if wlen >? 0 then scan (down idx2 idx1) best0
        else if wlen =? 0 then
          let mid := Z.quot (idx1 + idx2) 2 in
          scan2 (up mid idx2) (down (mid - 1) idx1) best0
        else scan (up idx1 idx2) best0
      end in
    match r with
    | None => OutOfRange
    | Some s => if bIdx s =? -1 then NoTrack else Chosen (bLoc s) (bIdx s) (bDrc s)
    end.
End BestTrack.

(* --- where spacing costs are charged --------------------------------------------------------- *)
(* the bound computed from the square root and the exactness correction,
   e.g. FlexTA_assign.cpp:92-95; None = square root of a negative number (the conversion to int is
   then undefined) *)
Definition maxX_of (req d : Z) : option Z :=
  if req * req - d * d <? 0 then None else
  let m := Z.sqrt (req * req - d * d) in
  Some (if m * m + d * d =? req * req then Z.max 0 (m - 1) else m).

(* the track locations trackLocs[idx1..idx2] *)
Definition tracks_between (tracks : list Z) (p : Z * Z) : list Z :=
  map (fun i => nth (Z.to_nat i) tracks 0) (up (fst p) (snd p)).

(* FlexTA_assign.cpp:87-104: the loop over the tracks; [box2] is declared outside the loop and
   transformed in place, so the offsets of all earlier iterations stay in it *)
Fixpoint planar_loop (isH : bool) (b1 : box) (bloat hw : Z) (locs : list Z) (box2 : box)
  : option (list box) :=
  match locs with
  | [] => Some []
  | loc :: rest =>
    let box2' := box_transform box2 (mkXf (bleft b1) loc R0) in
    match maxX_of bloat (box2boxDy b1 box2') with
    | None => None
    | Some m =>
      let bl := bleft b1 - m - hw in
      let br := bright b1 + m + hw in
      let charged := if isH then box_set bl loc br loc else box_set loc bl loc br in
      match planar_loop isH b1 bloat hw rest box2' with
      | None => None
      | Some r => Some (charged :: r)
      end
    end
  end.
(* FlexTA_assign.cpp:42-131 modMinSpacingCostPlanar: the boxes handed to addCost / removeCost.
   [hw] is half the layer width; [req] the rule at the two widths *)
Definition planar_charges (isH : bool) (req : Z -> Z) (hw : Z) (tracks : list Z) (b : box)
  : option (list box) :=
  let bloat := req (box_length b) in
  let low := if isH then bbottom b else bleft b in
  let high := if isH then btop b else bright b in
  let left := if isH then bleft b else bbottom b in
  let right := if isH then bright b else btop b in
  let b1 := box_set left low right high in
  let locs := tracks_between tracks
                (getTrackIdx tracks (low - bloat - hw + 1) (high + bloat + hw - 1)) in
  planar_loop isH b1 bloat hw locs (box_set (- hw) (- hw) hw hw).

(* FlexTA_assign.cpp:218-246: the parallel run length assumed for one track; [d] is the distance
   across the track direction *)
Definition via_prl (isH isCurrPs : bool) (d : Z) (b viaBox : box) : Z :=
  let ext_x := if isCurrPs then bright viaBox - bleft viaBox
               else Z.min (bright b - bleft b) (bright viaBox - bleft viaBox) in
  let ext_y := if isCurrPs then btop viaBox - bbottom viaBox
               else Z.min (btop b - bbottom b) (btop viaBox - bbottom viaBox) in
  if isH then (if d >? 0 then ext_x else ext_y) else (if d >? 0 then ext_y else ext_x).
(* FlexTA_assign.cpp:207-279: one track *)
Definition via_charge (isH isCurrPs : bool) (req : Z -> Z) (b viaBox : box) (loc : Z)
  : option (list box) :=
  let tmp := box_transform viaBox (if isH then mkXf (bleft b) loc R0 else mkXf loc (bbottom b) R0) in
  let d := if isH then box2boxDy b tmp else box2boxDx b tmp in
  let reqDist := req (via_prl isH isCurrPs d b viaBox) in
  if d >=? reqDist then Some [] else
  match maxX_of reqDist d with
  | None => None
  | Some m =>
    Some [ if isH then box_set (bleft b - m - bright viaBox) loc (bright b + m - bleft viaBox) loc
           else box_set loc (bbottom b - m - btop viaBox) loc (btop b + m - bbottom viaBox) ]
  end.
Fixpoint opt_concat {A} (l : list (option (list A))) : option (list A) :=
  match l with
  | [] => Some []
  | None :: _ => None
  | Some x :: l' => match opt_concat l' with None => None | Some r => Some (x ++ r) end
  end.
(* FlexTA_assign.cpp:134-324 modMinSpacingCostVia, after the via and the track layer are known *)
Definition via_charges (isH isCurrPs : bool) (req : Z -> Z) (tracks : list Z) (b viaBox : box)
  : option (list box) :=
  let bloat := req (if isCurrPs then box_length viaBox else Z.min (box_length b) (box_length viaBox)) in
  let p := if isH then getTrackIdx tracks (bbottom b - bloat - btop viaBox + 1)
                                          (btop b + bloat - bbottom viaBox - 1)
           else getTrackIdx tracks (bleft b - bloat - bright viaBox + 1)
                                   (bright b + bloat - bleft viaBox - 1) in
  opt_concat (map (via_charge isH isCurrPs req b viaBox) (tracks_between tracks p)).

(* --- the cost map --------------------------------------------------------------------------------
   FlexTA_rq.cpp:114-120 addCost / removeCost: a boost r-tree of values is a multiset; remove takes
   out one equal value if there is one *)
Section CostMap.
  Variable V : Type.
  Variable eqb : V -> V -> bool.
  Definition rq_add (v : V) (m : list V) : list V := v :: m.
  Fixpoint rq_remove (v : V) (m : list V) : list V :=
    match m with
    | [] => []
    | x :: m' => if eqb v x then m' else x :: rq_remove v m'
    end.
  (* FlexTA_assign.cpp:520-572 addCost / subCost over all shapes of a guide: the same values *)
  Definition add_all (vs m : list V) : list V := fold_left (fun m v => rq_add v m) vs m.
  Definition sub_all (vs m : list V) : list V := fold_left (fun m v => rq_remove v m) vs m.
End CostMap.

(* --- the re-assignment loop ----------------------------------------------------------------------
   Guides are numbered (taPin ids); [W] is the rest of the worker (shapes, cost map). *)
Section Assign.
  Variable W : Type.
  (* assignIroute (FlexTA_assign.cpp:1063-1102) without the bookkeeping below: rip the guide up,
     choose a track, put it back; result: new state, stored cost, and the guides found by the
     queries (pinS) with their recomputed violation costs, in the order of pinS *)
  Variable place : W -> nat -> W * Z * list (nat * Z).
  Variable init : bool.
  Variable maxRetry : Z.      (* 1, FlexTA.h:90 *)

  Record tstate := mkT {
    tW : W;
    tCost : nat -> Z;         (* taPin::cost *)
    tNum : nat -> Z;          (* taPin::numAssigned *)
    tQueue : list nat;        (* reassignIroutes: a set *)
    tBuf : list (option nat); (* buffers *)
    tBufIdx : nat;            (* currBufferIdx *)
    tLog : list nat           (* ghost: the guides assigned so far, latest first *)
  }.
  Definition upd (f : nat -> Z) (i : nat) (v : Z) : nat -> Z := fun j => if Nat.eqb j i then v else f j.

  (* taPin.h:93-99 operator<: larger cost first, then smaller id *)
  Definition pin_lt (c : nat -> Z) (a b : nat) : bool :=
    if negb (c a =? c b) then c a >? c b else Nat.ltb a b.
  (* FlexTA.h:113-115 insert into the set *)
  Definition q_add (i : nat) (q : list nat) : list nat := if existsb (Nat.eqb i) q then q else i :: q.
  (* FlexTA.h:116-121 *)
  Definition q_remove (i : nat) (q : list nat) : list nat := filter (fun j => negb (Nat.eqb j i)) q.
  (* FlexTA.h:122-129: *begin() is the least element *)
  Fixpoint q_min (c : nat -> Z) (q : list nat) : option nat :=
    match q with
    | [] => None
    | i :: q' => match q_min c q' with
                 | None => Some i
                 | Some j => if pin_lt c j i then Some j else Some i
                 end
    end.

  (* FlexTA_assign.cpp:1022-1061 assignIroute_updateOthers *)
  Definition update_other (s : tstate) (p : nat * Z) : tstate :=
    let '(i, drc) := p in
    let q := q_remove i (tQueue s) in
    let q := if negb (drc =? 0) && (tNum s i <? maxRetry) then q_add i q else q in
    mkT (tW s) (upd (tCost s) i drc) (tNum s) q (tBuf s) (tBufIdx s) (tLog s).
  Definition update_others (s : tstate) (l : list (nat * Z)) : tstate :=
    if init then s else fold_left update_other l s.

  (* FlexTA_assign.cpp:1063-1102 assignIroute, with the cost stored by bestTrack (:964) and
     addNumAssigned (:1007) *)
  Definition assignIroute (s : tstate) (i : nat) : tstate :=
    let '(w, stored, others) := place (tW s) i in
    update_others (mkT w (upd (tCost s) i stored) (upd (tNum s) i (tNum s i + 1))
                       (tQueue s) (tBuf s) (tBufIdx s) (i :: tLog s)) others.

  Fixpoint set_nth {A} (n : nat) (v : A) (l : list A) : list A :=
    match l, n with
    | [], _ => []
    | _ :: l', O => v :: l'
    | x :: l', S n' => x :: set_nth n' v l'
    end.

  (* FlexTA_assign.cpp:1117-1138: one turn of the loop for the popped guide [i] *)
  Definition turn (s : tstate) (i : nat) : tstate :=
    let s := mkT (tW s) (tCost s) (tNum s) (q_remove i (tQueue s)) (tBuf s) (tBufIdx s) (tLog s) in
    if existsb (fun b => match b with Some j => Nat.eqb j i | None => false end) (tBuf s)
       || (tNum s i >=? maxRetry) then s
    else
      let s := assignIroute s i in
      mkT (tW s) (tCost s) (tNum s) (tQueue s) (set_nth (tBufIdx s) (Some i) (tBuf s))
          (Nat.modulo (tBufIdx s + 1) 20) (tLog s).
  (* the loop; None = out of fuel *)
  Fixpoint assign_loop (fuel : nat) (s : tstate) : option tstate :=
    match q_min (tCost s) (tQueue s) with
    | None => Some s
    | Some i => match fuel with O => None | S f => assign_loop f (turn s i) end
    end.

  (* FlexTA_init.cpp:614-626 sortIroutes *)
  Definition sortIroutes (c : nat -> Z) (iroutes : list nat) : list nat :=
    fold_left (fun q i => if init || negb (c i =? 0) then q_add i q else q) iroutes [].
  (* FlexTA_assign.cpp:1104-1139 assign (taIter >= 0); a new worker has numAssigned 0 everywhere *)
  Definition assign (fuel : nat) (w : W) (c : nat -> Z) (iroutes : list nat) : option tstate :=
    assign_loop fuel (mkT w c (fun _ => 0) (sortIroutes c iroutes) (repeat None 20) O []).
End Assign.
