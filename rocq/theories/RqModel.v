(* The index of routed shapes and violations of the design (src/frRegionQuery.cpp: initDRObj 592-612, addDRObj 72-84,
   186-191, removeDRObj 124-135, 200-205, addMarker 86-92, removeMarker 137-143, queryDRObj 347-371, queryMarker 373-390)
   and what is done to it at the end of a clip (src/dr/FlexDR_end.cpp) and in the connectivity clean-up
   (src/dr/FlexDR_conn.cpp:535-800 final, 972-1010 merge_commit, 1012-1023 addMarker, 1026-1165 checkConnectivity).
   A pointer is a number.  Using a pointer to a deleted object is the outcome None.  How pieces are cut and joined is
   ClipModel; what the clean-up decides to do is given (ConnModel, TreeModel). *)
From Verif Require Import Base GeomModel ClipModel.
From Coq Require Import List.
Open Scope list_scope.

(* boost::geometry::index::intersects for boxes *)
Definition touch (a q : box) : bool :=
  (bleft a <=? bright q) && (bleft q <=? bright a) && (bbottom a <=? btop q) && (bbottom q <=? btop a).
Definition box_eqb (a c : box) : bool := pt_eq (ll a) (ll c) && pt_eq (ur a) (ur c).

(* ---- objects with an index: payload T, layer and box of a payload ---- *)
Section Store.
Variable T : Type.
Variable entry : T -> Z * box.
Definition ient : Type := Z * box * nat.
Definition ient_eqb (a c : ient) : bool := (fst (fst a) =? fst (fst c)) && box_eqb (snd (fst a)) (snd (fst c)) && Nat.eqb (snd a) (snd c).
Record store := mkS { s_db : list (nat * T); s_ix : list ient }.
Definition fresh (s : store) : nat := S (fold_right Nat.max O (map fst (s_db s))).
Definition look (i : nat) (s : store) : option T := option_map snd (find (fun o => Nat.eqb (fst o) i) (s_db s)).
(* rtree::remove takes away one equal value *)
Fixpoint ix_remove (e : ient) (ix : list ient) : list ient :=
  match ix with [] => [] | x :: r => if ient_eqb x e then r else x :: ix_remove e r end.
(* a new object put in the design and in the index *)
Definition add (t : T) (s : store) : store := let i := fresh s in mkS (s_db s ++ [(i, t)]) (s_ix s ++ [(entry t, i)]).
(* taken out of the index and of the design *)
Definition del (i : nat) (s : store) : option store :=
  match look i s with
  | None => None
  | Some t => Some (mkS (filter (fun o => negb (Nat.eqb (fst o) i)) (s_db s)) (ix_remove (entry t, i) (s_ix s)))
  end.
(* taken out of the index, changed, put in again *)
Definition change (i : nat) (f : T -> T) (s : store) : option store :=
  match look i s with
  | None => None
  | Some t => Some (mkS (map (fun o => if Nat.eqb (fst o) i then (i, f t) else o) (s_db s)) (ix_remove (entry t, i) (s_ix s) ++ [(entry (f t), i)]))
  end.
(* the order in which a query delivers *)
Variable ord : list ient -> list ient.
Definition query_all (q : box) (s : store) : list nat := map snd (ord (filter (fun e => touch (snd (fst e)) q) (s_ix s))).
Definition query (l : Z) (q : box) (s : store) : list nat := map snd (ord (filter (fun e => (fst (fst e) =? l) && touch (snd (fst e)) q) (s_ix s))).
End Store.

(* run a step for each element; None is passed on *)
Definition each {A S} (f : A -> S -> option S) (l : list A) (s : S) : option S :=
  fold_left (fun o a => match o with Some s => f a s | None => None end) l (Some s).

Section Rq.
Variable lw : Z -> Z.                                                 (* frLayer::getWidth *)
Variable pin_at : Z -> point -> Z -> bool.                            (* 322-340 *)
Variable manuGrid : Z.
Variable vbox vbox1 : Z -> box.                                       (* box of all / of the layer-1 figures of a via definition *)
Variable vcut : Z -> Z.                                               (* its cut layer *)
Variable ord : list ient -> list ient.

(* payload of routed objects: net and figure; of markers: layer and box (constraint and sources are not modelled) *)
Definition robj : Type := Z * fig.
Definition entry_of (t : robj) : Z * box :=
  match snd t with
  | FSeg w => (wl w, seg_box w)
  | FVia o _ _ d => (vcut d, box_transform (vbox d) (mkXf (px o) (py o) R0))
  | FPatch o l off => (l, box_transform off (mkXf (px o) (py o) R0))
  end.
Definition mobj : Type := Z * box.
Definition mentry (m : mobj) : Z * box := m.

(* FlexDR_end.cpp:66-70, 139-141, 199-241: whether endRemoveNets takes the figure out of the design *)
Definition taken (isInit : bool) (b : box) (f : fig) : bool :=
  match f with
  | FSeg w =>
    let bp := wb w in let ep := we w in
    if px bp =? px ep then (bleft b <=? px bp) && (if isInit then px bp <? bright b else px bp <=? bright b) && negb ((py bp >? btop b) || (py ep <? bbottom b))
    else if py bp =? py ep then (bbottom b <=? py bp) && (if isInit then py bp <? btop b else py bp <=? btop b) && negb ((px bp >? bright b) || (px ep <? bleft b))
    else false
  | FVia o _ _ _ => origin_in isInit b o
  | FPatch o _ _ => origin_in isInit b o
  end.
(* 243-284: one object found; boundary points are collected with the net *)
Definition wstate : Type := store robj * list (Z * (point * Z)).
Definition end_remove (isInit : bool) (b : box) (subs : list subnet) (i : nat) (st : wstate) : option wstate :=
  match look robj i (fst st) with
  | None => None
  | Some (n, f) =>
    if mod_net subs n && taken isInit b f then
      let r := remove_fig isInit b lw f in
      match del robj entry_of i (fold_left (fun s g => add robj entry_of (n, g) s) (fst r) (fst st)) with
      | None => None
      | Some s => Some (s, snd st ++ map (fun p => (n, p)) (snd r))
      end
    else Some st
  end.
(* 285-306 and 437-471 *)
Definition end_add (subs : list subnet) (s : store robj) : store robj :=
  fold_left (fun s t => add robj entry_of t s) (added subs) s.
(* 313-435: one boundary point of a net *)
Fixpoint look_all (is : list nat) (s : store robj) : option (list (nat * robj)) :=
  match is with
  | [] => Some []
  | i :: r => match look robj i s, look_all r s with Some t, Some ts => Some ((i, t) :: ts) | _, _ => None end
  end.
Definition join_two (n : Z) (joinf : wire -> wire -> wire) (a c : nat * robj) (s : store robj) : option (store robj) :=
  match snd (snd a), snd (snd c) with
  | FSeg wa, FSeg wc =>
    match del robj entry_of (fst a) s with
    | None => None
    | Some s => match del robj entry_of (fst c) s with None => None | Some s => Some (add robj entry_of (n, FSeg (joinf wa wc)) s) end
    end
  | _, _ => None
  end.
Definition end_merge (n : Z) (pl : point * Z) (s : store robj) : option (store robj) :=
  let '(p, l) := pl in
  if skip_pt pin_at manuGrid n p l then Some s
  else match look_all (query robj ord l (mkBox p p) s) s with
  | None => None
  | Some os =>
    let mine := filter (fun o => fst (snd o) =? n) os in
    let ends := filter (fun o => match snd (snd o) with FSeg w => pt_eq (wb w) p || pt_eq (we w) p | _ => false end) mine in
    let patch := existsb (fun o => match snd (snd o) with FPatch o _ _ => pt_eq o p | _ => false end) mine in
    let vert := filter (fun o => is_vert (snd (snd o))) ends in
    let horz := filter (fun o => negb (is_vert (snd (snd o)))) ends in
    match horz, vert, patch with
    | [a; c], [], false => join_two n join_h a c s
    | [], [a; c], false => join_two n join_v a c s
    | _, _, _ => Some s
    end
  end.
Definition end_merges (bp : list (Z * (point * Z))) (s : store robj) : option (store robj) :=
  each (fun n s => each (end_merge n) (fold_left (fun t a => bp_ins a t) (map snd (filter (fun x => fst x =? n) bp)) []) s)
       (nodup Z.eq_dec (map fst bp)) s.
(* 473-499 *)
Definition end_markers (drcBox : box) (best : list mobj) (s : store mobj) : option (store mobj) :=
  match each (del mobj mentry) (query_all mobj ord drcBox s) s with
  | None => None
  | Some s => Some (fold_left (fun s m => add mobj mentry m s) (filter (fun m => box_overlaps drcBox (snd m) true) best) s)
  end.

(* the design: routed objects, markers, the nets with the flag modified *)
Record design := mkD { d_rt : store robj; d_mk : store mobj; d_mod : list Z }.
(* 535-543 end(), of a clip that is written back if [write] (ClipModel.writes); rerouting a net in a clip sets the
   flags of the drNet and of its net, written back or not (FlexDR_maze.cpp:1614-1616, 2124-2126) *)
Record clip := mkC { c_write : bool; c_init : bool; c_drc : bool; c_route : box; c_drcBox : box; c_subs : list subnet; c_best : list mobj }.
Definition clip_end (c : clip) (d : design) : option design :=
  let md := map sn_net (filter sn_mod (c_subs c)) ++ d_mod d in
  if negb (c_write c) then Some (mkD (d_rt d) (d_mk d) md)
  else match each (end_remove (c_init c) (c_route c) (c_subs c)) (query_all robj ord (c_route c) (d_rt d)) (d_rt d, []) with
  | None => None
  | Some (s, bp) =>
    match end_merges bp (end_add (c_subs c) s) with
    | None => None
    | Some s => if c_drc c then option_map (fun m => mkD s m md) (end_markers (c_drcBox c) (c_best c) (d_mk d)) else Some (mkD s (d_mk d) md)
    end
  end.

(* the clean-up of a net: objects deleted, with a marker or not; wires set to new ends, with a marker or not; a wire
   split at a point *)
Inductive edit := KDel (mark : bool) (i : nat) | KEnds (mark : bool) (i : nat) (p q : point) | KSplit (i : nat) (p : point).
Definition mark_of (f : fig) : mobj :=
  match f with
  | FSeg w => (wl w, seg_box w)
  | FVia o l1 _ d => (l1, box_transform (vbox1 d) (mkXf (px o) (py o) R0))
  | FPatch o l off => (l, box_transform off (mkXf (px o) (py o) R0))
  end.
Definition set_ends (p q : point) (t : robj) : robj := match snd t with FSeg w => (fst t, FSeg (mkW (wl w) p q (ws w))) | _ => t end.
Definition split_lo (p : point) (t : robj) : robj := match snd t with FSeg w => (fst t, FSeg (mkW (wl w) (wb w) p (set_end (ws w) StTruncate 0))) | _ => t end.
Definition split_hi (p : point) (t : robj) : robj := match snd t with FSeg w => (fst t, FSeg (mkW (wl w) p (we w) (set_begin (ws w) StTruncate 0))) | _ => t end.
Definition edit_run (n : Z) (e : edit) (d : design) : option design :=
  let i := match e with KDel _ i => i | KEnds _ i _ _ => i | KSplit i _ => i end in
  let mark := match e with KDel m _ => m | KEnds m _ _ _ => m | KSplit _ _ => false end in
  match look robj i (d_rt d) with
  | None => None
  | Some t =>
    if negb (fst t =? n) then None
    else
      let mk := if mark then add mobj mentry (mark_of (snd t)) (d_mk d) else d_mk d in
      option_map (fun s => mkD s mk (d_mod d))
        (match e with
         | KDel _ _ => del robj entry_of i (d_rt d)
         | KEnds _ _ p q => change robj entry_of i (set_ends p q) (d_rt d)
         | KSplit _ p => option_map (add robj entry_of (split_hi p t)) (change robj entry_of i (split_lo p) (d_rt d))
         end)
  end.
(* checkConnectivity: only nets with the flag, which is taken back.  [edits]: what the clean-up of a net does *)
Definition check_run (nets : list Z) (edits : Z -> list edit) (d : design) : option design :=
  let todo := filter (fun n => existsb (Z.eqb n) (d_mod d)) nets in
  option_map (fun d' => mkD (d_rt d') (d_mk d') (filter (fun n => negb (existsb (Z.eqb n) nets)) (d_mod d)))
    (each (fun n => each (edit_run n) (edits n)) todo d).

Inductive event := EClip (c : clip) | ECheck (edits : Z -> list edit).
Variable nets : list Z.                                               (* the nets of the design *)
Definition event_run (e : event) (d : design) : option design :=
  match e with EClip c => clip_end c d | ECheck edits => check_run nets edits d end.
Definition history (es : list event) (d : design) : option design := each event_run es d.

(* initDRObj: wires and vias of all nets *)
Definition init_ix (db : list (nat * robj)) : store robj :=
  mkS robj db (flat_map (fun o => match snd (snd o) with FPatch _ _ _ => [] | _ => [(entry_of (snd o), fst o)] end) db).
End Rq.
