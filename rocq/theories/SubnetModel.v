(* Splitting a net's routing inside a clip into sub-nets: FlexDRWorker::initNets_searchRepair and its
   helpers (src/dr/FlexDR_init.cpp:436-864).
   The region query is a parameter [pins_at], as in ConnModel: the ids of the net's own terms and instance
   terms whose shapes contain a point on a layer (the filter on getNet(), 446-475, is part of it).
   std::map and std::set are represented as in ConnModel.  The order of std::priority_queue is a function
   [pick] of the step and the queue.  Not modelled: initNet (building the drNet from its parts). *)
From Verif Require Import Base GeomModel MazeModel TreeModel ConnModel.

(* drPathSeg and drVia (as in ConnModel), drPatchWire: origin and layer *)
Inductive dfig := DFig (o : robj) | DPatch (p : point) (l : Z).

Section Pins.
Variable pins_at : point -> Z -> list Z.
Variable routeBox : box.
(* 478-550 initNets_searchRepair_pin2epMap: one object; the helper (436-476) is pin2epMap_helper *)
Definition sub_pin (m : p2e) (d : dfig) : p2e :=
  match d with
  | DFig (RSeg bp ep l tb te) =>
    let m := if tb && box_contains_pt routeBox bp true then pin2epMap_helper pins_at bp l m else m in
    if te && box_contains_pt routeBox ep true then pin2epMap_helper pins_at ep l m else m
  | DFig (RVia p l1 l2) =>
    if box_contains_pt routeBox p true
    then pin2epMap_helper pins_at p l2 (pin2epMap_helper pins_at p l1 m)
    else m
  | DPatch _ _ => m
  end.
Definition sub_pin2ep (objs : list dfig) : p2e := fold_left sub_pin objs [].
End Pins.

(* 552-593 initNets_searchRepair_nodeMap_routeObjEnd: one object *)
Definition sub_end (m : nmap) (x : nat * dfig) : nmap :=
  match snd x with
  | DFig (RSeg bp ep l _ _) => nm_ins (ep, l) (fst x) (nm_ins (bp, l) (fst x) m)
  | DFig (RVia o l1 l2) => nm_ins (o, l2) (fst x) (nm_ins (o, l1) (fst x) m)
  | DPatch p l => nm_ins (p, l) (fst x) m
  end.
Definition sub_objEnd (objs : list dfig) (m : nmap) : nmap := fold_left sub_end (numbered objs) m.
(* 618-632: the two helper maps *)
Definition sub_fill (st : mhelp * mhelp) (x : nat * dfig) : mhelp * mhelp :=
  let '(hz, vt) := st in
  match snd x with
  | DFig (RSeg bp ep l _ _) =>
    if px bp =? px ep then (hz, mh_set (l, px bp, py ep) (py bp, fst x) vt)
    else (mh_set (l, py bp, px ep) (px bp, fst x) hz, vt)
  | _ => st
  end.
(* 633-692; the helper (595-611) is split_helper *)
Definition sub_split (hz vt : mhelp) (m : nmap) (d : dfig) : nmap :=
  match d with
  | DFig (RSeg bp ep l _ _) =>
    if px bp =? px ep
    then split_helper ep (py ep) (px ep) l hz (split_helper bp (py bp) (px bp) l hz m)
    else split_helper ep (px ep) (py ep) l vt (split_helper bp (px bp) (py bp) l vt m)
  | DFig (RVia p l1 l2) =>
    let m := split_helper p (px p) (py p) l1 vt (split_helper p (py p) (px p) l1 hz m) in
    split_helper p (px p) (py p) l2 vt (split_helper p (py p) (px p) l2 hz m)
  | DPatch _ _ => m
  end.
Definition sub_objSplit (objs : list dfig) (m : nmap) : nmap :=
  let '(hz, vt) := fold_left sub_fill (numbered objs) ([], []) in
  fold_left (sub_split hz vt) objs m.
(* 717-727 initNets_searchRepair_nodeMap; 695-715 initNets_searchRepair_nodeMap_pin is nm_pins *)
Definition sub_nodeMap (objs : list dfig) (pins : p2e) : nmap :=
  nm_pins (length objs) pins (sub_objSplit objs (sub_objEnd objs [])).

(* ---- 729-801 initNets_searchRepair_connComp *)
Section Comp.
Variable adj : nat -> list nat.     (* adjVec, 735-751: ConnModel.adjVec *)
Variable nCnt : nat.
Variable pick : nat -> list (nat * Z) -> nat.
(* 774-791 the loop over the queue; entries are (nodeIdx, cost).  None: out of fuel *)
Fixpoint comp_bfs (fuel : nat) (lab : nat) (vis : nat -> bool) (comp : nat -> nat) (q : list (nat * Z)) {struct fuel}
    : option ((nat -> bool) * (nat -> nat)) :=
  match fuel with
  | O => None
  | S fuel =>
    match pop_nth (pick fuel q) q with
    | None => Some (vis, comp)
    | Some ((u, c), q) =>
      if vis u then comp_bfs fuel lab vis comp q
      else
        let vis' := upd vis u true in
        comp_bfs fuel lab vis' (upd comp u lab) (q ++ map (fun b => (b, c + 1)) (filter (fun b => negb (vis' b)) (adj u)))
    end
  end.
(* 765-797 the loop over the unvisited nodes: [n] bounds its turns, [fuel] those of the queue loop *)
Fixpoint comp_loop (fuel n : nat) (lab : nat) (vis : nat -> bool) (comp : nat -> nat) {struct n} : option (nat -> nat) :=
  match find (fun i => negb (vis i)) (seq 0 nCnt) with
  | None => Some comp
  | Some s =>
    match n with
    | O => None
    | S n =>
      match comp_bfs fuel lab vis comp [(s, 0)] with
      | None => None
      | Some (vis', comp') => comp_loop fuel n (S lab) vis' comp'
      end
    end
  end.
Definition connComp (fuel : nat) : option (nat -> nat) := comp_loop fuel nCnt 0 (fun _ => false) (fun _ => 0%nat).
End Comp.

(* ---- 803-864 initNets_searchRepair for one net: the objects, the objects outside and the pins of every
   sub-net; [ext] are the net's objects outside the clip (netExtObjs) *)
Record subnet := mkSub { sn_route : list dfig; sn_ext : list dfig; sn_pins : list Z }.
(* 837-856: an object goes to vRouteObjs or to vExtObjs *)
Definition goes_in (routeBox : box) (d : dfig) : bool :=
  match d with
  | DFig (RSeg bp ep _ _ _) => box_contains_pt routeBox bp true && box_contains_pt routeBox ep true
  | _ => true
  end.
(* max_element (826), 0 for no element *)
Definition max_label (comp : nat -> nat) (n : nat) : nat := fold_right Nat.max 0%nat (map comp (seq 0 n)).
Definition sub_of (routeBox : box) (objs ext : list dfig) (pins : list Z) (comp : nat -> nat) (s : nat) : subnet :=
  let mine {A} (off : nat) (l : list A) : list A :=
    map snd (filter (fun x => Nat.eqb (comp (off + fst x)%nat) s) (numbered l)) in
  mkSub (filter (goes_in routeBox) (mine 0%nat objs))
        ((if Nat.eqb s 0 then ext else []) ++ filter (fun d => negb (goes_in routeBox d)) (mine 0%nat objs))
        (mine (length objs) pins).
Definition initNets (pins_at : point -> Z -> list Z) (routeBox : box) (pick : nat -> list (nat * Z) -> nat) (fuel : nat)
    (objs ext : list dfig) : option (list subnet) :=
  let p2e := sub_pin2ep pins_at routeBox objs in
  let nCnt := (length p2e + length objs)%nat in
  match connComp (adjVec (sub_nodeMap objs p2e)) nCnt pick fuel with
  | None => None
  | Some comp => Some (map (sub_of routeBox objs ext (map fst p2e) comp) (seq 0 (S (max_label comp nCnt))))
  end.
