(* What the design rule checker of a clip works on: set-up from the design and the clip, and its incremental update
   (src/gc/FlexGC_init.cpp, FlexGC_rq.cpp, FlexGC_main.cpp:3703-3724 main, db/gcObj/gcNet.h; its use in
   src/dr/FlexDR_maze.cpp:2039-2097 route_queue and 2103-2256 route_queue_main).
   A polygon set of boost is the list of the rectangles added to it.  Merging them and finding edges, corners and
   maximal rectangles (initNet) is a parameter [mkpins], a function of these lists.  Checks and markers are not
   modelled here. *)
From Verif Require Import Base GeomModel FmModel.
From Coq Require Import List.
Open Scope list_scope.

(* objects found in the design; [net]: None without a net.  Terms have USE POWER, GROUND or another *)
Inductive pgtype := TPower | TGround | TOther.
Inductive gobj :=
| XTerm (t : Z) (net : option Z) (ty : pgtype) | XInstTerm (i t : Z) (net : option Z) (ty : pgtype)
| XBlk (b : Z) | XInstBlk (i b : Z) | XShape (net : option Z).
(* owner of a gcNet; GVss, GVdd: the nets made for floating supply pins *)
Inductive gowner := GNet (n : Z) | GTerm (t : Z) | GInstTerm (i t : Z) | GBlk (b : Z) | GInstBlk (i b : Z) | GVss | GVdd.
Definition own_dec (a b : gowner) : {a = b} + {a <> b}.
Proof. decide equality; apply Z.eq_dec. Defined.
Definition own_eqb (a b : gowner) : bool := if own_dec a b then true else false.
(* wires, vias and patches of the clip (drPathSeg, drVia, drPatchWire) *)
Inductive wfig := WSeg (l : Z) (b e : point) (w be ee : Z) | WVia (v : svia) | WPatch (l : Z) (o : point) (b : box).
(* drNet: the net it belongs to, figures outside and inside *)
Record wnet := mkWN { wn_net : Z; wn_ext : list wfig; wn_route : list wfig }.
(* targetObj *)
Inductive target := TgInst (i : Z) | TgTerm (t : Z).

Section Gi.
Variable P : Type.                                                    (* gcPin with its edges, corners, rectangles *)
Variable mkpins : list (Z * box) -> list (Z * box) -> list (Z * box) -> list (Z * box) -> list P.
Variable isCut : Z -> bool.                                           (* the layer has type CUT *)

(* gcNet.h: owner; fixed and routed polygons; fixed and routed rectangles of cuts; pins *)
Record gnet := mkGN { gn_own : gowner; gn_fp : list (Z * box); gn_rp : list (Z * box); gn_fr : list (Z * box); gn_rr : list (Z * box); gn_pins : list P }.
Definition new_net (o : gowner) : gnet := mkGN o [] [] [] [] [].
(* owner2nets[o] *)
Fixpoint upd (o : gowner) (f : gnet -> gnet) (ns : list gnet) : list gnet :=
  match ns with [] => [] | n :: r => if own_eqb (gn_own n) o then f n :: r else n :: upd o f r end.
Definition has (o : gowner) (ns : list gnet) : bool := existsb (fun n => own_eqb (gn_own n) o) ns.
Definition ensure (o : gowner) (ns : list gnet) : list gnet := if has o ns then ns else ns ++ [new_net o].
(* gcNet.h:44-60 addPolygon, addRectangle *)
Definition add_rect (fixed cut : bool) (l : Z) (b : box) (n : gnet) : gnet :=
  mkGN (gn_own n)
       (if fixed && negb cut then gn_fp n ++ [(l, b)] else gn_fp n) (if negb fixed && negb cut then gn_rp n ++ [(l, b)] else gn_rp n)
       (if fixed && cut then gn_fr n ++ [(l, b)] else gn_fr n) (if negb fixed && cut then gn_rr n ++ [(l, b)] else gn_rr n) (gn_pins n).
(* 38-103 getNet: the owner; None: exit.  nets[0] and nets[1] are the nets with the owners GVss and GVdd. *)
Definition owner_of (x : gobj) : option gowner :=
  match x with
  | XTerm t net ty => Some (match net with Some n => GNet n | None => match ty with TPower => GVdd | TGround => GVss | TOther => GTerm t end end)
  | XInstTerm i t net ty => Some (match net with Some n => GNet n | None => match ty with TPower => GVdd | TGround => GVss | TOther => GInstTerm i t end end)
  | XBlk b => Some (GBlk b)
  | XInstBlk i b => Some (GInstBlk i b)
  | XShape (Some n) => Some (GNet n)
  | XShape None => None
  end.
(* 105-112 initObj *)
Definition init_obj (fixed : bool) (ns : list gnet) (e : Z * box * gobj) : option (list gnet) :=
  let '(l, b, x) := e in
  match owner_of x with
  | None => None
  | Some o => Some (upd o (add_rect fixed (isCut l) l b) (ensure o ns))
  end.
(* 114-141 initDesign_skipObj, negated *)
Definition keeps (tg : option target) (x : gobj) : bool :=
  match tg with
  | None => true
  | Some (TgInst i) => match x with XInstTerm j _ _ _ => j =? i | XInstBlk j _ => j =? i | _ => false end
  | Some (TgTerm t) => match x with XTerm s _ _ => s =? t | _ => false end
  end.
Definition init_objs (fixed : bool) (tg : option target) (es : list (Z * box * gobj)) (ns : list gnet) : option (list gnet) :=
  fold_left (fun o e => match o with None => None | Some ns => if keeps tg (snd e) then init_obj fixed ns e else Some ns end) es (Some ns).
(* 144-195 initDesign: [fixed], [routed]: what the region queries find in the extended box, layer by layer *)
Definition init_design (ignore hasWorker : bool) (tg : option target) (fixed routed : list (Z * box * gobj)) (ns : list gnet) : option (list gnet) :=
  if ignore then Some ns
  else match init_objs true tg fixed ns with
       | None => None
       | Some ns => if hasWorker then Some ns else init_objs false tg routed ns
       end.
(* 243-306 initDRObj: the rectangles of a figure; true: a cut *)
Definition fig_rects (f : wfig) : list (bool * Z * box) :=
  match f with
  | WSeg l b e w be ee => [(false, l, seg_box b e w be ee)]
  | WVia v =>
    let t := mkXf (px (sv_pt v)) (py (sv_pt v)) R0 in
    map (fun b => (false, sv_l1 v, box_transform b t)) (sv_f1 v) ++ map (fun b => (true, sv_cl v, box_transform b t)) (sv_fc v) ++
    map (fun b => (false, sv_l2 v, box_transform b t)) (sv_f2 v)
  | WPatch l o b => [(false, l, box_transform b (mkXf (px o) (py o) R0))]
  end.
Definition init_fig (o : gowner) (ns : list gnet) (f : wfig) : list gnet :=
  fold_left (fun ns r => upd o (add_rect false (fst (fst r)) (snd (fst r)) (snd r)) ns) (fig_rects f) ns.
Definition init_wnet (ns : list gnet) (N : wnet) : list gnet :=
  fold_left (init_fig (GNet (wn_net N))) (wn_ext N ++ wn_route N) (ensure (GNet (wn_net N)) ns).
(* 308-333 initDRWorker *)
Definition init_worker (W : option (list wnet)) (ns : list gnet) : list gnet :=
  match W with None => ns | Some W => fold_left init_wnet W ns end.
(* 699-711 initNet, for a net without pins *)
Definition init_pins (n : gnet) : gnet :=
  mkGN (gn_own n) (gn_fp n) (gn_rp n) (gn_fr n) (gn_rr n) (mkpins (gn_fp n) (gn_rp n) (gn_fr n) (gn_rr n)).
(* FlexGC_rq.cpp: an entry is a pin with its identity: the owner of the net and its number there *)
Definition rqentry : Type := gowner * nat * P.
Definition rq_entries (n : gnet) : list rqentry := map (fun kp => (gn_own n, fst kp, snd kp)) (number 0 (gn_pins n)).
(* 232-246, 248-262 addToRegionQuery, removeFromRegionQuery *)
Definition rq_add (n : gnet) (rq : list rqentry) : list rqentry := rq ++ rq_entries n.
Definition rq_remove (n : gnet) (rq : list rqentry) : list rqentry :=
  filter (fun e => negb (own_eqb (fst (fst e)) (gn_own n) && Nat.ltb (snd (fst e)) (length (gn_pins n)))) rq.
Record gstate := mkGS { gs_nets : list gnet; gs_rq : list rqentry }.
(* 723-757 init *)
Definition gc_init (ignore : bool) (tg : option target) (fixed routed : list (Z * box * gobj)) (W : option (list wnet)) : option gstate :=
  match init_design ignore (match W with None => false | Some _ => true end) tg fixed routed [new_net GVss; new_net GVdd] with
  | None => None
  | Some ns => let ns := map init_pins (init_worker W ns) in Some (mkGS ns (flat_map rq_entries ns))
  end.

(* a patch made by the checker: the number of its drNet, layer, origin, box *)
Definition patch : Type := nat * Z * point * box.
Definition patch_fig (p : patch) : wfig := let '(_, l, o, b) := p in WPatch l o b.
(* patch->getNet()->getFrNet() *)
Definition patch_net (W : list wnet) (p : patch) : option Z := let '(k, _, _, _) := p in option_map wn_net (nth_error W k).
(* net->clear() *)
Definition clear_net (n : gnet) : gnet := mkGN (gn_own n) (gn_fp n) [] (gn_fr n) [] [].
Definition get (o : gowner) (ns : list gnet) : option gnet := find (fun n => own_eqb (gn_own n) o) ns.
(* 843-863: one modified net; None: no gcNet (null pointer) or no drNet (exit) *)
Definition reinit (W : list wnet) (st : option gstate) (n : Z) : option gstate :=
  match st with
  | None => None
  | Some s =>
    match get (GNet n) (gs_nets s), filter (fun N => wn_net N =? n) W with
    | Some g, (_ :: _) as dn =>
      let ns := upd (GNet n) clear_net (gs_nets s) in
      Some (mkGS (fold_left (init_fig (GNet n)) (flat_map (fun N => wn_ext N ++ wn_route N) dn) ns) (rq_remove g (gs_rq s)))
    | _, _ => None
    end
  end.
(* 866-872 *)
Definition add_patch (W : list wnet) (s : gstate) (p : patch) : gstate :=
  match patch_net W p with Some n => mkGS (init_fig (GNet n) (gs_nets s) (patch_fig p)) (gs_rq s) | None => s end.
(* 875-880 *)
Definition finish (s : gstate) (n : Z) : gstate :=
  let ns := upd (GNet n) init_pins (gs_nets s) in
  mkGS ns (match get (GNet n) ns with Some g => rq_add g (gs_rq s) | None => gs_rq s end).
(* 817-882 updateGCWorker.  fnets is sorted by id in the code; here by first announcement. *)
Definition update (W : list wnet) (modified : list Z) (pw : list patch) (s : gstate) : option gstate :=
  let fnets := nodup Z.eq_dec (modified ++ flat_map (fun p => match patch_net W p with Some n => [n] | None => [] end) pw) in
  match fold_left (reinit W) fnets (Some s) with
  | None => None
  | Some s => Some (fold_left finish fnets (fold_left (add_patch W) pw s))
  end.

(* the repair loop of a clip: its nets, the checker, gcWorker->pwires *)
Record cstate := mkCS { cs_W : list wnet; cs_gc : gstate; cs_pw : list patch }.
Variable gf14 : bool.                                                 (* DBPROCESSNODE *)
(* FlexGC_main.cpp:3703-3724 up to the checks; [found]: the patches patchMetalShape makes *)
Definition gc_main (surgical : bool) (found : list patch) (modified : list Z) (c : cstate) : option cstate :=
  let pw := if surgical && gf14 then found else cs_pw c in
  match modified, pw with
  | [], [] => Some (mkCS (cs_W c) (cs_gc c) pw)
  | _, _ => match update (cs_W c) modified pw (cs_gc c) with Some g => Some (mkCS (cs_W c) g pw) | None => None end
  end.
Fixpoint set_nth {A} (k : nat) (f : A -> A) (l : list A) : list A :=
  match l, k with [], _ => [] | x :: r, O => f x :: r | x :: r, S k => x :: set_nth k f r end.
(* net->addRoute(patch) *)
Definition write_back (c : cstate) : cstate :=
  mkCS (fold_left (fun W p => set_nth (fst (fst (fst p))) (fun N => mkWN (wn_net N) (wn_ext N) (wn_route N ++ [patch_fig p])) W) (cs_pw c) (cs_W c)) (cs_gc c) (cs_pw c).
(* what happens to the checker in a clip: the k-th drNet is rerouted and checked (2125-2218), another object is checked
   (2219-2238), the last check (2068-2093), the check at the begin if the shapes around have changed (2044-2047) *)
Inductive cstep := SReroute (k : nat) (route : list wfig) (found : list patch) | SCheck | SLast (found : list patch) | SRecheck (found : list patch).
Definition cstep_run (c : cstate) (s : cstep) : option cstate :=
  match s with
  | SReroute k route found =>
    match nth_error (cs_W c) k with
    | None => None
    | Some N =>
      option_map write_back
        (gc_main true found [wn_net N] (mkCS (set_nth k (fun N => mkWN (wn_net N) (wn_ext N) route) (cs_W c)) (cs_gc c) (cs_pw c)))
    end
  | SCheck => gc_main false [] [] c
  | SLast found => option_map write_back (gc_main true found [] c)
  | SRecheck found => gc_main true found [] c
  end.
Definition crun (c : cstate) (ss : list cstep) : option cstate :=
  fold_left (fun o s => match o with Some c => cstep_run c s | None => None end) ss (Some c).
End Gi.
