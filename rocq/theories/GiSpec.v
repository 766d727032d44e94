(* What the checker of a clip should work on. *)
From Verif Require Import Base GeomModel GeomSpec FmModel FmSpec GiModel.
From Coq Require Import List Permutation.
Open Scope list_scope.

(* whose metal a shape of the design is: the net's; without a net, all floating power pins are one owner, all floating
   ground pins another, any other pin and any obstruction is its own *)
Inductive belongs : gobj -> gowner -> Prop :=
| bel_term t n ty : belongs (XTerm t (Some n) ty) (GNet n)
| bel_iterm i t n ty : belongs (XInstTerm i t (Some n) ty) (GNet n)
| bel_tp t : belongs (XTerm t None TPower) GVdd
| bel_tg t : belongs (XTerm t None TGround) GVss
| bel_to t : belongs (XTerm t None TOther) (GTerm t)
| bel_ip i t : belongs (XInstTerm i t None TPower) GVdd
| bel_ig i t : belongs (XInstTerm i t None TGround) GVss
| bel_io i t : belongs (XInstTerm i t None TOther) (GInstTerm i t)
| bel_blk b : belongs (XBlk b) (GBlk b)
| bel_iblk i b : belongs (XInstBlk i b) (GInstBlk i b)
| bel_shape n : belongs (XShape (Some n)) (GNet n).
(* the objects looked at if only one instance or one IO pin is checked *)
Definition looked_at (tg : option target) (x : gobj) : Prop :=
  match tg with
  | None => True
  | Some (TgInst i) => (exists t n ty, x = XInstTerm i t n ty) \/ (exists b, x = XInstBlk i b)
  | Some (TgTerm t) => exists n ty, x = XTerm t n ty
  end.
(* metal of a figure: cut or not, layer, box *)
Definition fig_metal (f : wfig) (cut : bool) (l : Z) (b : box) : Prop :=
  match f with
  | WSeg l' p q w be ee => cut = false /\ l = l' /\ wire_box p q w be ee b
  | WVia v => exists r, (In r (sv_f1 v) /\ l = sv_l1 v /\ cut = false \/ In r (sv_f2 v) /\ l = sv_l2 v /\ cut = false \/ In r (sv_fc v) /\ l = sv_cl v /\ cut = true) /\
                        image (padd (sv_pt v)) (bleft r) (bbottom r) (bright r) (btop r) b
  | WPatch l' o r => cut = false /\ l = l' /\ image (padd o) (bleft r) (bbottom r) (bright r) (btop r) b
  end.
(* metal of the design among the objects found *)
Definition db_metal (isCut : Z -> bool) (tg : option target) (es : list (Z * box * gobj)) (o : gowner) (cut : bool) (l : Z) (b : box) : Prop :=
  exists x, In (l, b, x) es /\ looked_at tg x /\ belongs x o /\ cut = isCut l.
(* metal of the nets of the clip *)
Definition clip_metal (W : list wnet) (o : gowner) (cut : bool) (l : Z) (b : box) : Prop :=
  exists N f, In N W /\ o = GNet (wn_net N) /\ In f (wn_ext N ++ wn_route N) /\ fig_metal f cut l b.

Section S.
Variable P : Type.
Variable mkpins : list (Z * box) -> list (Z * box) -> list (Z * box) -> list (Z * box) -> list P.
Definition part (fixed cut : bool) (n : gnet P) : list (Z * box) :=
  if fixed then (if cut then gn_fr P n else gn_fp P n) else (if cut then gn_rr P n else gn_rp P n).
(* the checker holds the box as (fixed or routed) metal or cut of the owner *)
Definition held (s : gstate P) (fixed : bool) (o : gowner) (cut : bool) (l : Z) (b : box) : Prop :=
  exists n, In n (gs_nets P s) /\ gn_own P n = o /\ In (l, b) (part fixed cut n).
(* one net for each owner; its shapes are made from its metal; the index has exactly the shapes of all nets *)
Definition sound (s : gstate P) : Prop :=
  NoDup (map (gn_own P) (gs_nets P s)) /\
  (forall n, In n (gs_nets P s) -> gn_pins P n = mkpins (gn_fp P n) (gn_rp P n) (gn_fr P n) (gn_rr P n)) /\
  Permutation (map (fun e => (fst (fst e), snd e)) (gs_rq P s)) (flat_map (fun n => map (fun p => (gn_own P n, p)) (gn_pins P n)) (gs_nets P s)).
(* the checker agrees with the design around and the nets of the clip *)
Definition current (isCut : Z -> bool) (tg : option target) (fixed : list (Z * box * gobj)) (W : list wnet) (s : gstate P) : Prop :=
  sound s /\ (forall o cut l b, held s true o cut l b <-> db_metal isCut tg fixed o cut l b) /\
  (forall o cut l b, held s false o cut l b <-> clip_metal W o cut l b).
End S.

(* a net of the clip is rerouted; with the special node the check at the begin is not made *)
Definition step_ok (gf14 : bool) (m : nat) (s : cstep) : Prop :=
  match s with SReroute k _ _ => (k < m)%nat | SRecheck _ => gf14 = false | _ => True end.
(* the route the j-th net of the clip was given last *)
Definition last_route (j : nat) (ss : list cstep) (r : list wfig) : list wfig :=
  fold_left (fun r s => match s with SReroute k r' _ => if Nat.eqb k j then r' else r | _ => r end) ss r.
Definition isPatch (f : wfig) : Prop := match f with WPatch _ _ _ => True | _ => False end.
