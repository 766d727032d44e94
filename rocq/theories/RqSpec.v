(* What a query of the index of routed shapes should deliver. *)
From Verif Require Import Base GeomModel GeomSpec FmSpec ClipModel RqModel.
From Coq Require Import List Permutation.
Open Scope list_scope.

Section S.
Variable vbox : Z -> box.
Variable vcut : Z -> Z.
(* layer and box of a figure of the design; a via counts on its cut layer, with all its metal *)
Definition shape (f : fig) (l : Z) (r : box) : Prop :=
  match f with
  | FSeg w => l = wl w /\ wire_box (wb w) (we w) (sWid (ws w)) (bExt (ws w)) (eExt (ws w)) r
  | FVia o _ _ d => l = vcut d /\ image (padd o) (bleft (vbox d)) (bbottom (vbox d)) (bright (vbox d)) (btop (vbox d)) r
  | FPatch o l' off => l = l' /\ image (padd o) (bleft off) (bbottom off) (bright off) (btop off) r
  end.
(* the boxes, borders included, share a point *)
Definition meets (r q : box) : Prop :=
  exists x y, (bleft r <= x <= bright r /\ bbottom r <= y <= btop r) /\ (bleft q <= x <= bright q /\ bbottom q <= y <= btop q).
Definition proper (q : box) : Prop := bleft q <= bright q /\ bbottom q <= btop q.
(* queries, of a layer or of all layers, deliver exactly the objects of the design that touch the box, each once *)
Definition in_step {T} (shp : T -> Z -> box -> Prop) (ord : list ient -> list ient) (s : store T) : Prop :=
  NoDup (map fst (s_db T s)) /\
  (forall l q, proper q -> NoDup (query T ord l q s) /\
     forall i, In i (query T ord l q s) <-> exists t r, In (i, t) (s_db T s) /\ shp t l r /\ meets r q) /\
  (forall q, proper q -> NoDup (query_all T ord q s) /\
     forall i, In i (query_all T ord q s) <-> exists t l r, In (i, t) (s_db T s) /\ shp t l r /\ meets r q).
Definition rshape (t : robj) (l : Z) (r : box) : Prop := shape (snd t) l r.
Definition mshape (m : mobj) (l : Z) (r : box) : Prop := m = (l, r).
End S.
(* the routed objects of a net *)
Definition objs (n : Z) (d : design) : list (nat * robj) := filter (fun o => fst (snd o) =? n) (s_db robj (d_rt d)).
Definition no_patches (db : list (nat * robj)) : Prop := forall i n o l off, ~ In (i, (n, FPatch o l off)) db.
Definition is_clip (e : event) : Prop := match e with EClip _ => True | ECheck _ => False end.
(* boxes of markers are boxes *)
Definition event_ok (e : event) : Prop := match e with EClip c => proper (c_route c) /\ proper (c_drcBox c) /\ (forall m, In m (c_best c) -> proper (snd m)) | ECheck _ => True end.
