(* Vocabulary for routing a net. *)
From Verif Require Import Base GeomModel GridModel GridSpec MazeSpec NetModel.
From Coq Require Import Permutation.

(* unit steps of the grid covered by a routing object, lower end first *)
Definition unit_steps (f : fig) : list (midx * midx) :=
  match f with
  | Seg a b _ _ _ _ _ =>
    map (fun x => (mkMI x (my a) (mz a), mkMI (x + 1) (my a) (mz a))) (zrange (mx a) (mx b - 1)) ++
    map (fun y => (mkMI (mx a) y (mz a), mkMI (mx a) (y + 1) (mz a))) (zrange (my a) (my b - 1))
  | Via a b _ _ _ => [(a, b)]
  end.
(* two grid points connected through routing objects *)
Inductive joined (fs : list fig) : midx -> midx -> Prop :=
| joined_refl p : joined fs p p
| joined_step p q f : In f fs -> In (p, q) (unit_steps f) -> joined fs p q
| joined_sym p q : joined fs p q -> joined fs q p
| joined_trans p q r : joined fs p q -> joined fs q r -> joined fs p r.
(* the unit steps of a walk, each with the lower end first *)
Definition up_step (p q : midx) : midx * midx :=
  if (mx p + my p + mz p <? mx q + my q + mz q) then (p, q) else (q, p).
Fixpoint walk_steps (w : list midx) : list (midx * midx) :=
  match w with
  | a :: (b :: _) as r => up_step a b :: walk_steps r
  | _ => []
  end.
(* a well-formed routing object: a wire runs along one axis on one layer, begin before end, with the
   coordinates and layer of its grid points; a via joins two consecutive layers on the cut layer in
   between *)
Definition well_formed (g : gg) (rap : list midx) (f : fig) : Prop :=
  match f with
  | Seg a b l pa pb tb te =>
    mz a = mz b /\ ((mx a < mx b /\ my a = my b) \/ (mx a = mx b /\ my a < my b)) /\
    l = nth (Z.to_nat (mz a)) (gzs g) 0 /\
    pa = mkPt (nth (Z.to_nat (mx a)) (gxs g) 0) (nth (Z.to_nat (my a)) (gys g) 0) /\
    pb = mkPt (nth (Z.to_nat (mx b)) (gxs g) 0) (nth (Z.to_nat (my b)) (gys g) 0) /\
    (tb = true <-> In a rap) /\ (te = true <-> In b rap)
  | Via a b cut o s =>
    mx b = mx a /\ my b = my a /\ mz b = mz a + 1 /\
    cut = nth (Z.to_nat (mz a)) (gzs g) 0 + 1 /\
    o = mkPt (nth (Z.to_nat (mx a)) (gxs g) 0) (nth (Z.to_nat (my a)) (gys g) 0)
  end.
(* a net ready for routing: distinct pins, each with at least one access point on the grid; no source
   or destination flag is set *)
Definition net_ready (g : gg) (pins : list dpin) : Prop :=
  edges_inside g /\ (forall i, gsrc g i = false) /\ (forall i, gdst g i = false) /\
  NoDup (map pid pins) /\
  (forall p, In p pins -> paps p <> [] /\ forall a, In a (paps p) -> valid g a).
(* the routing objects form a tree on the points [pts]: connected, and one unit step less than points *)
Definition is_tree (fs : list fig) (pts : list midx) : Prop :=
  NoDup pts /\ NoDup (flat_map unit_steps fs) /\
  (forall u v, In (u, v) (flat_map unit_steps fs) -> In u pts /\ In v pts) /\
  (forall u v, In u pts -> In v pts -> joined fs u v) /\
  length pts = S (length (flat_map unit_steps fs)).
