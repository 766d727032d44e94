(* Vocabulary for the maze-search properties, independent of the search. *)
From Verif Require Import Base GeomModel GeomSpec GridModel GridSpec.

(* two grid points joined by an existing edge *)
Definition adj (g : gg) (p q : midx) : Prop := exists d, d <> DUnk /\ hasEdge g p d = true /\ q = step p d.
(* consecutive points are joined by existing edges *)
Fixpoint linked (g : gg) (w : list midx) : Prop :=
  match w with
  | a :: (b :: _) as r => adj g a b /\ linked g r
  | _ => True
  end.
(* what the caller guarantees: the start points are source points of the grid, no back-pointer is set *)
Definition search_ready (g : gg) (cc : list midx) : Prop :=
  edges_inside g /\
  (forall s, In s cc -> valid g s /\ isSrc g s = true) /\
  (forall p, valid g p -> getPrevDir g p = DUnk).
(* a route from a destination back to the connected component *)
Definition route (g : gg) (cc : list midx) (w : list midx) : Prop :=
  exists dst mid src,
    w = dst :: mid ++ [src] /\ isDst g dst = true /\ In src cc /\ linked g w /\ NoDup w /\
    (forall p, In p w -> valid g p) /\ (forall p, In p (dst :: mid) -> isSrc g p = false).
(* the points reached from p by n steps in direction d, p excluded *)
Fixpoint run (p : midx) (d : dir) (n : nat) : list midx :=
  match n with O => [] | S n => step p d :: run (step p d) d n end.
(* [b] lists the end points and the bends of the walk [w]: maximal straight runs; [last] is the
   direction of the run before *)
Inductive bends : dir -> list midx -> list midx -> Prop :=
| bends_end last a : bends last [a] [a]
| bends_run last d n a b r w :
    d <> DUnk -> d <> last -> b = List.last (run a d (S n)) a ->
    bends d (b :: r) (b :: w) ->
    bends last (a :: b :: r) (a :: run a d (S n) ++ w).
(* points reachable from the connected component through points that are not sources *)
Inductive reachable (g : gg) (cc : list midx) : midx -> Prop :=
| reach_start s : In s cc -> reachable g cc s
| reach_step p q : reachable g cc p -> adj g p q -> isSrc g q = false -> reachable g cc q.
(* smallest box containing the given corner points and the listed points *)
Definition least_box (c1 c2 : midx) (l : list midx) (b1 b2 : midx) : Prop :=
  (forall (f : midx -> Z), f = mx \/ f = my \/ f = mz ->
    (f b1 <= f c1 /\ (forall p, In p l -> f b1 <= f p) /\ (f b1 = f c1 \/ exists p, In p l /\ f b1 = f p)) /\
    (f c2 <= f b2 /\ (forall p, In p l -> f p <= f b2) /\ (f b2 = f c2 \/ exists p, In p l /\ f b2 = f p))).
(* number of grid points *)
Definition grid_size (g : gg) : nat := length (gxs g) * (length (gys g) * length (gzs g)).
(* nothing but the back-pointers changed *)
Definition same_but_pointers (g h : gg) : Prop :=
  same_shape g h /\ gbits g = gbits h /\ gsrc g = gsrc h /\ gdst g = gdst h /\ gguide g = gguide h.
