(* Independent specification vocabulary for the geometry properties. *)
From Verif Require Import Base GeomModel.

(* The plane maps the DEF orientations are named after. *)
Definition rot90 (p : point) : point := mkPt (- py p) (px p).      (* counter-clockwise *)
Definition mirrorX (p : point) : point := mkPt (px p) (- py p).    (* about the x axis *)
Definition mirrorY (p : point) : point := mkPt (- px p) (py p).    (* about the y axis *)
Definition orient_map (o : orient) (p : point) : point :=
  match o with
  | R0 => p
  | R90 => rot90 p
  | R180 => rot90 (rot90 p)
  | R270 => rot90 (rot90 (rot90 p))
  | MX => mirrorX p
  | MY => mirrorY p
  | MXR90 => rot90 (mirrorX p)
  | MYR90 => rot90 (mirrorY p)
  end.
Definition padd (p q : point) : point := mkPt (px p + px q) (py p + py q).

(* A box as a set of points. *)
Definition in_box (p : point) (b : box) : Prop :=
  px (ll b) <= px p <= px (ur b) /\ py (ll b) <= py p <= py (ur b).
(* twice-scaled coordinates, so that half-integral interior points can be named *)
Definition in_interior2 (x2 y2 : Z) (b : box) : Prop :=
  2 * px (ll b) < x2 < 2 * px (ur b) /\ 2 * py (ll b) < y2 < 2 * py (ur b).
Definition normalised (b : box) : Prop := px (ll b) <= px (ur b) /\ py (ll b) <= py (ur b).
Definition solid (b : box) : Prop := px (ll b) < px (ur b) /\ py (ll b) < py (ur b).

Definition dist2 (p q : point) : Z :=
  (px p - px q) * (px p - px q) + (py p - py q) * (py p - py q).

(* [d] is the minimum of dist2 over pairs of points of two sets *)
Definition is_min_dist2 (A B : point -> Prop) (d : Z) : Prop :=
  (exists p q, A p /\ B q /\ dist2 p q = d) /\
  (forall p q, A p -> B q -> d <= dist2 p q).

(* [lt] orders [A] strictly and totally, so it identifies exactly equal keys *)
Definition strict_total_order {A} (lt : A -> A -> bool) : Prop :=
  (forall a, lt a a = false) /\
  (forall a b c, lt a b = true -> lt b c = true -> lt a c = true) /\
  (forall a b, lt a b = false -> lt b a = false -> a = b).

(* 90-degree orientations swap the two dimensions *)
Definition swaps (o : orient) : bool :=
  match o with R90 | R270 | MXR90 | MYR90 => true | _ => false end.
