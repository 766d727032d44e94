(* What it means for the pins of a net to be connected through its wires and vias. *)
From Verif Require Import Base GeomModel ConnModel.

(* wires are axis-parallel and run from lower left to upper right *)
Definition wire_ok (o : robj) : Prop :=
  match o with
  | RSeg bp ep _ _ _ => (px bp = px ep /\ py bp < py ep) \/ (py bp = py ep /\ px bp < px ep)
  | RVia _ _ _ => True
  end.
(* the point on the layer is an end of the object *)
Definition is_end (o : robj) (k : loc) : Prop :=
  match o with
  | RSeg bp ep l _ _ => k = (bp, l) \/ k = (ep, l)
  | RVia p l1 l2 => k = (p, l1) \/ k = (p, l2)
  end.
(* the point on the layer lies on the object (on the centre line of a wire) *)
Definition lies_on (o : robj) (k : loc) : Prop :=
  match o with
  | RSeg bp ep l _ _ => snd k = l /\ px bp <= px (fst k) <= px ep /\ py bp <= py (fst k) <= py ep
  | RVia p l1 l2 => k = (p, l1) \/ k = (p, l2)
  end.
(* the same for half-integral points, given by their doubled coordinates: the metal of a wire *)
Definition covers (o : robj) (l : Z) (x y : Z) : Prop :=
  match o with
  | RSeg bp ep l' _ _ => l = l' /\ 2 * px bp <= x <= 2 * px ep /\ 2 * py bp <= y <= 2 * py ep
  | RVia _ _ _ => False
  end.
Definition metal (objs : list robj) (l x y : Z) : Prop := exists o, In o objs /\ covers o l x y.
(* two wires on one track overlap in more than a point *)
Definition overlap (a b : robj) : Prop :=
  match a, b with
  | RSeg p1 q1 l1 _ _, RSeg p2 q2 l2 _ _ =>
    l1 = l2 /\
    ((px p1 = px q1 /\ px p2 = px q2 /\ px p1 = px p2 /\ py p1 < py q2 /\ py p2 < py q1) \/
     (py p1 = py q1 /\ py p2 = py q2 /\ py p1 = py p2 /\ px p1 < px q2 /\ px p2 < px q1))
  | _, _ => False
  end.
Definition no_overlap (objs : list robj) : Prop :=
  forall i j a b, i <> j -> nth_error objs i = Some a -> nth_error objs j = Some b -> ~ overlap a b.

(* the pin [id] is found at [k]: at a truncated wire end, or at a via where no extended wire ends *)
Definition truncated_end (o : robj) (k : loc) : Prop :=
  match o with RSeg bp ep l tb te => (tb = true /\ k = (bp, l)) \/ (te = true /\ k = (ep, l)) | RVia _ _ _ => False end.
Definition extended_end (o : robj) (k : loc) : Prop :=
  match o with RSeg bp ep l tb te => (tb = false /\ k = (bp, l)) \/ (te = false /\ k = (ep, l)) | RVia _ _ _ => False end.
Definition via_end (o : robj) (k : loc) : Prop :=
  match o with RSeg _ _ _ _ _ => False | RVia _ _ _ => is_end o k end.
Definition touches (pins_at : point -> Z -> list Z) (objs : list robj) (id : Z) (k : loc) : Prop :=
  In id (pins_at (fst k) (snd k)) /\
  ((exists o, In o objs /\ truncated_end o k) \/
   ((exists o, In o objs /\ via_end o k) /\ ~ exists o, In o objs /\ extended_end o k)).
Definition touched (pins_at : point -> Z -> list Z) (objs : list robj) (id : Z) : Prop :=
  exists k, touches pins_at objs id k.

(* routing objects by position, and pins *)
Inductive item := Wire (i : nat) | Pin (id : Z).
Definition item_at (pins_at : point -> Z -> list Z) (objs : list robj) (it : item) (k : loc) : Prop :=
  match it with
  | Wire i => exists o, nth_error objs i = Some o /\ lies_on o k
  | Pin id => touches pins_at objs id k
  end.
(* two items meet at an end of some object *)
Definition meet (pins_at : point -> Z -> list Z) (objs : list robj) (a b : item) (k : loc) : Prop :=
  (exists o, In o objs /\ is_end o k) /\ item_at pins_at objs a k /\ item_at pins_at objs b k.
(* a chain of meeting items, all satisfying S *)
Inductive linked (pins_at : point -> Z -> list Z) (objs : list robj) (S : item -> Prop) (a : item) : item -> Prop :=
| linked_refl : S a -> linked pins_at objs S a a
| linked_step b c k : linked pins_at objs S a b -> meet pins_at objs b c k -> S c -> linked pins_at objs S a c.

(* physical contact, without regard to ends: wires, vias and pin shapes that share a location *)
Inductive thing := Obj (o : robj) | Term (id : Z).
Definition thing_at (pins_at : point -> Z -> list Z) (t : thing) (k : loc) : Prop :=
  match t with Obj o => lies_on o k | Term id => In id (pins_at (fst k) (snd k)) end.
Definition present (objs : list robj) (t : thing) : Prop := match t with Obj o => In o objs | Term _ => True end.
Inductive joined (pins_at : point -> Z -> list Z) (objs : list robj) (a : thing) : thing -> Prop :=
| joined_refl : present objs a -> joined pins_at objs a a
| joined_step b c k : joined pins_at objs a b -> thing_at pins_at b k -> thing_at pins_at c k -> present objs c ->
    joined pins_at objs a c.
