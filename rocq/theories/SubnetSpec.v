(* What it means for the parts of a net inside a clip to belong together. *)
From Verif Require Import Base GeomModel ConnModel ConnSpec SubnetModel.

Definition in_clip (b : box) (p : point) : Prop := px (ll b) <= px p <= px (ur b) /\ py (ll b) <= py p <= py (ur b).
(* a wire or via ends at the location *)
Definition fig_ends (objs : list dfig) (k : loc) : Prop := exists o, In (DFig o) objs /\ is_end o k.
(* the pin is found at the location: inside the clip, at a truncated wire end or at a via *)
Definition found (pins_at : point -> Z -> list Z) (routeBox : box) (objs : list dfig) (id : Z) (k : loc) : Prop :=
  In id (pins_at (fst k) (snd k)) /\ in_clip routeBox (fst k) /\
  exists o, In (DFig o) objs /\ (truncated_end o k \/ via_end o k).
(* where an item can be joined to another: a wire or via at every point of it where some wire or via ends,
   a patch at its origin, a pin where it is found.  Wire i stands for the i-th object of any kind *)
Definition joint (pins_at : point -> Z -> list Z) (routeBox : box) (objs : list dfig) (it : item) (k : loc) : Prop :=
  match it with
  | Wire i => match nth_error objs i with
              | Some (DFig o) => lies_on o k /\ fig_ends objs k
              | Some (DPatch p l) => k = (p, l)
              | None => False
              end
  | Pin id => found pins_at routeBox objs id k
  end.
(* joined by a chain of items, neighbours sharing a joint *)
Inductive chained (pins_at : point -> Z -> list Z) (routeBox : box) (objs : list dfig) (a : item) : item -> Prop :=
| chained_refl : chained pins_at routeBox objs a a
| chained_step b c k : chained pins_at routeBox objs a b -> joint pins_at routeBox objs b k -> joint pins_at routeBox objs c k ->
    chained pins_at routeBox objs a c.

(* wires are well-formed, and no two wires on one track overlap in more than a point *)
Definition wires_ok (objs : list dfig) : Prop :=
  (forall o, In (DFig o) objs -> wire_ok o) /\
  forall i j a b, i <> j -> nth_error objs i = Some (DFig a) -> nth_error objs j = Some (DFig b) -> ~ overlap a b.
(* the object lies inside the clip: only a wire can have an end outside *)
Definition inside (routeBox : box) (d : dfig) : Prop :=
  match d with
  | DFig (RSeg bp ep _ _ _) => in_clip routeBox bp /\ in_clip routeBox ep
  | _ => True
  end.
(* the elements at the given positions *)
Definition at_positions {A} (g : list nat) (l : list A) : list A := flat_map (fun i => match nth_error l i with Some a => [a] | None => [] end) g.
