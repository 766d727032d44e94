(* What a clip's rip-up and reroute loop owes the violations it finds, in terms of its history. *)
From Verif Require Import Base QueueModel.

(* how often the net was routed *)
Fixpoint times (d : nat) (tr : list qevent) {struct tr} : nat :=
  match tr with
  | [] => 0
  | Routed e _ :: r => (if Nat.eqb d e then 1 else 0) + times d r
  | _ :: r => times d r
  end.
(* the violations found at an event *)
Definition found_at (ev : qevent) (ms : list qmarker) : Prop :=
  (exists d, ev = Routed d (Some ms)) \/ (exists o, ev = Checked o (Some ms)).

Section S.
Variable movable : Z -> bool.
Variable drNets : Z -> list nat.
Variable limit : nat.
(* the net can be rerouted: one of its parts in the clip was routed fewer than [limit] times *)
Definition can_move (n : nat -> nat) (f : Z) : Prop := movable f = true /\ exists d, In d (drNets f) /\ (n d < limit)%nat.
(* the net is one that has to be rerouted because of the violation: an aggressor that can be rerouted, or,
   if there is none, any party that can be rerouted *)
Definition must_move (n : nat -> nat) (m : qmarker) (f : Z) : Prop :=
  can_move n f /\ (In (Some f) (qm_aggr m) \/ ((forall g, In (Some g) (qm_aggr m) -> ~ can_move n g) /\ In (Some f) (qm_srcs m))).
(* the violation is followed up in the rest [post] of the history *)
Definition followed_up (n : nat -> nat) (m : qmarker) (post : list qevent) : Prop :=
  (forall f d, must_move n m f -> In d (drNets f) -> (n d < limit)%nat -> exists ms, In (Routed d ms) post) /\
  (forall o, (exists f, must_move n m f) -> In (Some o) (qm_srcs m) -> ~ must_move n m o -> exists ms, In (Checked o ms) post).
End S.
