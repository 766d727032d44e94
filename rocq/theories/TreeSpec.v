(* Independent vocabulary for graph searches. *)
From Verif Require Import Base TreeModel.

(* b can be reached from a along edges between nodes of S *)
Inductive within (adj : nat -> list nat) (S : nat -> Prop) (a : nat) : nat -> Prop :=
| within_refl : S a -> within adj S a a
| within_step b c : within adj S a b -> In c (adj b) -> S c -> within adj S a c.
Definition reachable (adj : nat -> list nat) (a b : nat) : Prop := within adj (fun _ => True) a b.

(* the edges stay inside the node range *)
Definition in_range (adj : nat -> list nat) (n : nat) : Prop :=
  forall i j, (i < n)%nat -> In j (adj i) -> (j < n)%nat.
(* contract of std::priority_queue::top with wf::operator<: no entry is greater *)
Definition pick_min (pick : nat -> list wf -> nat) : Prop :=
  forall k q, q <> [] -> (pick k q < length q)%nat /\
    forall e, In e q -> wf_lt (nth (pick k q) q (mkWf 0 None 0)) e = false.
(* enough loop turns for one round *)
Definition turns (adj : nat -> list nat) (n : nat) : nat :=
  S (n + list_sum (map (fun i => length (adj i)) (seq 0 n))).
