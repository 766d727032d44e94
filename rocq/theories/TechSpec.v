(* Specification of LEF spacing-table lookup and of forbidden-length membership. *)
From Verif Require Import Base.

(* [i] is the last position whose header is strictly below [v], or 0 if there is none *)
Definition last_below (hdr : list Z) (v : Z) (i : nat) : Prop :=
  (i < length hdr)%nat /\ (i = O \/ nth i hdr 0 < v) /\
  (forall j, (i < j)%nat -> (j < length hdr)%nat -> v <= nth j hdr 0).
(* a rectangular table over its headers *)
Definition table_shape (rows cols : list Z) (vals : list (list Z)) : Prop :=
  length vals = length rows /\ (forall r, In r vals -> length r = length cols).
(* value at row i, column j *)
Definition cell (vals : list (list Z)) (i j : nat) : Z := nth j (nth i vals []) 0.
Definition table_monotone (vals : list (list Z)) (nr nc : nat) : Prop :=
  forall i i' j j', (i <= i' < nr)%nat -> (j <= j' < nc)%nat -> cell vals i j <= cell vals i' j'.
Definition list_monotone (vals : list Z) : Prop :=
  forall i i', (i <= i' < length vals)%nat -> nth i vals 0 <= nth i' vals 0.
Definition in_some_interval (ivs : list (Z * Z)) (len : Z) : Prop :=
  exists a b, In (a, b) ivs /\ a <= len <= b.
