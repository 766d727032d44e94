(* What a good choice of access points is, independently of the program that makes it. *)
From Verif Require Import Base.

(* [total w i pat]: the sum of the pair costs of neighbours, [w i a b] being the cost of using
   choice a at place i next to choice b at place i+1 *)
Fixpoint total (w : Z -> Z -> Z -> Z) (i : Z) (pat : list Z) : Z :=
  match pat with
  | a :: ((b :: _) as r) => w i a b + total w (i + 1) r
  | _ => 0
  end.
(* one choice per place, each among the [n] options of its place *)
Definition choice (options : list nat) (pat : list Z) : Prop :=
  Forall2 (fun n a => 0 <= a < Z.of_nat n) options pat.
(* [pat] is a choice and no choice costs less *)
Definition cheapest (w : Z -> Z -> Z -> Z) (options : list nat) (pat : list Z) : Prop :=
  choice options pat /\ forall pat', choice options pat' -> total w 0 pat <= total w 0 pat'.

From Verif Require Import PaModel.

(* cost of two neighbouring cells i, i+1 of a row using their patterns a and b *)
Definition row_pair (clean : Z -> Z -> Z -> bool) (costs : list (list Z)) (i a b : Z) : Z :=
  if clean i a b
  then Z.quot (nth (Z.to_nat a) (nth (Z.to_nat i) costs []) 0
               + nth (Z.to_nat b) (nth (Z.to_nat (i + 1)) costs []) 0) 2
  else 1000.

(* the vias dropped by a pattern *)
Fixpoint vias_of (pins : list pin) (pat : list Z) : list (Z * Z) :=
  match pins, pat with
  | p :: pins', a :: pat' =>
      (if apUp (nth (Z.to_nat a) (pinAps p) ap0) then [(pinId p, a)] else []) ++ vias_of pins' pat'
  | _, _ => []
  end.
(* vias are acceptable when there are some and the checker finds no violation *)
Definition acceptable (drc : list (Z * Z) -> bool) (vs : list (Z * Z)) : bool :=
  match vs with [] => false | _ => drc vs end.
(* the via of access point a of pin i *)
Definition via1 (pins : list pin) (i a : Z) : list (Z * Z) :=
  let p := nth (Z.to_nat i) pins pin0 in
  if apUp (nth (Z.to_nat a) (pinAps p) ap0) then [(pinId p, a)] else [].
(* cost of neighbouring pins i, i+1 using access points a and b: 1000 if their vias clash or one of
   them was blamed before; 100 if it would repeat an end point used before; else the mean *)
Definition pin_pair (drc : list (Z * Z) -> bool) (pins : list pin) (used viol : list (Z * Z))
    (i a b : Z) : Z :=
  let n := Z.of_nat (length pins) in
  let cost i a := apCost (nth (Z.to_nat a) (pinAps (nth (Z.to_nat i) pins pin0)) ap0) in
  let isin s x := existsb (fun y => (fst y =? fst x) && (snd y =? snd x)) s in
  if acceptable drc (via1 pins i a ++ via1 pins (i + 1) b) then
    if ((i =? 0) && isin used (i, a)) || ((i + 1 =? n - 1) && isin used (i + 1, b)) then 100
    else if isin viol (i, a) || isin viol (i + 1, b) then 1000
    else Z.quot (cost i a + cost (i + 1) b) 2
  else 1000.
Definition ap_counts (pins : list pin) : list nat := map (fun p => length (pinAps p)) pins.

(* sensible input: every pin has an access point, costs are in [0, M] and sums fit an int *)
Record sensible (pins : list pin) (M : Z) : Prop := {
  se_aps : forall p, In p pins -> pinAps p <> [];
  se_cost : forall p x, In p pins -> In x (pinAps p) -> 0 <= apCost x <= M;
  se_M : 1000 <= M;
  se_fits : (Z.of_nat (length pins) + 1) * M < INF }.

(* the states genPatterns goes through: after k iterations *)
Inductive reached (drc : list (Z * Z) -> bool) (blamed : list (Z * Z) -> Z -> bool)
    (pins : list pin) (dim : Z) : nat -> pstate -> Prop :=
| reached_0 : reached drc blamed pins dim 0 (fresh pins dim [])
| reached_S k s s' : reached drc blamed pins dim k s ->
    round drc blamed pins dim s = Some (true, s') -> reached drc blamed pins dim (S k) s'.

(* adding the via of a third pin never spoils an acceptable pair *)
Definition look_back_harmless (drc : list (Z * Z) -> bool) (pins : list pin) : Prop :=
  forall i a b h d, acceptable drc (via1 pins i a ++ via1 pins (i + 1) b) = true ->
    acceptable drc ((via1 pins i a ++ via1 pins (i + 1) b) ++ via1 pins h d) = true.

(* a recorded pattern is good: one access point for every pin of [pins], and the vias together
   pass the checker *)
Definition good_pattern (drc : list (Z * Z) -> bool) (pins : list pin) (p : list (Z * Z)) : Prop :=
  exists pat, choice (ap_counts pins) pat /\ p = combine (map pinId pins) pat /\
    acceptable drc (vias_of pins pat) = true.
