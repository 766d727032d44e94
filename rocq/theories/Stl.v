(* The C++ standard-library searches used by the code, with their contract on sorted input.
   [lower_bound] / [upper_bound] are the partition points promised by the standard;
   [bsearch] is the usual halving implementation, proved equal on sorted lists. *)
From Verif Require Import Base.

(* std::lower_bound(begin, end, v) - begin: first position whose element is not < v *)
Fixpoint lower_bound (l : list Z) (v : Z) : nat :=
  match l with
  | [] => O
  | a :: l' => if a <? v then S (lower_bound l' v) else O
  end.
(* std::upper_bound(begin, end, v) - begin: first position whose element is > v *)
Fixpoint upper_bound (l : list Z) (v : Z) : nat :=
  match l with
  | [] => O
  | a :: l' => if v <? a then O else S (upper_bound l' v)
  end.
(* libstdc++ bits/stl_algobase.h __lower_bound: [len] halves, [first] advances; the fuel is the
   length, more than the number of halvings *)
Fixpoint bsearch (fuel : nat) (l : list Z) (v : Z) (first len : nat) : nat :=
  match fuel with
  | O => first
  | S fuel' =>
    if Nat.eqb len 0 then first else
    let half := Nat.div2 len in
    if nth (first + half) l 0 <? v
    then bsearch fuel' l v (first + half + 1) (len - half - 1)
    else bsearch fuel' l v first half
  end.

(* sorted, non-strictly and strictly, by positions *)
Definition sorted_le (l : list Z) : Prop :=
  forall i j, (i <= j)%nat -> (j < length l)%nat -> nth i l 0 <= nth j l 0.
Definition sorted_lt (l : list Z) : Prop :=
  forall i j, (i < j)%nat -> (j < length l)%nat -> nth i l 0 < nth j l 0.

Lemma sorted_lt_le l : sorted_lt l -> sorted_le l.
Proof.
  intros H i j Hij Hj. destruct (Nat.eq_dec i j) as [->|Hn]; [lia|].
  specialize (H i j ltac:(lia) Hj). lia.
Qed.
Lemma sorted_le_tail a l : sorted_le (a :: l) -> sorted_le l.
Proof. intros H i j Hij Hj. apply (H (S i) (S j)); cbn; lia. Qed.
Lemma sorted_lt_tail a l : sorted_lt (a :: l) -> sorted_lt l.
Proof. intros H i j Hij Hj. apply (H (S i) (S j)); cbn; lia. Qed.
Lemma sorted_le_head a l x : sorted_le (a :: l) -> In x l -> a <= x.
Proof.
  intros H Hin. apply (In_nth l x 0) in Hin as (k & Hk & <-).
  apply (H O (S k)); cbn; lia.
Qed.
Lemma sorted_lt_head a l x : sorted_lt (a :: l) -> In x l -> a < x.
Proof.
  intros H Hin. apply (In_nth l x 0) in Hin as (k & Hk & <-).
  apply (H O (S k)); cbn; lia.
Qed.
Lemma sorted_lt_cons a l : (forall x, In x l -> a < x) -> sorted_lt l -> sorted_lt (a :: l).
Proof.
  intros Ha Hl [|i] [|j] Hij Hj; cbn in *; try lia.
  - apply Ha. apply nth_In. lia.
  - apply Hl; lia.
Qed.
Lemma sorted_le_cons a l : (forall x, In x l -> a <= x) -> sorted_le l -> sorted_le (a :: l).
Proof.
  intros Ha Hl [|i] [|j] Hij Hj; cbn in *; try lia.
  - apply Ha. apply nth_In. lia.
  - apply Hl; lia.
Qed.
Lemma sorted_lt_nil : sorted_lt [].
Proof. intros i j _ H; cbn in H; lia. Qed.
Lemma sorted_le_nil : sorted_le [].
Proof. intros i j _ H; cbn in H; lia. Qed.
Lemma sorted_lt_NoDup l : sorted_lt l -> NoDup l.
Proof.
  induction l as [|a l IH]; intros H; constructor.
  - intros Hin. pose proof (sorted_lt_head _ _ _ H Hin). lia.
  - apply IH. eapply sorted_lt_tail; eauto.
Qed.

Lemma lower_bound_le l v : (lower_bound l v <= length l)%nat.
Proof. induction l as [|a l IH]; cbn; [lia|]. destruct (a <? v); lia. Qed.
Lemma upper_bound_le l v : (upper_bound l v <= length l)%nat.
Proof. induction l as [|a l IH]; cbn; [lia|]. destruct (v <? a); lia. Qed.
Lemma lower_bound_before l v i : (i < lower_bound l v)%nat -> nth i l 0 < v.
Proof.
  revert i; induction l as [|a l IH]; cbn; intros i; [lia|].
  destruct (a <? v) eqn:E; [|lia]. destruct i; [lia|]. intros; apply IH; lia.
Qed.
Lemma lower_bound_at l v : (lower_bound l v < length l)%nat -> v <= nth (lower_bound l v) l 0.
Proof.
  induction l as [|a l IH]; cbn; [lia|]. destruct (a <? v) eqn:E; [|lia]. intros; apply IH; lia.
Qed.
Lemma lower_bound_after l v i : sorted_le l -> (lower_bound l v <= i)%nat -> (i < length l)%nat ->
  v <= nth i l 0.
Proof.
  intros Hs Hi Hl. pose proof (lower_bound_at l v ltac:(lia)).
  specialize (Hs (lower_bound l v) i Hi Hl). lia.
Qed.
Lemma upper_bound_before l v i : (i < upper_bound l v)%nat -> nth i l 0 <= v.
Proof.
  revert i; induction l as [|a l IH]; cbn; intros i; [lia|].
  destruct (v <? a) eqn:E; [lia|]. destruct i; [lia|]. intros; apply IH; lia.
Qed.
Lemma upper_bound_at l v : (upper_bound l v < length l)%nat -> v < nth (upper_bound l v) l 0.
Proof.
  induction l as [|a l IH]; cbn; [lia|]. destruct (v <? a) eqn:E; [lia|]. intros; apply IH; lia.
Qed.
Lemma upper_bound_after l v i : sorted_le l -> (upper_bound l v <= i)%nat -> (i < length l)%nat ->
  v < nth i l 0.
Proof.
  intros Hs Hi Hl. pose proof (upper_bound_at l v ltac:(lia)).
  specialize (Hs (upper_bound l v) i Hi Hl). lia.
Qed.
(* characterisation *)
Lemma lower_bound_unique l v k : sorted_le l -> (k <= length l)%nat ->
  (forall i, (i < k)%nat -> nth i l 0 < v) ->
  ((k < length l)%nat -> v <= nth k l 0) -> lower_bound l v = k.
Proof.
  intros Hs Hk H1 H2. destruct (Nat.lt_trichotomy (lower_bound l v) k) as [L|[E|L]]; [|exact E|].
  - specialize (H1 _ L). pose proof (lower_bound_at l v ltac:(lia)). lia.
  - pose proof (lower_bound_le l v). specialize (H2 ltac:(lia)).
    pose proof (lower_bound_before l v k L). lia.
Qed.
Lemma lower_bound_nth l i : sorted_lt l -> (i < length l)%nat -> lower_bound l (nth i l 0) = i.
Proof.
  intros Hs Hi. apply lower_bound_unique; [apply sorted_lt_le; assumption|lia| |lia].
  intros j Hj. apply Hs; assumption.
Qed.
Lemma lower_bound_mono l u v : u <= v -> (lower_bound l u <= lower_bound l v)%nat.
Proof.
  intros H. induction l as [|a l IH]; cbn; [lia|].
  destruct (a <? u) eqn:E1; destruct (a <? v) eqn:E2; lia.
Qed.

Lemma bsearch_inv fuel l v : sorted_le l -> forall first len,
  (len <= fuel)%nat -> (first + len <= length l)%nat ->
  (forall i, (i < first)%nat -> nth i l 0 < v) ->
  ((first + len < length l)%nat -> v <= nth (first + len) l 0) ->
  bsearch fuel l v first len = lower_bound l v.
Proof.
  intros Hs. induction fuel as [|f IH]; cbn; intros first len Hf Hl H1 H2.
  - symmetry. assert (len = O) by lia. subst len. rewrite Nat.add_0_r in H2.
    apply lower_bound_unique; auto; lia.
  - destruct (Nat.eqb_spec len 0) as [->|Hn].
    + symmetry. rewrite Nat.add_0_r in H2. apply lower_bound_unique; auto; lia.
    + assert (Hd : (Nat.div2 len < len)%nat) by (apply Nat.lt_div2; lia).
      set (h := Nat.div2 len) in *. destruct (nth (first + h) l 0 <? v) eqn:E.
      * apply IH; try lia.
        -- intros i Hi. pose proof (Hs i (first + h)%nat ltac:(lia) ltac:(lia)). lia.
        -- intros Hlt. replace (first + h + 1 + (len - h - 1))%nat with (first + len)%nat in * by lia. auto.
      * apply IH; try lia. exact H1.
Qed.
Theorem bsearch_lower_bound l v : sorted_le l ->
  bsearch (length l) l v 0 (length l) = lower_bound l v.
Proof. intros Hs. apply bsearch_inv; auto; cbn; lia. Qed.
