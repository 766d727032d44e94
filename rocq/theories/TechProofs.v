From Verif Require Import Base Stl TechModel TechSpec.

Lemma idx2_last_below hdr v : hdr <> [] -> sorted_le hdr -> last_below hdr v (idx2 hdr v).
Proof.
  intros Hne Hs. unfold idx2. pose proof (lower_bound_le hdr v).
  destruct hdr as [|a l]; [congruence|]. set (h := a :: l) in *.
  assert (0 < length h)%nat by (cbn; lia). split; [lia|]. split.
  - destruct (lower_bound h v) eqn:E; [left; lia|]. right.
    apply lower_bound_before. lia.
  - intros j Hj Hl. apply lower_bound_after; auto; lia.
Qed.
Lemma last_below_unique hdr v i j : last_below hdr v i -> last_below hdr v j -> i = j.
Proof.
  intros (A1 & A2 & A3) (B1 & B2 & B3).
  destruct (Nat.lt_trichotomy i j) as [L|[E|L]]; [|exact E|].
  - specialize (A3 _ L B1). destruct B2; lia.
  - specialize (B3 _ L A1). destruct A2; lia.
Qed.
Lemma last_below_mono hdr u v i j : u <= v -> last_below hdr u i -> last_below hdr v j -> (i <= j)%nat.
Proof.
  intros H (A1 & A2 & A3) (B1 & B2 & B3).
  destruct (Nat.le_gt_cases i j); [assumption|]. specialize (B3 _ H0 A1). destruct A2; lia.
Qed.
Lemma last_nth (l : list Z) : last l 0 = nth (length l - 1) l 0.
Proof.
  induction l as [|a l IH]; [reflexivity|]. destruct l as [|b l]; [reflexivity|].
  change (last (a :: b :: l) 0) with (last (b :: l) 0). rewrite IH. cbn [length].
  replace (S (S (length l)) - 1)%nat with (S (S (length l) - 1)) by lia. reflexivity.
Qed.
Lemma row_idx1_last_below rows v : rows <> [] -> sorted_le rows -> last_below rows v (row_idx1 rows v).
Proof.
  intros Hne Hs. pose proof (idx2_last_below rows v Hne Hs) as HI.
  assert (Hh : hd 0 rows = nth 0 rows 0) by (destruct rows; reflexivity).
  assert (Hlen : (0 < length rows)%nat) by (destruct rows; [congruence|cbn; lia]).
  unfold row_idx1. rewrite Hh, last_nth.
  destruct ((_ <=? _) && _) eqn:E.
  - unfold idx2 in HI. cbv zeta. destruct (Nat.eqb_spec (lower_bound rows v) 0) as [E0|]; [rewrite E0 in HI|]; exact HI.
  - destruct (v <? nth 0 rows 0) eqn:E1.
    + split; [lia|]. split; [auto|]. intros j Hj Hl. pose proof (Hs O j ltac:(lia) Hl). lia.
    + split; [lia|]. split; [right; lia|]. intros; lia.
Qed.

Lemma find1_spec rows vals v : rows <> [] -> sorted_le rows -> length vals = length rows ->
  exists i, last_below rows v i /\ find1 rows vals v = Some (nth i vals 0).
Proof.
  intros Hne Hs Hl. exists (row_idx1 rows v). pose proof (row_idx1_last_below rows v Hne Hs) as H.
  split; [exact H|]. apply nth_error_nth'. destruct H. lia.
Qed.
Lemma find2_spec rows cols vals r c : rows <> [] -> cols <> [] -> sorted_le rows -> sorted_le cols ->
  table_shape rows cols vals ->
  exists i j, last_below rows r i /\ last_below cols c j /\ find2 rows cols vals r c = Some (cell vals i j).
Proof.
  intros Hr Hc Sr Sc [T1 T2]. exists (idx2 rows r), (idx2 cols c).
  pose proof (idx2_last_below rows r Hr Sr) as H1. pose proof (idx2_last_below cols c Hc Sc) as H2.
  split; [exact H1|]. split; [exact H2|]. unfold find2, cell.
  rewrite (nth_error_nth' vals []) by (destruct H1; lia).
  assert (Hin : In (nth (idx2 rows r) vals []) vals) by (apply nth_In; destruct H1; lia).
  rewrite (nth_error_nth' _ 0) by (rewrite (T2 _ Hin); destruct H2; lia). reflexivity.
Qed.
Lemma find2_max_spec rows cols vals : rows <> [] -> cols <> [] -> table_shape rows cols vals ->
  find2_max vals = Some (cell vals (length rows - 1) (length cols - 1)) /\
  find2_min vals = Some (cell vals 0 0).
Proof.
  intros Hr Hc [T1 T2]. unfold find2_max, find2_min, cell.
  assert (0 < length rows)%nat by (destruct rows; [congruence|cbn; lia]).
  assert (0 < length cols)%nat by (destruct cols; [congruence|cbn; lia]).
  rewrite (nth_error_nth' vals []) by lia.
  assert (Hin : In (nth (length rows - 1) vals []) vals) by (apply nth_In; lia).
  rewrite T1. rewrite (T2 _ Hin). rewrite (nth_error_nth' _ 0) by (rewrite (T2 _ Hin); lia).
  split; [reflexivity|].
  destruct vals as [|r0 vs]; [cbn in *; lia|]. cbn.
  specialize (T2 r0 (or_introl eq_refl)). destruct r0; [cbn in *; lia|reflexivity].
Qed.

Lemma is_included_iff ivs len : is_included ivs len = true <-> in_some_interval ivs len.
Proof.
  unfold in_some_interval. induction ivs as [|[a b] r IH]; cbn.
  - split; [discriminate|]. intros (a & b & [] & _).
  - destruct ((a <=? len) && (b >=? len)) eqn:E.
    + split; [|reflexivity]. intros _. exists a, b. split; [auto|lia].
    + rewrite IH. split.
      * intros (x & y & Hin & H). exists x, y. auto.
      * intros (x & y & [Ei|Hin] & H); [inversion Ei; subst; lia|]. exists x, y; auto.
Qed.
Lemma entry3_inj a b c a' b' c' : entry_idx3 a b c = entry_idx3 a' b' c' -> (a, b, c) = (a', b', c').
Proof. destruct a, b, c, a', b', c'; cbv; congruence. Qed.
Lemma entry2_inj a b a' b' : entry_idx2 a b = entry_idx2 a' b' -> (a, b) = (a', b').
Proof. destruct a, b, a', b'; cbv; congruence. Qed.
