(* C09, C10. *)
From Verif Require Import Base Stl TechModel TechSpec TechProofs.

Theorem C09_1d_lookup rows vals v :
  rows <> [] -> sorted_le rows -> length vals = length rows ->
  exists i, last_below rows v i /\ find1 rows vals v = Some (nth i vals 0).
Proof. exact (find1_spec rows vals v). Qed.
Print Assumptions C09_1d_lookup.

Theorem C09_1d_monotone_bounded rows vals u v :
  rows <> [] -> sorted_le rows -> length vals = length rows -> list_monotone vals -> u <= v ->
  exists a b lo hi, find1 rows vals u = Some a /\ find1 rows vals v = Some b /\
    find1_min vals = Some lo /\ find1_max vals = Some hi /\ lo <= a <= b /\ b <= hi.
Proof.
  intros Hne Hs Hl Hm Huv.
  destruct (find1_spec rows vals u Hne Hs Hl) as (i & Hi & Ei).
  destruct (find1_spec rows vals v Hne Hs Hl) as (j & Hj & Ej).
  pose proof (last_below_mono _ _ _ _ _ Huv Hi Hj).
  assert (0 < length rows)%nat by (destruct rows; [congruence|cbn; lia]).
  destruct Hi as [Hi _], Hj as [Hj _].
  exists (nth i vals 0), (nth j vals 0), (nth 0 vals 0), (nth (length vals - 1) vals 0).
  split; [exact Ei|]. split; [exact Ej|]. split.
  - unfold find1_min. destruct vals; [cbn in *; lia|reflexivity].
  - split; [apply nth_error_nth'; lia|]. repeat split; apply Hm; lia.
Qed.
Print Assumptions C09_1d_monotone_bounded.

Theorem C09_2d_lookup rows cols vals r c :
  rows <> [] -> cols <> [] -> sorted_le rows -> sorted_le cols -> table_shape rows cols vals ->
  exists i j, last_below rows r i /\ last_below cols c j /\
    find2 rows cols vals r c = Some (cell vals i j).
Proof. exact (find2_spec rows cols vals r c). Qed.
Print Assumptions C09_2d_lookup.

Theorem C09_2d_monotone_bounded rows cols vals r r' c c' :
  rows <> [] -> cols <> [] -> sorted_le rows -> sorted_le cols -> table_shape rows cols vals ->
  table_monotone vals (length rows) (length cols) -> r <= r' -> c <= c' ->
  exists a b lo hi, find2 rows cols vals r c = Some a /\ find2 rows cols vals r' c' = Some b /\
    find2_min vals = Some lo /\ find2_max vals = Some hi /\ lo <= a <= b /\ b <= hi.
Proof.
  intros Hr Hc Sr Sc T Hm Lr Lc.
  destruct (find2_spec rows cols vals r c Hr Hc Sr Sc T) as (i & j & Hi & Hj & E).
  destruct (find2_spec rows cols vals r' c' Hr Hc Sr Sc T) as (i' & j' & Hi' & Hj' & E').
  destruct (find2_max_spec rows cols vals Hr Hc T) as [Emax Emin].
  pose proof (last_below_mono _ _ _ _ _ Lr Hi Hi'). pose proof (last_below_mono _ _ _ _ _ Lc Hj Hj').
  destruct Hi as [Hi _], Hj as [Hj _], Hi' as [Hi' _], Hj' as [Hj' _].
  exists (cell vals i j), (cell vals i' j'), (cell vals 0 0), (cell vals (length rows - 1) (length cols - 1)).
  repeat split; auto; apply Hm; lia.
Qed.
Print Assumptions C09_2d_monotone_bounded.

(* The prescribed position is unique, so the lookups above determine the answer. *)
Theorem C09_position_unique hdr v i j : last_below hdr v i -> last_below hdr v j -> i = j.
Proof. exact (last_below_unique hdr v i j). Qed.
Print Assumptions C09_position_unique.

(* A two-dimensional query at or below the first header decrements begin(): undefined behaviour.
   It happens exactly for those queries, e.g. for every run length <= 0 of a LEF PRL table. *)
Theorem C09_2d_undefined_at_first_header hdr v :
  hdr <> [] -> sorted_le hdr -> (idx2_ub hdr v = true <-> v <= nth 0 hdr 0).
Proof.
  intros Hne Hs. unfold idx2_ub. destruct hdr as [|a l]; [congruence|]. cbn.
  destruct (a <? v) eqn:E; cbn; split; intros; try discriminate; try reflexivity; lia.
Qed.
Print Assumptions C09_2d_undefined_at_first_header.

(* C10 *)
Theorem C10_via2via_membership over nonover layer pd cd dx len ov ans :
  via2via_forbidden over nonover layer pd cd dx len ov = Some ans ->
  exists ivs, tbl_get (if ov then over else nonover) layer
                (4 * Z.b2z (negb pd) + 2 * Z.b2z (negb cd) + Z.b2z (negb dx)) = Some ivs /\
    (ans = true <-> in_some_interval ivs len).
Proof.
  unfold via2via_forbidden.
  replace (entry_idx3 (negb pd) (negb cd) (negb dx))
    with (4 * Z.b2z (negb pd) + 2 * Z.b2z (negb cd) + Z.b2z (negb dx)) by (destruct pd, cd, dx; reflexivity).
  destruct (tbl_get _ _ _) as [ivs|]; [|discriminate].
  intros E; inversion E; subst. exists ivs. split; [reflexivity|apply is_included_iff].
Qed.
Print Assumptions C10_via2via_membership.

Theorem C10_via_turn_membership t layer down dx len ans :
  via_turn_forbidden t layer down dx len = Some ans ->
  exists ivs, tbl_get t layer (2 * Z.b2z (negb down) + Z.b2z (negb dx)) = Some ivs /\
    (ans = true <-> in_some_interval ivs len).
Proof.
  unfold via_turn_forbidden.
  replace (entry_idx2 (negb down) (negb dx)) with (2 * Z.b2z (negb down) + Z.b2z (negb dx))
    by (destruct down, dx; reflexivity).
  destruct (tbl_get _ _ _) as [ivs|]; [|discriminate].
  intros E; inversion E; subst. exists ivs. split; [reflexivity|apply is_included_iff].
Qed.
Print Assumptions C10_via_turn_membership.

Theorem C10_slots_distinct :
  (forall a b c a' b' c', entry_idx3 a b c = entry_idx3 a' b' c' -> (a, b, c) = (a', b', c')) /\
  (forall a b a' b', entry_idx2 a b = entry_idx2 a' b' -> (a, b) = (a', b')) /\
  (forall a b c, 0 <= entry_idx3 a b c < 8) /\ (forall a b, 0 <= entry_idx2 a b < 4).
Proof.
  split; [exact entry3_inj|]. split; [exact entry2_inj|]. split.
  - intros [] [] []; cbv; split; congruence.
  - intros [] []; cbv; split; congruence.
Qed.
Print Assumptions C10_slots_distinct.

Example tech_table_case :
  let rows := [0; 100; 300] in let cols := [0; 200] in let vals := [[50; 50]; [50; 60]; [50; 90]] in
  rows <> [] /\ cols <> [] /\ table_shape rows cols vals /\
  find2 rows cols vals 300 250 = Some 60 /\ find2 rows cols vals 301 201 = Some 90 /\
  find2 rows cols vals 301 200 = Some 50 /\ idx2_ub cols (-5) = true.
Proof.
  cbn -[table_shape]. repeat split; try discriminate.
  intros r [<-|[<-|[<-|[]]]]; reflexivity.
Qed.
Example tech_table_sorted : sorted_le [0; 100; 300].
Proof. intros [|[|[|i]]] [|[|[|j]]] H1 H2; cbn in *; lia. Qed.
Example tech_len_case :
  via2via_forbidden [] [[[(10, 20)]; []; []; []; []; []; []; [(5, 7)]]] 0 true true true 20 false = Some true /\
  via2via_forbidden [] [[[(10, 20)]; []; []; []; []; []; []; [(5, 7)]]] 0 true true true 21 false = Some false.
Proof. split; reflexivity. Qed.
