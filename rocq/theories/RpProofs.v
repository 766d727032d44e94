(* Merging of ranges, and what the queries read from the tables. *)
From Verif Require Import Base Stl GeomModel GeomSpec TechModel TechSpec TechProofs GcModel GcSpec GcProofs RpModel RpSpec.

(* --- interval sets --- *)
Definition covers (s : list (Z * Z)) (x : Z) : Prop := exists r, In r s /\ fst r <= x <= snd r.
Lemma icl_insert_covers s : forall a b x, covers (icl_insert a b s) x <-> (a <= x <= b) \/ covers s x.
Proof.
  unfold covers. induction s as [|[c d] r IH]; intros a b x; simpl.
  - destruct (Z.ltb_spec b a).
    + split; [intros (q & [] & _)|]. intros [?|(q & [] & _)]; lia.
    + simpl. split.
      * intros (q & [<- | []] & Hq). simpl in Hq. lia.
      * intros [?|(q & [] & _)]. exists (a, b). simpl. auto.
  - destruct (Z.ltb_spec b a).
    { simpl. split; [intros H'; right; exact H'|]. intros [?|H']; [lia|exact H']. }
    destruct (Z.ltb_spec (b + 1) c).
    + simpl. split.
      * intros (q & [<- | Hin] & Hq); [left; exact Hq|right; exists q; auto].
      * intros [Hx|(q & Hin & Hq)]; [exists (a, b); auto|exists q; auto].
    + destruct (Z.ltb_spec (d + 1) a).
      * simpl. split.
        -- intros (q & [<- | Hin] & Hq); [right; exists (c, d); auto|].
           destruct (proj1 (IH a b x) (ex_intro _ q (conj Hin Hq))) as [Hx|(q' & K1 & K2)]; [auto|right; exists q'; auto].
        -- intros [Hx|(q & [<- | Hin] & Hq)].
           ++ destruct (proj2 (IH a b x) (or_introl Hx)) as (q & K1 & K2). exists q; auto.
           ++ exists (c, d); auto.
           ++ destruct (proj2 (IH a b x) (or_intror (ex_intro _ q (conj Hin Hq)))) as (q' & H1' & H2'). exists q'; auto.
      * rewrite IH. split.
        -- intros [Hx|(q & Hin & Hq)].
           ++ destruct (Z_le_gt_dec a x); [destruct (Z_le_gt_dec x b); [left; lia|]|].
              ** right. exists (c, d). simpl. split; [auto|lia].
              ** right. exists (c, d). simpl. split; [auto|lia].
           ++ right. exists q. simpl. auto.
        -- intros [Hx|(q & [<- | Hin] & Hq)]; [left; lia| |right; exists q; auto].
           left. simpl in Hq. lia.
Qed.
Definition holds (s : list (Z * Z)) (a b : Z) : Prop := exists r, In r s /\ fst r <= a /\ b <= snd r.
Lemma icl_insert_new s : forall a b, a <= b -> holds (icl_insert a b s) a b.
Proof.
  unfold holds. induction s as [|[c d] r IH]; intros a b Hab; simpl; destruct (Z.ltb_spec b a); try lia.
  - exists (a, b). simpl. split; [auto|lia].
  - destruct (Z.ltb_spec (b + 1) c); [exists (a, b); simpl; split; [auto|lia]|].
    destruct (Z.ltb_spec (d + 1) a).
    + destruct (IH a b Hab) as (q & H1' & H2'). exists q. simpl. auto.
    + destruct (IH (Z.min a c) (Z.max b d) ltac:(lia)) as (q & H1' & H2'). exists q. split; [auto|lia].
Qed.
Lemma icl_insert_old s : forall a b x y, x <= y -> holds s x y -> holds (icl_insert a b s) x y.
Proof.
  unfold holds. induction s as [|[c d] r IH]; intros a b x y Hxy (q & Hin & Hq); [destruct Hin|]. simpl.
  destruct (Z.ltb_spec b a); [exists q; auto|].
  destruct (Z.ltb_spec (b + 1) c); [exists q; simpl in *; auto|].
  destruct (Z.ltb_spec (d + 1) a).
  - destruct Hin as [<- | Hin]; [exists (c, d); simpl; auto|].
    destruct (IH a b x y Hxy (ex_intro _ q (conj Hin Hq))) as (q' & H1' & H2'). exists q'. simpl. auto.
  - destruct Hin as [<- | Hin].
    + simpl in Hq. destruct (icl_insert_new r (Z.min a c) (Z.max b d) ltac:(lia)) as (q' & H1' & H2').
      exists q'. split; [auto|lia].
    + apply (IH _ _ x y Hxy). exists q; auto.
Qed.
Lemma merge_fold_covers rs : forall s x,
  covers (fold_left (fun s r => icl_insert (fst r) (snd r) s) rs s) x <-> covers rs x \/ covers s x.
Proof.
  induction rs as [|r rs IH]; intros s x; simpl.
  - split; [auto|]. intros [(q & [] & _)|H]; exact H.
  - rewrite IH, icl_insert_covers. unfold covers. simpl. split.
    + intros [(q & Hin & Hq)|[Hx|H]]; [left; exists q; auto|left; exists r; auto|auto].
    + intros [(q & [<- | Hin] & Hq)|H]; [auto|left; exists q; auto|auto].
Qed.
Lemma merge_fold_holds rs : forall s a b, a <= b -> (In (a, b) rs \/ holds s a b) ->
  holds (fold_left (fun s r => icl_insert (fst r) (snd r) s) rs s) a b.
Proof.
  induction rs as [|r rs IH]; intros s a b Hab H; simpl.
  - destruct H as [[]|H]; exact H.
  - apply IH; [exact Hab|]. destruct H as [[-> | H]|H]; [right; now apply icl_insert_new|auto|right; now apply icl_insert_old].
Qed.
Lemma is_included_spec ivs len : is_included ivs len = true <-> exists r, In r ivs /\ fst r <= len <= snd r.
Proof.
  induction ivs as [|[a b] r IH]; simpl.
  - split; [discriminate|intros (q & [] & _)].
  - destruct (Z.leb_spec a len); simpl.
    + rewrite Z.geb_leb. destruct (Z.leb_spec len b).
      * split; [intros _; exists (a, b); simpl; auto|auto].
      * rewrite IH. split; [intros (q & Hin & Hq); exists q; auto|].
        intros (q & [<- | Hin] & Hq); [simpl in Hq; lia|exists q; auto].
    + rewrite IH. split; [intros (q & Hin & Hq); exists q; auto|].
      intros (q & [<- | Hin] & Hq); [simpl in Hq; lia|exists q; auto].
Qed.
(* what lies strictly inside a range is forbidden *)
Lemma merge_complete rs a b d : In (a, b) rs -> a < d < b -> is_included (merge_ranges rs) d = true.
Proof.
  intros Hin Hd. apply is_included_spec. unfold merge_ranges.
  destruct (merge_fold_holds rs [] a b ltac:(lia) (or_introl Hin)) as (r & Hr & H1 & H2).
  exists (fst r + 1, snd r - 1). split; [apply in_map_iff; exists r; auto|]. simpl. lia.
Qed.
(* what is forbidden lies in a range *)
Lemma merge_sound rs d : is_included (merge_ranges rs) d = true -> exists a b, In (a, b) rs /\ a <= d <= b.
Proof.
  intros H. apply is_included_spec in H. destruct H as (q & Hin & Hq). unfold merge_ranges in Hin.
  apply in_map_iff in Hin. destruct Hin as (r & <- & Hr). simpl in Hq.
  assert (Hc : covers rs d).
  { destruct (proj1 (merge_fold_covers rs [] d)) as [H|(x & [] & _)]; [|exact H]. exists r. split; [exact Hr|lia]. }
  destruct Hc as ([a b] & H1 & H2). exists a, b. auto.
Qed.
(* if every range starts at 0 or above, nothing forbidden is 0 *)
Lemma merge_positive rs d : (forall a b, In (a, b) rs -> 0 <= a) -> is_included (merge_ranges rs) d = true -> 0 < d.
Proof.
  intros H0 H. apply is_included_spec in H. destruct H as (q & Hin & Hq). unfold merge_ranges in Hin.
  apply in_map_iff in Hin. destruct Hin as (r & <- & Hr). simpl in Hq.
  assert (Hc : covers rs (fst r)).
  { destruct (proj1 (merge_fold_covers rs [] (fst r))) as [H|(x & [] & _)]; [|exact H]. exists r. split; [exact Hr|lia]. }
  destruct Hc as ([a b] & H1 & H2). specialize (H0 a b H1). simpl in *. lia.
Qed.
Lemma merge_single a b d : is_included (merge_ranges [(a, b)]) d = true <-> a < d < b.
Proof.
  unfold merge_ranges. simpl. destruct (Z.ltb_spec b a); simpl; [split; [discriminate|lia]|].
  rewrite Z.geb_leb. destruct (Z.leb_spec (a + 1) d), (Z.leb_spec d (b - 1)); simpl; split; auto; try discriminate; lia.
Qed.

(* --- rows of the tables --- *)
Lemma routing_seq (P : Z -> bool) n : (forall k, (k < n)%nat -> P (Z.of_nat k) = (2 <=? Z.of_nat k) && Z.even (Z.of_nat k)) ->
  filter P (map (fun k => 0 + Z.of_nat k) (seq 0 n)) = map (fun k => layer_at (Z.of_nat k)) (seq 0 (Nat.div2 (n - 1))).
Proof.
  induction n as [|n IH]; intros HP; [reflexivity|].
  rewrite seq_S, map_app, filter_app, IH by (intros k Hk; apply HP; lia). simpl map. simpl filter.
  rewrite HP by lia. rewrite ?Nat.sub_0_r. replace (S n - 1)%nat with n by lia. unfold layer_at.
  destruct (Nat.Even_or_Odd n) as [[m Hm]|[m Hm]].
  - subst n. destruct m as [|m].
    + reflexivity.
    + replace (2 * S m - 1)%nat with (S (2 * m)) by lia.
      rewrite Nat.div2_double, Nat.div2_succ_double.
      replace (Z.even (Z.of_nat (2 * S m))) with true.
      2:{ symmetry. apply Z.even_spec. exists (Z.of_nat (S m)). lia. }
      destruct (Z.leb_spec 2 (Z.of_nat (2 * S m))); [|lia]. cbn [andb].
      rewrite seq_S, map_app, Nat.add_0_l. f_equal. cbn [map]. f_equal. lia.
  - subst n. replace (2 * m + 1 - 1)%nat with (2 * m)%nat by lia.
    replace (2 * m + 1)%nat with (S (2 * m)) by lia.
    rewrite Nat.div2_double, Nat.div2_succ_double.
    replace (Z.even (Z.of_nat (S (2 * m)))) with false.
    2:{ symmetry. rewrite <- Z.negb_odd. apply negb_false_iff, Z.odd_spec. exists (Z.of_nat m). lia. }
    rewrite andb_false_r. apply app_nil_r.
Qed.
Lemma routing_layers_nth T z : good_tech T -> 0 <= z -> layer_at z <= rt_top T ->
  nth_error (routing_layers T) (Z.to_nat z) = Some (layer_at z).
Proof.
  intros G Hz Ht. unfold routing_layers, zrange. unfold layer_at in Ht.
  rewrite (routing_seq (fun l => rl_routing (rt_layer T l))).
  - rewrite nth_error_map, nth_error_nth' with (d := O).
    + rewrite seq_nth. simpl. f_equal. rewrite Z2Nat.id by lia. reflexivity.
      rewrite Nat.div2_div. apply Nat.div_le_lower_bound; lia.
    + rewrite seq_length, Nat.div2_div. apply Nat.div_le_lower_bound; lia.
  - intros k Hk. pose proof (gt_routing T G (Z.of_nat k) ltac:(lia)) as R.
    destruct (rl_routing (rt_layer T (Z.of_nat k))).
    + destruct R as [R _]. destruct (R eq_refl) as [R1 R2]. rewrite R2. destruct (Z.leb_spec 2 (Z.of_nat k)); [reflexivity|lia].
    + destruct (Z.leb_spec 2 (Z.of_nat k)); [|reflexivity]. simpl.
      destruct (Z.even (Z.of_nat k)); [|reflexivity]. destruct R as [_ R]. apply R. auto.
Qed.

Lemma leaves_side T l down v : 1 <= l <= rt_top T -> leaves T l down v -> side_via T l down = Some v.
Proof.
  unfold leaves, side_via. intros Hl. destruct down; intros [H1 H2].
  - destruct (Z.leb_spec 0 (l - 1)); [exact H2|lia].
  - destruct (Z.leb_spec (l + 1) (rt_top T)); [exact H2|lia].
Qed.
Lemma side_leaves T l down v : l <= rt_top T -> side_via T l down = Some v -> leaves T l down v.
Proof.
  unfold leaves, side_via. intros Hl. destruct down.
  - destruct (Z.leb_spec 0 (l - 1)); [|discriminate]. intros ->. split; [lia|reflexivity].
  - destruct (Z.leb_spec (l + 1) (rt_top T)); [|discriminate]. intros ->. split; [lia|reflexivity].
Qed.
Lemma v2v_query_entry T z s1 s2 dirx d : good_tech T -> 0 <= z -> layer_at z <= rt_top T ->
  v2v_query T z s1 s2 dirx d =
    Some (is_included (v2v_entry T (layer_at z) (side_via T (layer_at z) s1) (side_via T (layer_at z) s2) dirx) d).
Proof.
  intros G Hz Ht. unfold v2v_query, via2via_forbidden, tbl_get, v2v_table.
  rewrite nth_error_map, (routing_layers_nth T z G Hz Ht). simpl option_map.
  destruct s1, s2, dirx; reflexivity.
Qed.
Lemma turn_query_entry T z s dirx d : good_tech T -> 0 <= z -> layer_at z <= rt_top T ->
  turn_query T z s dirx d = Some (is_included (turn_entry T (layer_at z) (side_via T (layer_at z) s) dirx) d).
Proof.
  intros G Hz Ht. unfold turn_query, via_turn_forbidden, tbl_get, turn_table.
  rewrite nth_error_map, (routing_layers_nth T z G Hz Ht). simpl option_map.
  destruct s, dirx; reflexivity.
Qed.
Lemma leaves_facts T l down v : good_tech T -> leaves T l down v ->
  rv_cutl v = (if down then l - 1 else l + 1) /\ (rv_l1 v =? l) = negb down /\
  via_on v l = pad v down /\ centred (pad v down) /\ centred (far_pad v down) /\ centred (rv_bc v).
Proof.
  intros G [_ H]. destruct (gt_via T G _ _ H) as (H1 & H2 & H3 & C1 & C2 & C3).
  unfold via_on, pad, far_pad. rewrite H2. destruct down.
  - destruct (Z.eqb_spec (l - 1 - 1) l); [lia|]. simpl. auto 10.
  - destruct (Z.eqb_spec (l + 1 - 1) l); [|lia]. simpl. auto 10.
Qed.
