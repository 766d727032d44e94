(* All rounds together: what is recorded for a cell. *)
From Verif Require Import Base PaModel PaSpec PaProofs PaProofs2 PaProofs3 PaProofs4.

Lemma pat_eqb_eq a b : pat_eqb a b = true <-> a = b.
Proof.
  unfold pat_eqb. revert b. induction a as [|x a IH]; intros [|y b]; cbn [length Nat.eqb combine forallb];
    try (split; (reflexivity || discriminate)).
  cbn [fst snd]. split.
  - intros H. apply andb_true_iff in H as [H1 H]. apply andb_true_iff in H as [H2 H3].
    apply Z.eqb_eq in H2. subst y. f_equal. apply IH. now rewrite H1, H3.
  - intros H. injection H as -> ->. destruct (IH b) as [_ H]. specialize (H eq_refl).
    apply andb_true_iff in H as [-> ->]. now rewrite Z.eqb_refl.
Qed.
Lemma combine_inj {A B} (l : list A) : forall (a b : list B), length a = length l -> length b = length l ->
  combine l a = combine l b -> a = b.
Proof.
  induction l as [|x l IH]; intros [|y a] [|z b] Ha Hb H; try discriminate; [reflexivity|].
  cbn in H. injection H as -> H. f_equal. apply IH; auto.
Qed.

Lemma pattern_vias_aux pins : forall pre pat,
  flat_map (fun x => via_of (pre ++ pins) (fst x) (snd x))
    (combine (map Z.of_nat (seq (length pre) (length pins))) pat) = vias_of pins pat.
Proof.
  induction pins as [|p pins IH]; intros pre pat; [reflexivity|].
  cbn [length seq map]. destruct pat as [|a pat]; [reflexivity|].
  cbn [combine flat_map vias_of fst snd]. f_equal.
  - unfold via_of, ap_at, pin_at. rewrite Nat2Z.id, app_nth2, Nat.sub_diag by lia. reflexivity.
  - specialize (IH (pre ++ [p]) pat). rewrite app_length in IH. cbn [length] in IH.
    rewrite Nat.add_1_r, <- app_assoc in IH. exact IH.
Qed.
Lemma pattern_vias_eq pins pat : pattern_vias pins pat = vias_of pins pat.
Proof.
  unfold pattern_vias, upto, numPins. rewrite Nat2Z.id. exact (pattern_vias_aux pins [] pat).
Qed.

Section Rounds.
  Variable drc : list (Z * Z) -> bool.
  Variable blamed : list (Z * Z) -> Z -> bool.
  Variable pins : list pin.
  Variables (M dim : Z).
  Hypothesis SE : sensible pins M.
  Hypothesis ne : pins <> [].
  Hypothesis dim_ok : forall p, In p pins -> Z.of_nat (length (pinAps p)) <= dim.

  Record sound (s : pstate) : Prop := {
    so_costs : costs_in pins dim (psNodes s);
    so_cache : cache_ok drc pins dim (psVio s);
    so_seen : forall pat, In pat (psSeen s) -> choice (ap_counts pins) pat;
    so_out : forall p, In p (psOut s) -> exists pat, In pat (psSeen s) /\ p = combine (map pinId pins) pat /\
       acceptable drc (vias_of pins pat) = true;
    so_nodup : NoDup (psOut s) }.

  Lemma fresh_sound : sound (fresh pins dim []).
  Proof.
    constructor; cbn [psNodes psVio psSeen psOut fresh].
    - apply (init_costs_in pins M dim SE ne dim_ok).
    - intros i a b _ _ _. left. reflexivity.
    - intros pat [].
    - intros p [].
    - constructor.
  Qed.

  Lemma round_sound s : sound s -> exists again s', round drc blamed pins dim s = Some (again, s') /\
    sound s' /\ full pins dim (psVio s') /\ (length (psOut s') <= S (length (psOut s)))%nat.
  Proof.
    intros [C1 C2 C3 C4 C5]. unfold round, search.
    destruct (perform_any drc pins M dim SE ne dim_ok (psUsed s) (psViol s) (psNodes s) (psVio s) C1 C2)
      as (P1 & P2 & P3 & pat & Hr & Hch).
    destruct (genPatterns_perform drc pins dim (psUsed s) (psViol s) (genPatterns_reset pins dim (psNodes s), psVio s))
      as [t' c'] eqn:Ep. cbn [fst snd] in *.
    unfold genPatterns_commit. cbn [psNodes psVio psSeen psUsed psViol psOut]. rewrite Hr.
    destruct (existsb (pat_eqb pat) (psSeen s)) eqn:Ex.
    { eexists false, _. split; [reflexivity|]. split; [|split; [exact P3|cbn [psOut]; lia]].
      constructor; cbn [psNodes psVio psSeen psUsed psViol psOut]; assumption. }
    assert (Hnew : ~ In pat (psSeen s)).
    { intros Hin. assert (existsb (pat_eqb pat) (psSeen s) = true); [|congruence].
      apply existsb_exists. exists pat. split; [exact Hin|]. now apply pat_eqb_eq. }
    destruct (genPatterns_gc drc (pattern_vias pins pat)) eqn:Eg.
    - eexists true, _. split; [reflexivity|]. split; [|split; [exact P3|cbn [psOut]; rewrite app_length; cbn; lia]].
      constructor; cbn [psNodes psVio psSeen psUsed psViol psOut]; try assumption.
      + intros q [<- | Hq]; [exact Hch|auto].
      + intros p Hp. apply in_app_iff in Hp as [Hp|[<- | []]].
        * destruct (C4 p Hp) as (q & Hq & E1 & E2). exists q. split; [right; exact Hq|auto].
        * exists pat. split; [left; reflexivity|]. split; [reflexivity|].
          rewrite pattern_vias_eq in Eg. exact Eg.
      + apply NoDup_rev in C5. rewrite <- (rev_involutive (psOut s)).
        change (rev (rev (psOut s)) ++ [combine (map pinId pins) pat])
          with (rev (combine (map pinId pins) pat :: rev (psOut s))).
        apply NoDup_rev. constructor; [|exact C5]. intros Hin. apply in_rev in Hin.
        destruct (C4 _ Hin) as (q & Hq & E1 & _). apply Hnew.
        apply combine_inj in E1; [now subst q| |].
        * rewrite map_length. rewrite <- (choice_length _ _ Hch). unfold ap_counts. apply map_length.
        * rewrite map_length. rewrite <- (choice_length _ _ (C3 _ Hq)). unfold ap_counts. apply map_length.
    - eexists true, _. split; [reflexivity|]. split; [|split; [exact P3|cbn [psOut]; lia]].
      constructor; cbn [psNodes psVio psSeen psUsed psViol psOut]; try assumption.
      + intros q [<- | Hq]; [exact Hch|auto].
      + intros p Hp. destruct (C4 p Hp) as (q & Hq & E1 & E2). exists q. split; [right; exact Hq|auto].
  Qed.

  Lemma rounds_sound k : forall s, sound s -> exists s', rounds drc blamed k pins dim s = Some s' /\
    sound s' /\ (length (psOut s') <= k + length (psOut s))%nat.
  Proof.
    induction k as [|k IH]; intros s Hs; cbn [rounds]; [exists s; auto|].
    destruct (round_sound s Hs) as (again & s1 & -> & Hs1 & _ & Hl). destruct again.
    - destruct (IH s1 Hs1) as (s2 & -> & Hs2 & Hl2). exists s2. split; [reflexivity|]. split; [exact Hs2|lia].
    - exists s1. split; [reflexivity|]. split; [exact Hs1|lia].
  Qed.

  Lemma sound_good s : sound s -> forall p, In p (psOut s) -> good_pattern drc pins p.
  Proof.
    intros [C1 C2 C3 C4 C5] p Hp. destruct (C4 p Hp) as (pat & Hin & E & Ha). exists pat. auto.
  Qed.

  Lemma reached_sound k s : reached drc blamed pins dim k s ->
    sound s /\ ((0 < k)%nat -> full pins dim (psVio s)).
  Proof.
    induction 1 as [|k s s' Hr [IH1 _] Hround]; [split; [apply fresh_sound|lia]|].
    destruct (round_sound s IH1) as (again & s1 & E & Hs1 & Hf & _).
    rewrite Hround in E. injection E as <- <-. auto.
  Qed.

  Lemma search_nodes s : psNodes (search drc pins dim s) =
    fst (genPatterns_perform drc pins dim (psUsed s) (psViol s) (genPatterns_reset pins dim (psNodes s), psVio s)).
  Proof. unfold search. destruct (genPatterns_perform _ _ _ _ _ _). reflexivity. Qed.

  Lemma reached_cheapest k s : reached drc blamed pins dim k s -> (0 < k)%nat \/ look_back_harmless drc pins ->
    exists pat, read_off (psNodes (search drc pins dim s)) (numPins pins) dim = Some pat /\
      cheapest (pin_pair drc pins (psUsed s) (psViol s)) (ap_counts pins) pat.
  Proof.
    intros Hr Hk. destruct (reached_sound k s Hr) as [Hs Hf]. rewrite search_nodes.
    apply (perform_cheapest drc pins M dim SE ne dim_ok); [apply (so_costs _ Hs)|].
    split; [apply (so_cache _ Hs)|]. destruct Hk; auto.
  Qed.
End Rounds.

Lemma maxAps_ge pins p : In p pins -> Z.of_nat (length (pinAps p)) <= maxAps pins.
Proof.
  unfold maxAps. intros Hin.
  assert (G : forall l m, (forall x, In x l -> x <= fold_left Z.max l m) /\ m <= fold_left Z.max l m).
  { induction l as [|y l IH]; intros m; cbn [fold_left]; [split; [intros x []|lia]|].
    destruct (IH (Z.max m y)) as [H1 H2]. split; [|lia]. intros x [<- | Hx]; [lia|auto]. }
  apply G. apply (in_map (fun p => Z.of_nat (length (pinAps p)))) in Hin. exact Hin.
Qed.
Lemma sensible_rev pins M : sensible pins M -> sensible (rev pins) M.
Proof.
  intros [H1 H2 H3 H4]. constructor; auto.
  - intros p Hp. apply in_rev in Hp. auto.
  - intros p x Hp Hx. apply in_rev in Hp. apply (H2 p x Hp Hx).
  - rewrite rev_length. exact H4.
Qed.

Lemma genPatterns_good drc blamed pins M : sensible pins M ->
  exists out, genPatterns drc blamed pins = Some out /\ NoDup out /\ (length out <= 5)%nat /\
    ((forall p, In p out -> good_pattern drc pins p) \/ (forall p, In p out -> good_pattern drc (rev pins) p)).
Proof.
  intros SE. unfold genPatterns. destruct pins as [|p0 pins0] eqn:Ep.
  { exists []. split; [reflexivity|]. split; [constructor|]. split; [cbn; lia|]. left. intros p []. }
  rewrite <- Ep in *. assert (ne : pins <> []) by (rewrite Ep; discriminate).
  pose proof (maxAps_ge pins) as D1.
  destruct (rounds_sound drc blamed pins M (maxAps pins) SE ne D1 ACCESS_PATTERN_END_ITERATION_NUM
    (fresh pins (maxAps pins) []) (fresh_sound drc pins M (maxAps pins) SE ne D1)) as (s & -> & Hs & Hl).
  destruct (psOut s) as [|o os] eqn:Eo.
  - assert (D2 : forall p, In p (rev pins) -> Z.of_nat (length (pinAps p)) <= maxAps pins)
      by (intros p Hp; apply in_rev in Hp; auto).
    assert (ne2 : rev pins <> []) by (intros E; apply ne; rewrite <- (rev_involutive pins), E; reflexivity).
    destruct (rounds_sound drc blamed (rev pins) M (maxAps pins) (sensible_rev _ _ SE) ne2 D2 ACCESS_PATTERN_END_ITERATION_NUM
      (fresh (rev pins) (maxAps pins) []) (fresh_sound drc (rev pins) M (maxAps pins) (sensible_rev _ _ SE) ne2 D2))
      as (s2 & -> & Hs2 & Hl2).
    exists (psOut s2). split; [reflexivity|]. split; [apply (so_nodup _ _ _ _ Hs2)|]. split; [exact Hl2|].
    right. apply (sound_good drc (rev pins) (maxAps pins)). exact Hs2.
  - exists (o :: os). split; [reflexivity|]. rewrite <- Eo. split; [apply (so_nodup _ _ _ _ Hs)|].
    split; [rewrite Eo; exact Hl|]. left. apply (sound_good drc pins (maxAps pins)). exact Hs.
Qed.
