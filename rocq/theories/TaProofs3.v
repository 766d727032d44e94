(* Proofs about the re-assignment loop. *)
From Verif Require Import Base TaModel.
From Coq Require Import Permutation.

Lemma q_min_In c q i : q_min c q = Some i -> In i q.
Proof.
  revert i. induction q as [|a q IH]; cbn [q_min]; intros i H; [discriminate|].
  destruct (q_min c q) as [j|] eqn:E.
  - destruct (pin_lt c j a); injection H as <-; [right; apply IH; reflexivity|left; reflexivity].
  - injection H as <-. left; reflexivity.
Qed.
Lemma q_min_None c q : q_min c q = None -> q = [].
Proof.
  destruct q as [|a q]; [reflexivity|]. cbn [q_min].
  destruct (q_min c q) as [j|]; [destruct (pin_lt c j a)|]; discriminate.
Qed.
Lemma q_remove_In i q j : In j (q_remove i q) <-> In j q /\ j <> i.
Proof.
  unfold q_remove. rewrite filter_In. destruct (Nat.eqb_spec j i) as [E|E]; cbn [negb]; intuition congruence.
Qed.
Lemma q_remove_NoDup i q : NoDup q -> NoDup (q_remove i q).
Proof. apply NoDup_filter. Qed.
Lemma q_remove_length i q : In i q -> (length (q_remove i q) < length q)%nat.
Proof.
  unfold q_remove. induction q as [|a q IH]; [intros []|]. cbn [filter length]. intros [->|H].
  - rewrite Nat.eqb_refl. cbn [negb].
    assert (length (filter (fun j => negb (Nat.eqb j i)) q) <= length q)%nat; [|lia].
    clear. induction q as [|a q IH]; cbn [filter length]; [lia|]. destruct (negb _); cbn [length]; lia.
  - specialize (IH H). destruct (negb (Nat.eqb a i)); cbn [length]; lia.
Qed.
Lemma q_add_In i q j : In j (q_add i q) <-> j = i \/ In j q.
Proof.
  unfold q_add. destruct (existsb (Nat.eqb i) q) eqn:E.
  - apply existsb_exists in E as (k & Hk & E). apply Nat.eqb_eq in E. subst k.
    split; [auto|]. intros [->|H]; assumption.
  - cbn [In]. intuition congruence.
Qed.
Lemma q_add_NoDup i q : NoDup q -> NoDup (q_add i q).
Proof.
  unfold q_add. destruct (existsb (Nat.eqb i) q) eqn:E; intros H; [exact H|].
  constructor; [|exact H]. intros Hin.
  enough (existsb (Nat.eqb i) q = true) by congruence.
  apply existsb_exists. exists i. split; [exact Hin|apply Nat.eqb_refl].
Qed.

Section Loop.
  Variable W : Type.
  Variable place : W -> nat -> W * Z * list (nat * Z).
  Variable init : bool.
  Variable maxRetry : Z.
  Notation st := (tstate W).

  Lemma update_others_frame l (s : st) :
    tNum W (update_others W init maxRetry s l) = tNum W s /\
    tBuf W (update_others W init maxRetry s l) = tBuf W s /\
    tBufIdx W (update_others W init maxRetry s l) = tBufIdx W s /\
    tLog W (update_others W init maxRetry s l) = tLog W s.
  Proof.
    unfold update_others. destruct init; [auto|].
    revert s. induction l as [|[i d] l IH]; intros s; cbn [fold_left]; [auto|].
    destruct (IH (update_other W maxRetry s (i, d))) as (-> & -> & -> & ->).
    cbn. auto.
  Qed.
  (* a guide is queued afterwards only if it was, or is affected with a cost and a try left *)
  Lemma update_others_queue l (s : st) : NoDup (tQueue W s) ->
    NoDup (tQueue W (update_others W init maxRetry s l)) /\
    (forall j, In j (tQueue W (update_others W init maxRetry s l)) ->
       In j (tQueue W s) \/ In j (map fst l)).
  Proof.
    unfold update_others. destruct init; [auto|].
    revert s. induction l as [|[i d] l IH]; intros s Hn; cbn [fold_left map]; [auto|].
    destruct (IH (update_other W maxRetry s (i, d))) as [H1 H2].
    { cbn [update_other tQueue]. destruct (negb (d =? 0) && (tNum W s i <? maxRetry)).
      - apply q_add_NoDup, q_remove_NoDup, Hn.
      - apply q_remove_NoDup, Hn. }
    split; [exact H1|]. intros j Hj. destruct (H2 j Hj) as [Q|Q]; [|right; right; exact Q].
    cbn [update_other tQueue] in Q. cbn [fst].
    destruct (negb (d =? 0) && (tNum W s i <? maxRetry)).
    - apply q_add_In in Q as [->|Q]; [right; left; reflexivity|]. apply q_remove_In in Q as [Q _]. auto.
    - apply q_remove_In in Q as [Q _]. auto.
  Qed.
  (* what is queued or tried stays so, if it has a cost (repair iterations) *)
  Lemma update_others_pending l (s : st) : init = false ->
    (forall j, tCost W s j <> 0 -> In j (tQueue W s) \/ maxRetry <= tNum W s j) ->
    forall j, tCost W (update_others W init maxRetry s l) j <> 0 ->
      In j (tQueue W (update_others W init maxRetry s l)) \/ maxRetry <= tNum W s j.
  Proof.
    intros Hi. unfold update_others. rewrite Hi.
    revert s. induction l as [|[i d] l IH]; intros s H; cbn [fold_left]; [exact H|].
    apply (IH (update_other W maxRetry s (i, d))). intros j.
    cbn [update_other tCost tQueue tNum]. unfold upd. destruct (Nat.eqb_spec j i) as [->|Hn].
    - intros Hd. destruct (tNum W s i <? maxRetry) eqn:E; [|right; lia].
      replace (negb (d =? 0) && true) with true by lia. left. apply q_add_In. left; reflexivity.
    - intros Hc. destruct (H j Hc) as [Q|Q]; [left|right; exact Q].
      assert (Q' : In j (q_remove i (tQueue W s))) by (apply q_remove_In; auto).
      destruct (negb (d =? 0) && (tNum W s i <? maxRetry)); [apply q_add_In; right|]; exact Q'.
  Qed.

  Lemma set_nth_In {A} n (v : A) l x : In x (set_nth n v l) -> x = v \/ In x l.
  Proof.
    revert n. induction l as [|a l IH]; intros [|n]; cbn [set_nth]; intros H; try (right; exact H).
    - destruct H as [<- |H]; [left; reflexivity|right; right; exact H].
    - destruct H as [<- |H]; [right; left; reflexivity|].
      destruct (IH n H) as [->|Q]; [left; reflexivity|right; right; exact Q].
  Qed.

  (* the two cases of a turn *)
  Definition skips (s : st) (i : nat) : Prop := In (Some i) (tBuf W s) \/ maxRetry <= tNum W s i.
  Lemma turn_cases (s : st) i :
    (skips s i /\ turn W place init maxRetry s i =
       mkT W (tW W s) (tCost W s) (tNum W s) (q_remove i (tQueue W s)) (tBuf W s) (tBufIdx W s) (tLog W s)) \/
    (~ skips s i /\ exists w stored others,
       place (tW W s) i = (w, stored, others) /\
       let s1 := update_others W init maxRetry
         (mkT W w (upd (tCost W s) i stored) (upd (tNum W s) i (tNum W s i + 1))
              (q_remove i (tQueue W s)) (tBuf W s) (tBufIdx W s) (i :: tLog W s)) others in
       turn W place init maxRetry s i =
         mkT W (tW W s1) (tCost W s1) (tNum W s1) (tQueue W s1)
             (set_nth (tBufIdx W s1) (Some i) (tBuf W s1)) (Nat.modulo (tBufIdx W s1 + 1) 20) (tLog W s1)).
  Proof.
    unfold turn, skips. cbn [tBuf tNum].
    destruct (existsb _ (tBuf W s) || (tNum W s i >=? maxRetry)) eqn:E.
    - left. split; [|reflexivity]. apply orb_true_iff in E as [E|E]; [left|right; lia].
      apply existsb_exists in E as ([j|] & Hin & E); [|discriminate].
      apply Nat.eqb_eq in E. subst j. exact Hin.
    - right. apply orb_false_iff in E as [E1 E2]. split.
      + intros [H|H]; [|lia]. enough (existsb (fun b => match b with Some j => Nat.eqb j i | None => false end)
          (tBuf W s) = true) by congruence.
        apply existsb_exists. exists (Some i). split; [exact H|apply Nat.eqb_refl].
      + unfold assignIroute. cbn [tW tCost tNum tQueue tBuf tBufIdx tLog].
        destruct (place (tW W s) i) as [[w stored] others]. exists w, stored, others.
        split; reflexivity.
  Qed.

  Variable U : list nat.
  Hypothesis HU : forall w i j, In j (map fst (snd (place w i))) -> In j U.

  (* tries left *)
  Definition budget (num : nat -> Z) : nat :=
    fold_right (fun u acc => Z.to_nat (maxRetry - num u) + acc)%nat O U.
  Definition mu (s : st) : nat := (budget (tNum W s) * S (length U) + length (tQueue W s))%nat.
  Definition wf (s : st) : Prop := NoDup (tQueue W s) /\ incl (tQueue W s) U.

  Lemma budget_upd num i : num i < maxRetry -> In i U ->
    (budget (upd num i (num i + 1)) < budget num)%nat.
  Proof.
    clear HU. intros Hlt. unfold budget.
    assert (Le : forall l, (fold_right (fun u acc => Z.to_nat (maxRetry - upd num i (num i + 1) u) + acc)%nat O l
                 <= fold_right (fun u acc => Z.to_nat (maxRetry - num u) + acc)%nat O l)%nat).
    { induction l as [|u l IH]; cbn [fold_right]; [lia|].
      unfold upd at 1. destruct (Nat.eqb_spec u i) as [->|]; lia. }
    induction U as [|u l IH]; [intros []|]. cbn [fold_right]. intros [->|H].
    - unfold upd at 1. rewrite Nat.eqb_refl. specialize (Le l). lia.
    - specialize (IH H). unfold upd at 1. destruct (Nat.eqb_spec u i) as [->|]; lia.
  Qed.

  Lemma turn_wf (s : st) i : wf s -> In i (tQueue W s) ->
    wf (turn W place init maxRetry s i) /\ (mu (turn W place init maxRetry s i) < mu s)%nat.
  Proof.
    intros [Hn Hu] Hin. destruct (turn_cases s i) as [[_ ->]|[Hs (w & stored & others & Ep & ->)]].
    - split; [split|]; cbn [tQueue].
      + apply q_remove_NoDup, Hn.
      + intros j Hj. apply q_remove_In in Hj as [Hj _]. auto.
      + unfold mu. cbn [tQueue tNum]. pose proof (q_remove_length i _ Hin). lia.
    - set (s0 := mkT W w _ _ _ _ _ _).
      destruct (update_others_frame others s0) as (F1 & F2 & F3 & F4).
      destruct (update_others_queue others s0) as [G1 G2]; [apply q_remove_NoDup, Hn|].
      cbv zeta. unfold mu, wf. cbn [tQueue tNum]. rewrite F1. change (tNum W s0) with (upd (tNum W s) i (tNum W s i + 1)).
      assert (Hincl : incl (tQueue W (update_others W init maxRetry s0 others)) U).
      { intros j Hj. destruct (G2 j Hj) as [Q|Q].
        - cbn [s0 tQueue] in Q. apply q_remove_In in Q as [Q _]. auto.
        - apply (HU (tW W s) i). rewrite Ep. exact Q. }
      split; [split; assumption|].
      pose proof (NoDup_incl_length G1 Hincl) as Hlen.
      assert (Hb : (budget (upd (tNum W s) i (tNum W s i + 1)) < budget (tNum W s))%nat).
      { apply budget_upd; [|auto]. unfold skips in Hs. lia. }
      set (b' := budget (upd _ _ _)) in *. set (b := budget (tNum W s)) in *.
      set (n := length U) in *. set (q := length (tQueue W (update_others _ _ _ _ _))) in *.
      clearbody b' b n q. nia.
  Qed.

  (* induction principle for the loop *)
  Lemma loop_ind (P : st -> Prop) :
    (forall s i, P s -> wf s -> In i (tQueue W s) -> P (turn W place init maxRetry s i)) ->
    forall fuel s, P s -> wf s -> (mu s <= fuel)%nat ->
    exists s', assign_loop W place init maxRetry fuel s = Some s' /\ P s' /\ tQueue W s' = [].
  Proof.
    intros HP. induction fuel as [|f IH]; intros s Hp Hw Hm; cbn [assign_loop];
      destruct (q_min (tCost W s) (tQueue W s)) as [i|] eqn:E.
    - apply q_min_In in E. unfold mu in Hm. destruct (tQueue W s); [destruct E|cbn in Hm; lia].
    - exists s. split; [reflexivity|]. split; [exact Hp|]. eapply q_min_None, E.
    - apply q_min_In in E. destruct (turn_wf s i Hw E) as [W1 W2].
      apply IH; [apply HP; assumption|exact W1|lia].
    - exists s. split; [reflexivity|]. split; [exact Hp|]. eapply q_min_None, E.
  Qed.

  (* every guide is assigned as often as counted, at most maxRetry times *)
  Definition counted (s : st) : Prop :=
    (forall i, Z.of_nat (count_occ Nat.eq_dec (tLog W s) i) = tNum W s i) /\
    (forall i, tNum W s i <= Z.max 0 maxRetry) /\
    (forall i, In (Some i) (tBuf W s) -> In i (tLog W s)).
  Lemma turn_counted (s : st) i : counted s -> counted (turn W place init maxRetry s i).
  Proof.
    intros (C1 & C2 & C3). destruct (turn_cases s i) as [[_ ->]|[Hs (w & stored & others & Ep & ->)]].
    - unfold counted. cbn [tLog tNum tBuf]. auto.
    - set (s0 := mkT W w _ _ _ _ _ _).
      destruct (update_others_frame others s0) as (F1 & F2 & F3 & F4).
      unfold counted. cbn [tLog tNum tBuf]. rewrite F1, F2, F4. cbn [s0 tNum tLog tBuf].
      unfold skips in Hs. split; [|split].
      + intros j. cbn [count_occ]. unfold upd. destruct (Nat.eq_dec i j) as [->|Hn].
        * rewrite Nat.eqb_refl. specialize (C1 j). lia.
        * destruct (Nat.eqb_spec j i) as [->|]; [congruence|]. apply C1.
      + intros j. unfold upd. destruct (Nat.eqb_spec j i) as [->|]; [|apply C2].
        specialize (C2 i). lia.
      + intros j Hj. apply set_nth_In in Hj as [Hj|Hj]; [injection Hj as ->; left; reflexivity|].
        right. apply C3, Hj.
  Qed.
End Loop.

Lemma sortIroutes_spec init c iroutes :
  NoDup (sortIroutes init c iroutes) /\
  (forall i, In i (sortIroutes init c iroutes) <-> In i iroutes /\ (init = true \/ c i <> 0)).
Proof.
  unfold sortIroutes.
  assert (G : forall l q, NoDup q ->
    NoDup (fold_left (fun q i => if init || negb (c i =? 0) then q_add i q else q) l q) /\
    (forall i, In i (fold_left (fun q i => if init || negb (c i =? 0) then q_add i q else q) l q) <->
       In i q \/ In i l /\ (init = true \/ c i <> 0))).
  { induction l as [|a l IH]; intros q Hq; cbn [fold_left].
    - split; [exact Hq|]. intros i. cbn [In]. tauto.
    - destruct (init || negb (c a =? 0)) eqn:E.
      + destruct (IH (q_add a q) (q_add_NoDup a q Hq)) as [H1 H2]. split; [exact H1|].
        intros i. rewrite H2, q_add_In. cbn [In].
        assert (init = true \/ c a <> 0) by (destruct init; cbn in E; [left; reflexivity|right; lia]).
        intuition congruence.
      + destruct (IH q Hq) as [H1 H2]. split; [exact H1|].
        intros i. rewrite H2. cbn [In].
        assert (init = false /\ c a = 0) by (destruct init; cbn in E; [discriminate|split; [reflexivity|lia]]).
        intuition congruence. }
  destruct (G iroutes [] (NoDup_nil nat)) as [G1 G2]. split; [exact G1|].
  intros i. rewrite G2. cbn [In]. tauto.
Qed.

Section Assign.
  Variable W : Type.
  Variable place : W -> nat -> W * Z * list (nat * Z).
  Variable U : list nat.
  Hypothesis HU : forall w i j, In j (map fst (snd (place w i))) -> In j U.

  Definition start (init : bool) w c iroutes : tstate W :=
    mkT W w c (fun _ => 0) (sortIroutes init c iroutes) (repeat None 20) O [].
  Lemma start_wf init w c iroutes : incl iroutes U -> wf W U (start init w c iroutes).
  Proof.
    intros Hi. destruct (sortIroutes_spec init c iroutes) as [H1 H2]. split; [exact H1|].
    intros i Hin. apply H2 in Hin as [Hin _]. auto.
  Qed.
  Lemma start_counted init maxRetry w c iroutes : counted W maxRetry (start init w c iroutes).
  Proof.
    split; [|split]; cbn [start tLog tNum tBuf].
    - reflexivity.
    - lia.
    - intros i H. apply repeat_spec in H. discriminate.
  Qed.
  Lemma mu_start init maxRetry w c iroutes : 0 <= maxRetry -> incl iroutes U ->
    (mu W maxRetry U (start init w c iroutes) <= (length U * Z.to_nat maxRetry + 1) * S (length U))%nat.
  Proof.
    intros Hm Hi. unfold mu. cbn [start tNum tQueue].
    assert (budget maxRetry U (fun _ => 0%Z) = length U * Z.to_nat maxRetry)%nat.
    { clear. unfold budget. induction U as [|u l IH]; cbn [fold_right length]; [reflexivity|]. rewrite IH.
      rewrite Z.sub_0_r. lia. }
    destruct (start_wf init w c iroutes Hi) as [H1 H2].
    pose proof (NoDup_incl_length H1 H2). cbn [start tQueue] in *. nia.
  Qed.

  Lemma assign_ind init maxRetry w c iroutes fuel (P : tstate W -> Prop) :
    0 <= maxRetry -> incl iroutes U ->
    ((length U * Z.to_nat maxRetry + 1) * S (length U) <= fuel)%nat ->
    P (start init w c iroutes) ->
    (forall s i, P s -> counted W maxRetry s -> wf W U s -> In i (tQueue W s) ->
       P (turn W place init maxRetry s i)) ->
    exists s, assign W place init maxRetry fuel w c iroutes = Some s /\
      tQueue W s = [] /\ counted W maxRetry s /\ P s.
  Proof.
    intros Hm Hi Hf H0 HP.
    destruct (loop_ind W place init maxRetry U HU (fun s => counted W maxRetry s /\ P s)) with
      (fuel := fuel) (s := start init w c iroutes) as (s & E & [Hc Hp] & Hq).
    - intros s i [Hc Hp] Hw Hin. split; [apply (turn_counted W place init maxRetry U HU); assumption|apply HP; assumption].
    - split; [apply start_counted|exact H0].
    - apply start_wf, Hi.
    - pose proof (mu_start init maxRetry w c iroutes Hm Hi). lia.
    - exists s. auto.
  Qed.

  (* initial assignment: everything exactly once *)
  Lemma assign_init_spec w c iroutes fuel : NoDup iroutes -> incl iroutes U ->
    ((length U * 1 + 1) * S (length U) <= fuel)%nat ->
    exists s, assign W place true 1 fuel w c iroutes = Some s /\ Permutation (tLog W s) iroutes.
  Proof.
    intros Hn Hi Hf.
    destruct (assign_ind true 1 w c iroutes fuel
      (fun s => Permutation (tQueue W s ++ tLog W s) iroutes)) as (s & E & Hq & _ & Hp).
    - lia.
    - exact Hi.
    - exact Hf.
    - cbn [start tQueue tLog]. rewrite app_nil_r.
      destruct (sortIroutes_spec true c iroutes) as [H1 H2].
      apply NoDup_Permutation; [exact H1|exact Hn|]. intros i. rewrite H2. tauto.
    - intros s i Hp (C1 & C2 & C3) [Hnd _] Hin.
      assert (Hnot : ~ In i (tLog W s)).
      { assert (ND : NoDup (tQueue W s ++ tLog W s)) by (eapply Permutation_NoDup; [symmetry; exact Hp|exact Hn]).
        apply in_split in Hin as (q1 & q2 & Eq). rewrite Eq in ND. rewrite <- app_assoc in ND.
        cbn [app] in ND. apply NoDup_remove_2 in ND. intros HL. apply ND.
        apply in_or_app. right. apply in_or_app. right. exact HL. }
      destruct (turn_cases W place true 1 s i) as [[Hs _]|[Hs (w' & stored & others & Ep & ->)]].
      + exfalso. destruct Hs as [Hs|Hs]; [apply Hnot, C3, Hs|].
        specialize (C1 i). rewrite (proj1 (count_occ_not_In Nat.eq_dec _ _) Hnot) in C1. lia.
      + cbv zeta. cbn [update_others tQueue tLog].
        etransitivity; [|exact Hp].
        assert (Permutation (i :: q_remove i (tQueue W s)) (tQueue W s)).
        { apply NoDup_Permutation.
          - constructor; [intros H; apply q_remove_In in H; tauto|apply q_remove_NoDup, Hnd].
          - exact Hnd.
          - intros j. cbn [In]. rewrite q_remove_In. destruct (Nat.eq_dec j i) as [->|]; intuition congruence. }
        rewrite <- Permutation_middle. change (i :: q_remove i (tQueue W s) ++ tLog W s)
          with ((i :: q_remove i (tQueue W s)) ++ tLog W s).
        apply Permutation_app_tail. exact H.
    - exists s. rewrite Hq in Hp. split; [exact E|exact Hp].
  Qed.

  (* repair: whatever still has a violation has had its try *)
  Lemma assign_repair_spec w c iroutes fuel : incl iroutes U ->
    (forall i, c i <> 0 -> In i iroutes) ->
    ((length U * 1 + 1) * S (length U) <= fuel)%nat ->
    exists s, assign W place false 1 fuel w c iroutes = Some s /\ NoDup (tLog W s) /\
      forall i, tCost W s i <> 0 -> In i (tLog W s).
  Proof.
    intros Hi Hc Hf.
    destruct (assign_ind false 1 w c iroutes fuel
      (fun s => forall j, tCost W s j <> 0 -> In j (tQueue W s) \/ 1 <= tNum W s j)) as (s & E & Hq & HC & Hp).
    - lia.
    - exact Hi.
    - exact Hf.
    - cbn [start tCost tQueue tNum]. intros j Hj. left. apply sortIroutes_spec. auto.
    - intros s i Hp (C1 & C2 & C3) _ Hin.
      destruct (turn_cases W place false 1 s i) as [[Hs ->]|[Hs (w' & stored & others & Ep & ->)]].
      + cbn [tCost tQueue tNum]. intros j Hj. destruct (Hp j Hj) as [Q|Q]; [|right; exact Q].
        destruct (Nat.eq_dec j i) as [->|Hn]; [right|left; apply q_remove_In; auto].
        destruct Hs as [Hs|Hs]; [|exact Hs]. apply C3 in Hs.
        apply (count_occ_In Nat.eq_dec) in Hs. specialize (C1 i). lia.
      + cbv zeta. cbn [tCost tQueue tNum].
        set (s0 := mkT W w' _ _ _ _ _ _).
        destruct (update_others_frame W false 1 others s0) as (F1 & _).
        rewrite F1. apply (update_others_pending W place false 1 others s0 eq_refl).
        intros j. cbn [s0 tCost tQueue tNum]. unfold upd. destruct (Nat.eqb_spec j i) as [->|Hn].
        * intros _. right. specialize (C1 i). lia.
        * intros Hj. destruct (Hp j Hj) as [Q|Q]; [left; apply q_remove_In; auto|right; exact Q].
    - exists s. split; [exact E|]. destruct HC as (C1 & C2 & _). split.
      + apply (NoDup_count_occ Nat.eq_dec). intros i. specialize (C1 i). specialize (C2 i). lia.
      + intros i Hci. destruct (Hp i Hci) as [Q|Q]; [rewrite Hq in Q; destruct Q|].
        apply (count_occ_In Nat.eq_dec). specialize (C1 i). lia.
  Qed.
End Assign.
