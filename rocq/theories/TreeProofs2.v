(* The predecessors left by the tree search form a tree rooted at the first pin. *)
From Verif Require Import Base MazeModel MazeProofs TreeModel TreeSpec TreeProofs.

(* the kept node n is tied to the root by a chain of predecessors, each an edge *)
Inductive trace (adj : nat -> list nat) (root : nat) (K : nat -> bool) (prev : nat -> option nat) : nat -> Prop :=
| trace_root : K root = true -> trace adj root K prev root
| trace_step n m : K n = true -> prev n = Some m -> In n (adj m) -> trace adj root K prev m -> trace adj root K prev n.

Section T.
Variable adj : nat -> list nat.
Variables gCnt nCnt : nat.
Variable seed_cost : nat -> Z.
Variable pick : nat -> list wf -> nat.
Hypothesis rng : in_range adj nCnt.
Notation tr := (trace adj gCnt).

Lemma trace_mono K prev K' prev' n : (forall m, K m = true -> K' m = true) -> (forall m, K m = true -> prev' m = prev m) ->
  tr K prev n -> tr K' prev' n.
Proof.
  intros H1 H2. induction 1 as [H|n m Hn Hp Ha _ IH]; [apply trace_root; auto|]. eapply trace_step; eauto. rewrite H2; assumption.
Qed.
Lemma grow_prevK K fuel : forall vis prev q last vis' prev', (forall n, K n = true -> vis n = true) ->
  (forall e, In e q -> K (wn e) = true -> wp e = prev (wn e)) ->
  grow adj gCnt nCnt pick fuel K vis prev q = Some (last, vis', prev') -> forall n, K n = true -> prev' n = prev n.
Proof.
  induction fuel as [|fuel IH]; intros vis prev q last vis' prev' HK Hq; cbn [grow]; [discriminate|].
  destruct (pop_nth (pick fuel q) q) as [[e r]|] eqn:P.
  2:{ intros H. injection H as <- <- <-. reflexivity. }
  destruct (pop_nth_split _ _ _ _ P) as (q1 & q2 & Eq & Er).
  assert (Hsub : forall x, In x r -> In x q) by (subst; intros x; rewrite !in_app_iff; cbn; tauto).
  assert (He : In e q) by (subst; rewrite in_app_iff; cbn; auto).
  destruct (negb (K (wn e)) && vis (wn e)) eqn:E1.
  { apply IH; auto. }
  assert (U : forall n, K n = true -> upd prev (wn e) (wp e) n = prev n).
  { intros n Hn. unfold upd. destruct (Nat.eqb_spec n (wn e)) as [->|]; [apply Hq; auto|reflexivity]. }
  destruct (((gCnt <? wn e) && (wn e <? nCnt))%nat && negb (vis (wn e))).
  { intros H. injection H as <- <- <-. assumption. }
  intros H n Hn. rewrite <- (U n Hn). revert n Hn. eapply IH; [| |exact H].
  - intros n Hn. apply upd_true. auto.
  - intros x Hx Kx. rewrite U by assumption. apply in_app_iff in Hx as [Hx|Hx]; [auto|].
    apply in_map_iff in Hx as (b & <- & Hb). cbn in Kx. apply filter_In in Hb as [_ Hb]. replace (upd vis (wn e) true b) with true in Hb by (symmetry; apply upd_true; auto). discriminate.
Qed.
Lemma trail_trace K K' prev X g vl l t : chain adj gCnt K prev X g vl -> trail gCnt K prev l t -> (forall n, In n l -> In n vl) ->
  (forall n, K n = true -> tr K' prev n) -> (forall n, In n l -> K' n = true) -> forall n, In n l -> tr K' prev n.
Proof.
  intros C T. induction T as [E|z p E Kp|x y l E Tr IH]; intros Hl H1 H2 n Hn.
  - destruct Hn as [<-|[]]. apply trace_root. apply H2. cbn; auto.
  - destruct Hn as [<-|[]]. destruct (chain_prev adj gCnt seed_cost pick _ _ _ _ _ z p C) as (_ & _ & Hz & _); [apply Hl; cbn; auto|assumption|].
    eapply trace_step; eauto. apply H2. cbn; auto.
  - destruct Hn as [<-|Hn]; [|apply IH; auto; intros m Hm; [apply Hl|apply H2]; cbn; auto].
    destruct (chain_prev adj gCnt seed_cost pick _ _ _ _ _ x y C) as (_ & _ & Hz & _); [apply Hl; cbn; auto|assumption|].
    eapply trace_step; [apply H2; cbn; auto|exact E|exact Hz|]. apply IH; auto; [intros m Hm; apply Hl; cbn; auto|intros m Hm; apply H2; cbn; auto|].
    inversion Tr; cbn; auto.
Qed.
Lemma round_trace fuel first K prev K' prev' : KI adj gCnt nCnt pick K -> (first = true -> forall n, K n = false) -> (gCnt < nCnt)%nat ->
  (forall n, K n = true -> tr K prev n) -> round adj gCnt nCnt seed_cost pick fuel first K prev = Some (K', prev') ->
  forall n, K' n = true -> tr K' prev' n.
Proof.
  intros HK Hf Hgn HT. unfold round.
  destruct (grow adj gCnt nCnt pick fuel K K prev (seeds gCnt nCnt seed_cost first K prev)) as [[[last vis] p']|] eqn:G; [|discriminate].
  pose proof (round_grow adj gCnt nCnt seed_cost pick rng fuel first K prev last vis p' HK Hf Hgn G) as (X & g & vl & HS & HL).
  assert (PK : forall n, K n = true -> p' n = prev n).
  { eapply grow_prevK; [| |exact G]; [auto|]. intros e He Ke. unfold seeds in He. destruct first; [rewrite Hf in Ke by reflexivity; discriminate|].
    apply in_map_iff in He as (m & <- & _). reflexivity. }
  destruct last as [t|].
  2:{ assert (mark nCnt K p' None = Some K) as -> by (destruct nCnt; reflexivity). intros H. injection H as <- <-. intros n Hn. eapply trace_mono; [| |apply HT, Hn]; auto. }
  destruct HL as (Ht & r & -> & _). pose proof HS as (A & B & R & T). pose proof HK as (K1 & K2 & K3).
  assert (ND : NoDup (t :: r)).
  { clear -B. revert B. generalize (t :: r). induction l as [|a l IH]; cbn; constructor; [tauto|]. apply IH. tauto. }
  assert (Len : (length (t :: r) <= nCnt)%nat).
  { rewrite <- (seq_length nCnt 0) at 1. apply NoDup_incl_length; [assumption|]. intros x Hx. apply in_seq. specialize (R x Hx). lia. }
  destruct (mark_spec adj gCnt seed_cost pick K p' X g (t :: r) K t nCnt B (or_introl eq_refl) (fun n H => H)
    ltac:(intros n Hn; exact (chain_notK _ _ _ _ _ _ _ _ B Hn)) Len) as (K'' & l & M & Tr & Hl & HK').
  rewrite M. intros H. injection H as <- <-.
  assert (S1 : forall n, K n = true -> tr K'' p' n) by (intros n Hn; eapply trace_mono; [| |apply HT, Hn]; auto; intros m Hm; apply HK'; auto).
  intros n Hn. apply HK' in Hn as [Hn|Hn]; [auto|]. eapply trail_trace; eauto. intros m Hm. apply HK'. auto.
Qed.
Lemma rounds_trace fuel : (gCnt < nCnt)%nat -> (turns adj nCnt <= fuel)%nat -> forall n first K prev K' prev', KI adj gCnt nCnt pick K ->
  (first = true -> forall n, K n = false) -> (forall n, K n = true -> tr K prev n) ->
  rounds adj gCnt nCnt seed_cost pick fuel n first K prev = Some (K', prev') -> forall n, K' n = true -> tr K' prev' n.
Proof.
  intros Hg Hf. induction n as [|n IH]; intros first K prev K' prev' HK H1 HT; cbn [rounds].
  - intros H. injection H as <- <-. assumption.
  - destruct (round_spec adj gCnt nCnt seed_cost pick rng fuel first K prev HK H1 Hg Hf) as (Ka & pa & E & HKa & _). rewrite E.
    intros H. eapply (IH false); [exact HKa|intros F; discriminate F|exact (round_trace fuel first K prev Ka pa HK H1 Hg HT E)|exact H].
Qed.
Lemma tree_search_trace fuel K prev : (turns adj nCnt <= fuel)%nat -> tree_search adj gCnt nCnt seed_cost pick fuel = Some (K, prev) ->
  forall n, K n = true -> tr K prev n.
Proof.
  intros Hf. unfold tree_search. destruct (le_lt_dec nCnt gCnt) as [Hle|Hlt].
  - replace (nCnt - 1 - gCnt)%nat with 0%nat by lia. cbn [rounds]. intros H. injection H as <- <-. discriminate.
  - intros H. eapply rounds_trace; [exact Hlt|exact Hf| | | |exact H].
    + split; [intros n Hn; discriminate Hn|]. split; [intros n Hn; discriminate Hn|]. intros _ u Hu. discriminate Hu.
    + reflexivity.
    + intros n Hn. discriminate Hn.
Qed.
(* the root has no predecessor *)
Lemma grow_prev_vis K fuel n : K n = false -> forall vis prev q last vis' prev', vis n = true ->
  grow adj gCnt nCnt pick fuel K vis prev q = Some (last, vis', prev') -> prev' n = prev n.
Proof.
  intros Kn. induction fuel as [|fuel IH]; intros vis prev q last vis' prev' Hv; cbn [grow]; [discriminate|].
  destruct (pop_nth (pick fuel q) q) as [[e r]|] eqn:P.
  2:{ intros H. injection H as <- <- <-. reflexivity. }
  destruct (negb (K (wn e)) && vis (wn e)) eqn:E1; [apply IH; assumption|].
  assert (Hne : n <> wn e) by (intros ->; rewrite Kn, Hv in E1; discriminate).
  destruct (((gCnt <? wn e) && (wn e <? nCnt))%nat && negb (vis (wn e))).
  { intros H. injection H as <- <- <-. apply upd_other. assumption. }
  intros H. rewrite <- (upd_other prev (wn e) n (wp e) Hne). eapply IH; [|exact H]. apply upd_true. auto.
Qed.
Lemma round_root fuel first K prev K' prev' : KI adj gCnt nCnt pick K -> (first = true -> forall n, K n = false) -> prev gCnt = None ->
  round adj gCnt nCnt seed_cost pick fuel first K prev = Some (K', prev') -> prev' gCnt = None.
Proof.
  intros HK Hf HP. unfold round.
  destruct (grow adj gCnt nCnt pick fuel K K prev (seeds gCnt nCnt seed_cost first K prev)) as [[[last vis] p']|] eqn:G; [|discriminate].
  destruct (mark nCnt K p' last); [|discriminate]. intros H. injection H as _ <-. destruct first.
  - unfold seeds in G. destruct fuel as [|fuel]; [discriminate G|]. cbn [grow] in G.
    replace (pop_nth (pick fuel [mkWf gCnt None 0]) [mkWf gCnt None 0]) with (Some (mkWf gCnt None 0, @nil wf)) in G by (destruct (pick fuel [mkWf gCnt None 0]) as [|[|?]]; reflexivity).
    cbn [wn wp wc] in G. rewrite (Hf eq_refl gCnt) in G. cbn [negb andb] in G. rewrite Nat.ltb_irrefl in G. cbn [andb] in G.
    apply (grow_prev_vis K fuel gCnt (Hf eq_refl gCnt)) in G; [|apply upd_same]. rewrite G. apply upd_same.
  - destruct (K gCnt) eqn:Kr.
    + assert (E : forall n, K n = true -> p' n = prev n).
      { eapply grow_prevK; [| |exact G]; [auto|]. intros e He Ke. apply in_map_iff in He as (m & <- & _). reflexivity. }
      rewrite E; assumption.
    + assert (Kf : forall n, K n = false) by (intros n; destruct (K n) eqn:En; [|reflexivity]; rewrite (KI_root adj gCnt nCnt pick K n HK En) in Kr; discriminate).
      assert (E : seeds gCnt nCnt seed_cost false K prev = []).
      { unfold seeds. replace (filter K (seq 0 nCnt)) with (@nil nat); [reflexivity|]. symmetry. clear -Kf. induction (seq 0 nCnt) as [|a l IH]; cbn; [reflexivity|]. rewrite Kf. assumption. }
      rewrite E in G. destruct fuel; [discriminate|]. cbn [grow] in G. destruct (pick fuel []); cbn in G; injection G as <- <- <-; assumption.
Qed.
Lemma rounds_root fuel : (gCnt < nCnt)%nat -> (turns adj nCnt <= fuel)%nat -> forall n first K prev K' prev', KI adj gCnt nCnt pick K ->
  (first = true -> forall n, K n = false) -> prev gCnt = None ->
  rounds adj gCnt nCnt seed_cost pick fuel n first K prev = Some (K', prev') -> prev' gCnt = None.
Proof.
  intros Hg Hf. induction n as [|n IH]; intros first K prev K' prev' HK H1 HP; cbn [rounds].
  - intros H. injection H as <- <-. assumption.
  - destruct (round_spec adj gCnt nCnt seed_cost pick rng fuel first K prev HK H1 Hg Hf) as (Ka & pa & E & HKa & _). rewrite E.
    intros H. eapply (IH false); [exact HKa|intros F; discriminate F|exact (round_root fuel first K prev Ka pa HK H1 HP E)|exact H].
Qed.
Lemma tree_search_root fuel K prev : (turns adj nCnt <= fuel)%nat -> tree_search adj gCnt nCnt seed_cost pick fuel = Some (K, prev) -> prev gCnt = None.
Proof.
  intros Hf. unfold tree_search. destruct (le_lt_dec nCnt gCnt) as [Hle|Hlt].
  - replace (nCnt - 1 - gCnt)%nat with 0%nat by lia. cbn [rounds]. intros H. injection H as <- <-. reflexivity.
  - intros H. eapply rounds_root; [exact Hlt|exact Hf| | | |exact H].
    + split; [intros n Hn; discriminate Hn|]. split; [intros n Hn; discriminate Hn|]. intros _ u Hu. discriminate Hu.
    + reflexivity.
    + reflexivity.
Qed.
End T.
