(* Component labels on an arbitrary symmetric graph. *)
From Verif Require Import Base MazeModel MazeProofs TreeModel TreeSpec TreeProofs SubnetModel.

Section C.
Variable adj : nat -> list nat.
Variable nCnt : nat.
Variable pick : nat -> list (nat * Z) -> nat.
Hypothesis rng : in_range adj nCnt.
Hypothesis sym : forall i j, In j (adj i) -> In i (adj j).

Lemma reach_refl a : reachable adj a a.
Proof. constructor. exact I. Qed.
Lemma reach_trans a b c : reachable adj a b -> reachable adj b c -> reachable adj a c.
Proof. intros H. induction 1 as [|b' c' H1 IH H2 _]; [assumption|]. econstructor; [exact IH|exact H2|exact I]. Qed.
Lemma reach_sym a b : reachable adj a b -> reachable adj b a.
Proof.
  induction 1 as [|b c H1 IH H2 _]; [apply reach_refl|]. eapply reach_trans; [|exact IH].
  econstructor; [apply reach_refl|apply sym; exact H2|exact I].
Qed.
Lemma reach_range a b : (a < nCnt)%nat -> reachable adj a b -> (b < nCnt)%nat.
Proof. intros Ha. induction 1 as [|b c H1 IH H2 _]; [assumption|]. exact (rng _ _ IH H2). Qed.
Definition closed (vis : nat -> bool) : Prop := forall i j, vis i = true -> In j (adj i) -> vis j = true.
Lemma closed_reach vis a b : closed vis -> vis a = true -> reachable adj a b -> vis b = true.
Proof. intros C Ha. induction 1 as [|b c H1 IH H2 _]; [assumption|]. exact (C _ _ IH H2). Qed.

Lemma bfs_total lab fuel : forall vis comp q, (forall e, In e q -> (fst e < nCnt)%nat) -> (length q + wv adj nCnt vis < fuel)%nat ->
  comp_bfs adj pick fuel lab vis comp q <> None.
Proof.
  induction fuel as [|fuel IH]; intros vis comp q Hq Hf; [lia|]. cbn [comp_bfs].
  destruct (pop_nth (pick fuel q) q) as [[[u c] r]|] eqn:P; [|discriminate].
  destruct (pop_nth_split _ _ _ _ P) as (q1 & q2 & -> & ->). clear P.
  assert (Hs : forall x, In x (q1 ++ q2) -> In x (q1 ++ (u, c) :: q2)) by (intros x; rewrite !in_app_iff; cbn; tauto).
  assert (Hu : (u < nCnt)%nat) by (apply (Hq (u, c)); rewrite in_app_iff; cbn; auto).
  rewrite app_length in Hf. cbn [length] in Hf. destruct (vis u) eqn:V.
  { apply IH; auto. rewrite app_length. lia. }
  apply IH.
  - intros x Hx. apply in_app_iff in Hx as [Hx|Hx]; [auto|]. apply in_map_iff in Hx as (b & <- & Hb). cbn. apply filter_In in Hb as [Hb _]. exact (rng _ _ Hu Hb).
  - rewrite !app_length, map_length. pose proof (filter_le 0%nat (fun _ => 0) (fun _ _ => 0%nat) (fun b => negb (upd vis u true b)) (adj u)).
    pose proof (wv_drop adj (fun _ => 0) (fun _ _ => 0%nat) vis u (seq 0 nCnt) ltac:(apply in_seq; lia) V). unfold wv in *. lia.
Qed.

Lemma bfs_spec s lab fuel : forall vis0 comp0 vis comp q vis' comp',
  closed vis0 ->
  (forall v, vis0 v = true -> vis v = true /\ comp v = comp0 v) ->
  (forall v, vis v = true -> vis0 v = false -> reachable adj s v /\ comp v = lab) ->
  (forall v, vis v = false -> comp v = comp0 v) ->
  (forall e, In e q -> reachable adj s (fst e)) ->
  (vis s = true \/ exists e, In e q /\ fst e = s) ->
  (forall v u, vis v = true -> In u (adj v) -> vis u = true \/ exists e, In e q /\ fst e = u) ->
  comp_bfs adj pick fuel lab vis comp q = Some (vis', comp') ->
  closed vis' /\ (forall v, vis' v = true <-> vis0 v = true \/ reachable adj s v) /\
  (forall v, vis0 v = true -> comp' v = comp0 v) /\
  (forall v, vis0 v = false -> reachable adj s v -> comp' v = lab) /\
  (forall v, vis' v = false -> comp' v = comp0 v).
Proof.
  induction fuel as [|fuel IH]; intros vis0 comp0 vis comp q vis' comp' C0 H1 H2 Hc Hq Hs Hn; [discriminate|]. cbn [comp_bfs].
  destruct (pop_nth (pick fuel q) q) as [[[u c] r]|] eqn:P.
  - destruct (pop_nth_split _ _ _ _ P) as (q1 & q2 & -> & ->). clear P.
    assert (Ru : reachable adj s u) by (apply (Hq (u, c)); rewrite in_app_iff; cbn; auto).
    assert (Hdrop : forall w, (exists e, In e (q1 ++ (u, c) :: q2) /\ fst e = w) -> w = u \/ exists e, In e (q1 ++ q2) /\ fst e = w).
    { intros w (e & He & <-). apply in_app_iff in He as [He|[<-|He]]; [right; exists e; rewrite in_app_iff; auto|auto|right; exists e; rewrite in_app_iff; auto]. }
    destruct (vis u) eqn:V.
    + apply (IH vis0 comp0); auto.
      * intros e He. apply Hq. rewrite in_app_iff in *. cbn. tauto.
      * destruct Hs as [?|Hs]; [auto|]. destruct (Hdrop _ Hs) as [->|?]; auto.
      * intros v w Hv Hw. destruct (Hn v w Hv Hw) as [?|E]; [auto|]. destruct (Hdrop _ E) as [->|?]; auto.
    + apply (IH vis0 comp0); auto.
      * intros v Hv. destruct (H1 v Hv) as [A B]. split; [apply upd_true; auto|]. rewrite upd_other; [assumption|]. intros ->. congruence.
      * intros v Hv Hv0. apply upd_true in Hv. destruct (Nat.eq_dec v u) as [->|E]; [split; [assumption|apply upd_same]|]. rewrite upd_other by assumption. destruct Hv as [?|Hv]; [congruence|]. auto.
      * intros v Hv. assert (v <> u) by (intros ->; rewrite upd_same in Hv; discriminate). rewrite upd_other in Hv by assumption. rewrite upd_other by assumption. auto.
      * intros e He. apply in_app_iff in He as [He|He]; [apply Hq; rewrite in_app_iff in *; cbn; tauto|].
        apply in_map_iff in He as (b & <- & Hb). apply filter_In in Hb as [Hb _]. econstructor; [exact Ru|exact Hb|exact I].
      * destruct Hs as [?|Hs]; [left; apply upd_true; auto|]. destruct (Hdrop _ Hs) as [->|(e & He & Ee)]; [left; apply upd_same|right; exists e; rewrite in_app_iff; auto].
      * intros v w Hv Hw. apply upd_true in Hv. destruct (upd vis u true w) eqn:Vw; [auto|]. right.
        destruct (Nat.eq_dec v u) as [->|E].
        -- exists (w, c + 1). split; [|reflexivity]. apply in_app_iff. right. apply in_map_iff. exists w. split; [reflexivity|]. apply filter_In. rewrite Vw. auto.
        -- destruct Hv as [?|Hv]; [congruence|]. destruct (Hn v w Hv Hw) as [A|A]; [assert (upd vis u true w = true) by (apply upd_true; auto); congruence|].
           destruct (Hdrop _ A) as [->|(e & He & Ee)]; [rewrite upd_same in Vw; discriminate|]. exists e. rewrite in_app_iff. auto.
  - apply pop_nth_none in P as ->. intros E. injection E as <- <-.
    assert (Cl : closed vis).
    { intros i j Hi Hj. destruct (Hn i j Hi Hj) as [?|(e & [] & _)]. assumption. }
    destruct Hs as [Vs|(e & [] & _)]. split; [assumption|]. split; [|split; [|split]].
    + intros v. split.
      * intros Hv. destruct (vis0 v) eqn:E; [auto|]. right. apply H2; auto.
      * intros [Hv|Hr]; [apply H1; assumption|]. eapply closed_reach; eauto.
    + intros v Hv. apply H1. assumption.
    + intros v Hv Hr. apply H2; [|assumption]. eapply closed_reach; eauto.
    + assumption.
Qed.

(* labels of the visited nodes so far *)
Definition labelled (vis : nat -> bool) (comp : nat -> nat) (lab : nat) : Prop :=
  closed vis /\ (forall v, vis v = true -> (v < nCnt)%nat) /\
  (forall u v, vis u = true -> vis v = true -> (comp u = comp v <-> reachable adj u v)) /\
  (forall v, vis v = true -> (comp v < lab)%nat) /\
  (forall s, (s < lab)%nat -> exists v, vis v = true /\ comp v = s).
Lemma find_none_all (vis : nat -> bool) : find (fun i => negb (vis i)) (seq 0 nCnt) = None -> forall v, (v < nCnt)%nat -> vis v = true.
Proof. intros H v Hv. pose proof (find_none _ _ H v ltac:(apply in_seq; lia)) as E. cbn in E. destruct (vis v); [reflexivity|discriminate]. Qed.
Lemma loop_spec fuel : (turns adj nCnt <= fuel)%nat -> forall n lab vis comp, labelled vis comp lab ->
  (length (filter (fun i => negb (vis i)) (seq 0 nCnt)) <= n)%nat ->
  exists comp' lab', comp_loop adj nCnt pick fuel n lab vis comp = Some comp' /\ labelled (fun v => (v <? nCnt)%nat) comp' lab'.
Proof.
  intros Hf. induction n as [|n IH]; intros lab vis comp L Hn; cbn [comp_loop]; destruct (find (fun i => negb (vis i)) (seq 0 nCnt)) as [s|] eqn:F.
  - exfalso. apply find_some in F as [F1 F2]. assert (In s (filter (fun i => negb (vis i)) (seq 0 nCnt))) by (apply filter_In; auto).
    destruct (filter (fun i => negb (vis i)) (seq 0 nCnt)); [contradiction|cbn in Hn; lia].
  - exists comp, lab. split; [reflexivity|]. pose proof (find_none_all _ F) as A. destruct L as (L1 & L2 & L3 & L4 & L5).
    split; [intros i j Hi Hj; apply Nat.ltb_lt in Hi; apply Nat.ltb_lt; exact (rng _ _ Hi Hj)|]. split; [intros v; apply Nat.ltb_lt|].
    split; [intros u v Hu Hv; apply Nat.ltb_lt in Hu, Hv; auto|]. split; [intros v Hv; apply Nat.ltb_lt in Hv; auto|].
    intros t Ht. destruct (L5 t Ht) as (v & Hv & E). exists v. split; [apply Nat.ltb_lt; auto|assumption].
  - apply find_some in F as [F1 F2]. apply in_seq in F1. apply negb_true_iff in F2.
    destruct (comp_bfs adj pick fuel lab vis comp [(s, 0)]) as [[vis' comp']|] eqn:B.
    2:{ exfalso. revert B. apply bfs_total; [intros e [<-|[]]; cbn; lia|].
        assert (W : (wv adj nCnt vis <= list_sum (map (fun i => length (adj i)) (seq 0 nCnt)))%nat).
        { unfold wv. generalize (seq 0 nCnt). induction l as [|a l IHl]; cbn [map]; [lia|]. rewrite !list_sum_cons. destruct (vis a); lia. }
        unfold turns in Hf. cbn [length]. lia. }
    destruct L as (L1 & L2 & L3 & L4 & L5).
    destruct (bfs_spec s lab fuel vis comp vis comp [(s, 0)] vis' comp') as (B1 & B2 & B3 & B4 & B5); auto.
    { intros v Hv Hv0. congruence. }
    { intros e [<-|[]]. apply reach_refl. }
    { right. exists (s, 0). cbn. auto. }
    { intros v u Hv Hu. left. exact (L1 _ _ Hv Hu). }
    apply IH.
    + split; [assumption|]. split; [|split; [|split]].
      * intros v Hv. apply B2 in Hv as [Hv|Hv]; [auto|]. eapply reach_range; [|exact Hv]. lia.
      * assert (D : forall v, reachable adj s v -> vis v = false).
        { intros v Hv. destruct (vis v) eqn:E; [|reflexivity]. apply reach_sym in Hv. rewrite (closed_reach _ _ _ L1 E Hv) in F2. discriminate. }
        intros u v Hu Hv. apply B2 in Hu, Hv.
        destruct (vis u) eqn:Vu, (vis v) eqn:Vv.
        -- rewrite !B3 by assumption. auto.
        -- destruct Hv as [?|Hv]; [congruence|]. rewrite (B3 u Vu), (B4 v Vv Hv). split; [intros E; specialize (L4 u Vu); lia|].
           intros Hr. rewrite (closed_reach _ _ _ L1 Vu Hr) in Vv. discriminate.
        -- destruct Hu as [?|Hu]; [congruence|]. rewrite (B3 v Vv), (B4 u Vu Hu). split; [intros E; specialize (L4 v Vv); lia|].
           intros Hr. apply reach_sym in Hr. rewrite (closed_reach _ _ _ L1 Vv Hr) in Vu. discriminate.
        -- destruct Hu as [?|Hu]; [congruence|]. destruct Hv as [?|Hv]; [congruence|]. rewrite (B4 u Vu Hu), (B4 v Vv Hv). split; [|reflexivity].
           intros _. eapply reach_trans; [apply reach_sym; exact Hu|exact Hv].
      * intros v Hv. apply B2 in Hv. destruct (vis v) eqn:Vv; [rewrite B3 by assumption; specialize (L4 v Vv); lia|]. destruct Hv as [?|Hv]; [congruence|]. rewrite (B4 v Vv Hv). lia.
      * intros t Ht. destruct (Nat.eq_dec t lab) as [->|E].
        -- exists s. split; [apply B2; right; apply reach_refl|]. apply B4; [assumption|apply reach_refl].
        -- destruct (L5 t ltac:(lia)) as (v & Hv & <-). exists v. split; [apply B2; auto|auto].
    + assert (S (length (filter (fun i => negb (vis' i)) (seq 0 nCnt))) <= length (filter (fun i => negb (vis i)) (seq 0 nCnt)))%nat; [|lia].
      apply (count_strict 0%nat (fun _ => 0) (fun _ _ => 0%nat)) with (t := s).
      * intros v Hv. apply negb_true_iff in Hv. apply negb_true_iff. destruct (vis v) eqn:E; [|reflexivity]. assert (vis' v = true) by (apply B2; auto). congruence.
      * apply in_seq. lia.
      * apply negb_false_iff. apply B2. right. apply reach_refl.
      * rewrite F2. reflexivity.
  - exists comp, lab. split; [reflexivity|]. pose proof (find_none_all _ F) as A. destruct L as (L1 & L2 & L3 & L4 & L5).
    split; [intros i j Hi Hj; apply Nat.ltb_lt in Hi; apply Nat.ltb_lt; exact (rng _ _ Hi Hj)|]. split; [intros v; apply Nat.ltb_lt|].
    split; [intros u v Hu Hv; apply Nat.ltb_lt in Hu, Hv; auto|]. split; [intros v Hv; apply Nat.ltb_lt in Hv; auto|].
    intros t Ht. destruct (L5 t Ht) as (v & Hv & E). exists v. split; [apply Nat.ltb_lt; auto|assumption].
Qed.
Theorem connComp_spec fuel : (turns adj nCnt <= fuel)%nat ->
  exists comp lab, connComp adj nCnt pick fuel = Some comp /\
  (forall u v, (u < nCnt)%nat -> (v < nCnt)%nat -> (comp u = comp v <-> reachable adj u v)) /\
  (forall v, (v < nCnt)%nat -> (comp v < lab)%nat) /\
  (forall s, (s < lab)%nat -> exists v, (v < nCnt)%nat /\ comp v = s).
Proof.
  intros Hf. destruct (loop_spec fuel Hf nCnt 0%nat (fun _ => false) (fun _ => 0%nat)) as (comp & lab & E & (L1 & L2 & L3 & L4 & L5)).
  - split; [intros i j H; discriminate|]. split; [intros; discriminate|]. split; [intros; discriminate|]. split; [intros; discriminate|intros; lia].
  - rewrite <- (seq_length nCnt 0) at 2. apply (filter_le 0%nat (fun _ => 0) (fun _ _ => 0%nat)).
  - exists comp, lab. split; [exact E|]. split; [intros u v Hu Hv; apply L3; apply Nat.ltb_lt; assumption|]. split; [intros v Hv; apply L4, Nat.ltb_lt; assumption|].
    intros s Hs. destruct (L5 s Hs) as (v & Hv & Ev). exists v. split; [apply Nat.ltb_lt; assumption|assumption].
Qed.
End C.
