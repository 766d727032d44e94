(* The rip-up and reroute loop: termination and follow-up. *)
From Verif Require Import Base QueueModel QueueSpec.

Lemma memZ_iff x l : memZ x l = true <-> In x l.
Proof. unfold memZ. rewrite existsb_exists. split; [intros (y & H & E); apply Z.eqb_eq in E as ->; assumption|]. intros H. exists x. split; [assumption|apply Z.eqb_refl]. Qed.
Lemma memZ_not x l : negb (memZ x l) = true <-> ~ In x l.
Proof. rewrite negb_true_iff. pose proof (memZ_iff x l). destruct (memZ x l); intuition congruence. Qed.
Lemma in_somes {A} (l : list (option A)) x : In x (somes l) <-> In (Some x) l.
Proof.
  induction l as [|[a|] l IH]; cbn; [tauto| |]; rewrite IH; [|intuition discriminate]. split; (intros [E|?]; [left; congruence|auto]).
Qed.
(* seen objects and new ones *)
Lemma add_new_spec l : forall st, exists new, snd (fold_left add_new l st) = snd st ++ new /\
  forall x, (In x (fst (fold_left add_new l st)) <-> In x (fst st) \/ In x l) /\ (In x (fst (fold_left add_new l st)) <-> In x (fst st) \/ In x new).
Proof.
  induction l as [|a l IH]; intros st; cbn [fold_left].
  - exists []. rewrite app_nil_r. split; [reflexivity|]. intros x. cbn. tauto.
  - pose proof (memZ_iff a (fst st)) as M. destruct (memZ a (fst st)) eqn:Ea.
    + replace (add_new st a) with st by (unfold add_new; rewrite Ea; reflexivity). destruct (IH st) as (new & E & H). exists new. split; [assumption|]. intros x. destruct (H x) as [H1 H2]. split; [|assumption]. rewrite H1. cbn [In].
      split; [tauto|]. intros [?|[<-|?]]; [auto|left; apply M; reflexivity|auto].
    + destruct (IH (add_new st a)) as (new & E & H). replace (add_new st a) with (a :: fst st, snd st ++ [a]) in * by (unfold add_new; rewrite Ea; reflexivity).
      exists (a :: new). cbn [fst snd] in *. split; [rewrite E, <- app_assoc; reflexivity|]. intros x. destruct (H x) as [H1 H2]. cbn [In] in *. split; [rewrite H1; tauto|rewrite H2; tauto].
Qed.

Lemma bump_le n d e : (n e <= bump n d e)%nat.
Proof. unfold bump. destruct (Nat.eqb e d); lia. Qed.
Lemma sum_bump M n d l : In d l -> (n d < M)%nat -> (list_sum (map (fun e => (M - bump n d e)%nat) l) < list_sum (map (fun e => (M - n e)%nat) l))%nat.
Proof.
  intros Hd Hl.
  assert (G : forall l, (list_sum (map (fun e => (M - bump n d e)%nat) l) <= list_sum (map (fun e => (M - n e)%nat) l))%nat).
  { clear l Hd. induction l as [|a l IH]; cbn [map]; [lia|]. cbn [list_sum fold_right]. pose proof (bump_le n d a). unfold list_sum in *. lia. }
  induction l as [|a l IH]; [destruct Hd|]. cbn [map]. specialize (G l). unfold list_sum in *. cbn [fold_right]. destruct Hd as [->|Hd].
  - unfold bump at 1. rewrite Nat.eqb_refl. lia.
  - specialize (IH Hd). pose proof (bump_le n d a). lia.
Qed.

Lemma times_in d tr : (0 < times d tr)%nat -> exists ms, In (Routed d ms) tr.
Proof.
  induction tr as [|[e ms|o ms|e] tr IH]; cbn; [lia| | |].
  - destruct (Nat.eqb_spec d e) as [<-|]; [eauto|]. intros H. destruct (IH H) as (ms' & ?). eauto.
  - intros H. destruct (IH H) as (ms' & ?). eauto.
  - intros H. destruct (IH H) as (ms' & ?). eauto.
Qed.

Section Q.
Variable W : Type.
Variable movable : Z -> bool.
Variable drNets : Z -> list nat.
Variable mazeEndIter : nat.
Variable ord : list Z -> list Z.
Hypothesis ord_in : forall l x, In x (ord l) <-> In x l.
Notation below := (below mazeEndIter).
Notation has_below := (has_below drNets mazeEndIter).
Notation can_move := (can_move movable drNets mazeEndIter).
Notation must_move := (must_move movable drNets mazeEndIter).
Notation update_queue := (update_queue movable drNets mazeEndIter ord).

Lemma below_iff n d : below n d = true <-> (n d < mazeEndIter)%nat.
Proof. unfold QueueModel.below. apply Nat.ltb_lt. Qed.
Lemma has_below_iff n f : has_below n f = true <-> exists d, In d (drNets f) /\ (n d < mazeEndIter)%nat.
Proof. unfold QueueModel.has_below. rewrite existsb_exists. setoid_rewrite below_iff. reflexivity. Qed.
Lemma moved_iff n m f : In f (filter (has_below n) (aggr_nets movable ord m)) <-> can_move n f /\ In (Some f) (qm_aggr m).
Proof.
  rewrite filter_In, has_below_iff. unfold aggr_nets. rewrite ord_in, filter_In, in_somes. unfold QueueSpec.can_move. tauto.
Qed.

(* the routes and checks collected are those of the aggressors and victims seen *)
Definition UI (n : nat -> nat) (st : qupd) : Prop :=
  (forall f, In f (q_agg st) -> movable f = true) /\
  (forall e, In e (q_checks st) <-> exists o, e = QCheck o /\ In o (q_vic st)) /\
  (forall e, In e (q_routes st) <-> exists f d, e = QRoute d (n d) /\ In f (q_agg st) /\ In d (drNets f) /\ (n d < mazeEndIter)%nat).
Lemma update_spec n st m : UI n st -> let st' := update_from_marker movable drNets mazeEndIter ord n st m in
  UI n st' /\ (forall f, In f (q_agg st') <-> In f (q_agg st) \/ must_move n m f) /\
  (forall o, In o (q_vic st') <-> In o (q_vic st) \/ ((exists f, must_move n m f) /\ In (Some o) (qm_srcs m) /\ ~ must_move n m o)).
Proof.
  intros (U1 & U2 & U3). cbv zeta. unfold update_from_marker.
  set (mo := filter (has_below n) (aggr_nets movable ord m)).
  assert (MO : forall f, In f mo <-> can_move n f /\ In (Some f) (qm_aggr m)) by (intros f; apply moved_iff).
  set (agg1 := fold_left add_new mo (q_agg st, [])).
  set (other := filter (fun o => negb (memZ o mo)) (ord (somes (qm_srcs m)))).
  set (ro := filter (fun f => movable f && has_below n f) other).
  assert (RO : forall f, In f ro <-> can_move n f /\ In (Some f) (qm_srcs m) /\ ~ In f mo).
  { intros f. unfold ro, other. rewrite !filter_In, memZ_not, ord_in, in_somes, andb_true_iff, has_below_iff. unfold QueueSpec.can_move. tauto. }
  set (both := if negb (Nat.eqb (length mo) 0) then (agg1, ord (filter (fun o => negb (memZ o mo)) (somes (qm_srcs m)))) else
     (fold_left add_new ro agg1, if negb (Nat.eqb (length ro) 0) then ord (filter (fun o => negb (memZ o ro)) (somes (qm_srcs m))) else [])).
  (* both branches have the same meaning *)
  assert (B : exists new, snd (fst both) = new /\
    (forall f, In f (fst (fst both)) <-> In f (q_agg st) \/ must_move n m f) /\
    (forall f, In f (fst (fst both)) <-> In f (q_agg st) \/ In f new) /\
    (forall f, In f new -> must_move n m f \/ In f (q_agg st)) /\
    (forall o, In o (snd both) <-> (exists f, must_move n m f) /\ In (Some o) (qm_srcs m) /\ ~ must_move n m o)).
  { destruct (add_new_spec mo (q_agg st, [])) as (new1 & E1 & H1). fold agg1 in E1, H1. cbn [fst snd app] in E1, H1.
    unfold both. destruct mo as [|f0 mo'] eqn:Emo.
    - cbn [length Nat.eqb negb]. assert (NA : forall g, In (Some g) (qm_aggr m) -> ~ can_move n g) by (intros g Hg Hc; apply (proj2 (MO g)); auto).
      assert (MM : forall f, must_move n m f <-> In f ro).
      { intros f. rewrite RO. unfold QueueSpec.must_move. split; [intros (Hc & [Ha|[_ Hs]]); [exfalso; exact (NA f Ha Hc)|cbn; tauto]|]. intros (Hc & Hs & _). tauto. }
      destruct (add_new_spec ro agg1) as (new2 & E2 & H2). exists (snd (fold_left add_new ro agg1)). cbn [fst snd].
      assert (EA : agg1 = (q_agg st, [])) by reflexivity. rewrite EA in *. cbn [fst snd app] in *.
      split; [reflexivity|]. rewrite E2. cbn [snd].
      split; [intros f; destruct (H2 f) as [A _]; rewrite A, MM; tauto|]. split; [intros f; destruct (H2 f) as [_ A]; exact A|].
      split.
      { intros f Hf. destruct (H2 f) as [A A']. assert (In f (fst (fold_left add_new ro (q_agg st, [])))) by (apply A'; auto). apply A in H. rewrite MM. tauto. }
      intros o. destruct ro as [|r0 ro'] eqn:Ero.
      + cbn [length Nat.eqb negb]. split; [intros []|]. intros ((f & Hf) & _). apply MM in Hf. destruct Hf.
      + cbn [length Nat.eqb negb]. rewrite ord_in, filter_In, memZ_not, in_somes, <- MM. split; [|tauto]. intros [A B]. split; [exists r0; apply MM; cbn; auto|tauto].
    - cbn [length Nat.eqb negb]. cbn [fst snd].
      assert (MM : forall f, must_move n m f <-> In f (f0 :: mo')).
      { intros f. rewrite MO. unfold QueueSpec.must_move. split; [|tauto]. intros (Hc & [Ha|[NA _]]); [auto|]. exfalso. destruct (proj1 (MO f0) (or_introl eq_refl)) as [C0 A0]. exact (NA f0 A0 C0). }
      exists new1. split; [exact E1|]. split; [intros f; destruct (H1 f) as [A _]; rewrite A, MM; tauto|]. split; [intros f; destruct (H1 f) as [_ A]; exact A|].
      split.
      { intros f Hf. destruct (H1 f) as [A A']. assert (In f (fst agg1)) by (apply A'; auto). apply A in H. rewrite MM. tauto. }
      intros o. rewrite ord_in, filter_In, memZ_not, in_somes, <- MM. split; [|tauto]. intros [A B]. split; [exists f0; apply MM; cbn; auto|tauto]. }
  destruct both as [agg vicOwners]. cbn [fst snd] in B. destruct B as (new & Ea & B1 & B2 & B2' & B3). destruct agg as [aggs newa]. cbn [fst snd] in *. subst newa.
  destruct (add_new_spec vicOwners (q_vic st, [])) as (newv & Ev & Hv). cbn [fst snd app] in Ev, Hv. rewrite Ev. cbn [fst snd].
  split; [|split; [exact B1|]].
  - split; [|split]; cbn [q_agg q_checks q_routes q_vic].
    + intros f Hf. apply B1 in Hf as [Hf|Hf]; [auto|]. apply Hf.
    + intros e. rewrite in_app_iff, in_map_iff, U2. split.
      * intros [(o & -> & Ho)|(o & <- & Ho)]; exists o; (split; [reflexivity|]); destruct (Hv o) as [_ A]; apply A; auto.
      * intros (o & -> & Ho). destruct (Hv o) as [_ A]. apply A in Ho as [Ho|Ho]; [left|right]; exists o; auto.
    + intros e. rewrite in_app_iff, in_flat_map, U3. split.
      * intros [(f & d & -> & Hf & H)|(f & Hf & He)].
        -- exists f, d. split; [reflexivity|]. split; [apply B1; auto|assumption].
        -- destruct (movable f); [|destruct He]. apply in_map_iff in He as (d & <- & Hd). apply filter_In in Hd as [Hd Hb]. apply below_iff in Hb. exists f, d. split; [reflexivity|]. split; [apply B2; auto|auto].
      * intros (f & d & -> & Hf & H). apply B2 in Hf as [Hf|Hf]; [left; exists f, d; auto|]. right. exists f. split; [assumption|].
        assert (Hm : movable f = true) by (destruct (B2' f Hf) as [M|M]; [apply M|auto]). rewrite Hm. apply in_map_iff. exists d. split; [reflexivity|]. apply filter_In. rewrite below_iff. assumption.
  - intros o. cbn [q_vic]. destruct (Hv o) as [A _]. rewrite A, B3. tauto.
Qed.
Lemma updates_spec n ms : forall st, UI n st -> let st' := fold_left (update_from_marker movable drNets mazeEndIter ord n) ms st in
  UI n st' /\ (forall f, In f (q_agg st') <-> In f (q_agg st) \/ exists m, In m ms /\ must_move n m f) /\
  (forall o, In o (q_vic st') <-> In o (q_vic st) \/ exists m, In m ms /\ (exists f, must_move n m f) /\ In (Some o) (qm_srcs m) /\ ~ must_move n m o).
Proof.
  induction ms as [|m ms IH]; intros st U; cbv zeta; cbn [fold_left].
  - split; [assumption|]. split; intros x; (split; [auto|intros [?|(m & [] & _)]; assumption]).
  - destruct (update_spec n st m U) as (U' & A & V). destruct (IH _ U') as (U'' & A' & V'). split; [assumption|]. split.
    + intros f. rewrite A', A. split.
      * intros [[?|?]|(m' & ? & ?)]; [auto|right; exists m; cbn; auto|right; exists m'; cbn; auto].
      * intros [?|(m' & [<-|?] & ?)]; [auto|auto|right; exists m'; auto].
    + intros o. rewrite V', V. split.
      * intros [[?|?]|(m' & ? & ?)]; [auto|right; exists m; cbn; auto|right; exists m'; cbn; auto].
      * intros [?|(m' & [<-|?] & ?)]; [auto|auto|right; exists m'; auto].
Qed.
Lemma in_update n ms e : In e (update_queue n ms) <->
  (exists m f d, e = QRoute d (n d) /\ In m ms /\ must_move n m f /\ In d (drNets f) /\ (n d < mazeEndIter)%nat) \/
  (exists m o, e = QCheck o /\ In m ms /\ (exists f, must_move n m f) /\ In (Some o) (qm_srcs m) /\ ~ must_move n m o).
Proof.
  unfold QueueModel.update_queue. destruct (updates_spec n ms (mkQU [] [] [] [])) as ((U1 & U2 & U3) & A & V).
  { split; [intros f []|]. split; intros e0; cbn; (split; [intros []|]); [intros (o & _ & [])|intros (f & d & _ & [] & _)]. }
  rewrite in_app_iff, U3, U2. cbn [q_agg q_vic In] in A, V. split.
  - intros [(f & d & -> & Hf & H)|(o & -> & Ho)].
    + left. apply A in Hf as [[]|(m & Hm & Hf)]. exists m, f, d. auto.
    + right. apply V in Ho as [[]|(m & Hm & H)]. exists m, o. auto.
  - intros [(m & f & d & -> & Hm & Hf & H)|(m & o & -> & Hm & H)].
    + left. exists f, d. split; [reflexivity|]. split; [apply A; right; eauto|assumption].
    + right. exists o. split; [reflexivity|]. apply V. right. eauto.
Qed.
Lemma update_live n ms : update_queue n ms <> [] -> exists d, In (QRoute d (n d)) (update_queue n ms) /\ (n d < mazeEndIter)%nat.
Proof.
  intros H. destruct (update_queue n ms) as [|e q] eqn:E; [congruence|]. assert (He : In e (update_queue n ms)) by (rewrite E; cbn; auto). rewrite <- E. clear H E q.
  apply in_update in He as [(m & f & d & -> & Hm & Hf & Hd & Hl)|(m & o & -> & Hm & (f & Hf) & _)].
  - exists d. split; [|assumption]. apply in_update. left. exists m, f, d. auto.
  - destruct Hf as [[Hmv (d & Hd & Hl)] Hf']. exists d. split; [|assumption]. apply in_update. left. exists m, f, d. repeat split; auto. exists d. auto.
Qed.

Variable route_net : W -> nat -> option W.
Variable gc_net : W -> nat -> W * option (list qmarker).
Variable gc_obj : W -> Z -> W * option (list qmarker).
Notation queue_main := (queue_main W movable drNets mazeEndIter ord route_net gc_net gc_obj).
Notation pushes := (pushes movable drNets mazeEndIter ord).

Lemma in_pushes n ms e : In e (pushes n ms) -> exists l, ms = Some l /\ In e (update_queue n l).
Proof. destruct ms as [l|]; cbn; [eauto|intros []]. Qed.
Lemma pushes_live n ms : pushes n ms <> [] -> exists d, In (QRoute d (n d)) (pushes n ms) /\ (n d < mazeEndIter)%nat.
Proof. destruct ms as [l|]; cbn; [apply update_live|congruence]. Qed.

(* ---- history *)
Lemma main_times fuel : forall w n q ok w' n' tr, queue_main fuel w n q = Some (ok, w', n', tr) -> forall d, n' d = (n d + times d tr)%nat.
Proof.
  induction fuel as [|fuel IH]; intros w n q ok w' n' tr; destruct q as [|e q]; cbn [QueueModel.queue_main]; try discriminate.
  - intros E d. injection E as <- <- <- <-. cbn. lia.
  - intros E d. injection E as <- <- <- <-. cbn. lia.
  - destruct e as [d0 k|o].
    + destruct (negb (Nat.eqb k (n d0))).
      * destruct (queue_main fuel w n q) as [[[[ok1 w1] n1] tr1]|] eqn:R; [|discriminate]. intros E d. injection E as <- <- <- <-. cbn. eapply IH; eassumption.
      * destruct (route_net w d0) as [w1|]; [|intros E d; injection E as <- <- <- <-; cbn; lia]. destruct (gc_net w1 d0) as [w2 ms].
        destruct (queue_main fuel w2 (bump n d0) (q ++ pushes (bump n d0) ms)) as [[[[ok3 w3] n3] tr3]|] eqn:R; [|discriminate]. intros E d. injection E as <- <- <- <-. cbn [times].
        rewrite (IH _ _ _ _ _ _ _ R d). unfold bump. destruct (Nat.eqb d d0); lia.
    + destruct (gc_obj w o) as [w2 ms]. destruct (queue_main fuel w2 n (q ++ pushes n ms)) as [[[[ok3 w3] n3] tr3]|] eqn:R; [|discriminate]. intros E d. injection E as <- <- <- <-. cbn. eapply IH; eassumption.
Qed.
(* queued entries are served *)
Lemma main_serves fuel : forall w n q w' n' tr, queue_main fuel w n q = Some (true, w', n', tr) ->
  (forall d k, In (QRoute d k) q -> (k <= n d)%nat -> (k < n' d)%nat) /\ (forall o, In (QCheck o) q -> exists ms, In (Checked o ms) tr).
Proof.
  induction fuel as [|fuel IH]; intros w n q w' n' tr; destruct q as [|e q]; cbn [QueueModel.queue_main]; try discriminate.
  - intros _. split; [intros d k []|intros o []].
  - intros _. split; [intros d k []|intros o []].
  - destruct e as [d0 k0|o0].
    + destruct (Nat.eqb_spec k0 (n d0)) as [->|Hk]; cbn [negb].
      * destruct (route_net w d0) as [w1|]; [|discriminate]. destruct (gc_net w1 d0) as [w2 ms].
        destruct (queue_main fuel w2 (bump n d0) (q ++ pushes (bump n d0) ms)) as [[[[ok3 w3] n3] tr3]|] eqn:R; [|discriminate]. intros E. injection E as -> <- <- <-.
        destruct (IH _ _ _ _ _ _ R) as [I1 I2]. split.
        -- intros d k [E|Hi] Hle.
           ++ injection E as <- <-. rewrite (main_times _ _ _ _ _ _ _ _ R d0). unfold bump. rewrite Nat.eqb_refl. lia.
           ++ apply I1; [apply in_app_iff; auto|]. pose proof (bump_le n d0 d). lia.
        -- intros o [E|Hi]; [discriminate|]. destruct (I2 o ltac:(apply in_app_iff; auto)) as (ms' & H). exists ms'. cbn. auto.
      * destruct (queue_main fuel w n q) as [[[[ok1 w1] n1] tr1]|] eqn:R; [|discriminate]. intros E. injection E as -> <- <- <-. destruct (IH _ _ _ _ _ _ R) as [I1 I2]. split.
        -- intros d k [E|Hi] Hle; [|auto]. injection E as <- <-. rewrite (main_times _ _ _ _ _ _ _ _ R d0). lia.
        -- intros o [E|Hi]; [discriminate|]. destruct (I2 o Hi) as (ms' & H). exists ms'. cbn. auto.
    + destruct (gc_obj w o0) as [w2 ms]. destruct (queue_main fuel w2 n (q ++ pushes n ms)) as [[[[ok3 w3] n3] tr3]|] eqn:R; [|discriminate]. intros E. injection E as -> <- <- <-.
      destruct (IH _ _ _ _ _ _ R) as [I1 I2]. split.
      * intros d k [E|Hi] Hle; [discriminate|]. apply I1; [apply in_app_iff; auto|assumption].
      * intros o [E|Hi]; [injection E as <-; exists ms; cbn; auto|]. destruct (I2 o ltac:(apply in_app_iff; auto)) as (ms' & H). exists ms'. cbn. auto.
Qed.
Lemma main_split pre : forall fuel w n q ok w' n' ev post, queue_main fuel w n q = Some (ok, w', n', pre ++ ev :: post) ->
  exists fuel1 w1 n1 q1, queue_main fuel1 w1 n1 q1 = Some (ok, w', n', post) /\ (forall d, n1 d = (n d + times d (pre ++ [ev]))%nat) /\
  (forall ms, found_at ev ms -> incl (update_queue n1 ms) q1).
Proof.
  induction pre as [|p pre IH]; intros fuel w n q ok w' n' ev post; (destruct fuel as [|fuel]; destruct q as [|e q]; cbn [QueueModel.queue_main app]; try discriminate).
  - destruct e as [d0 k0|o0].
    + destruct (negb (Nat.eqb k0 (n d0))).
      * destruct (queue_main fuel w n q) as [[[[ok1 w1] n1] tr1]|] eqn:R; [|discriminate]. intros E. injection E as <- <- <- <- <-. exists fuel, w, n, q. split; [assumption|]. split; [intros d; cbn; lia|].
        intros ms [(d & E)|(o & E)]; discriminate.
      * destruct (route_net w d0) as [w1|]; [|discriminate]. destruct (gc_net w1 d0) as [w2 ms0].
        destruct (queue_main fuel w2 (bump n d0) (q ++ pushes (bump n d0) ms0)) as [[[[ok3 w3] n3] tr3]|] eqn:R; [|discriminate]. intros E. injection E as <- <- <- <- <-.
        exists fuel, w2, (bump n d0), (q ++ pushes (bump n d0) ms0). split; [assumption|]. split; [intros d; cbn; unfold bump; destruct (Nat.eqb d d0); lia|].
        intros ms [(d & E)|(o & E)]; [|discriminate]. injection E as <- ->. intros e He. apply in_app_iff. right. exact He.
    + destruct (gc_obj w o0) as [w2 ms0]. destruct (queue_main fuel w2 n (q ++ pushes n ms0)) as [[[[ok3 w3] n3] tr3]|] eqn:R; [|discriminate]. intros E. injection E as <- <- <- <- <-.
      exists fuel, w2, n, (q ++ pushes n ms0). split; [assumption|]. split; [intros d; cbn; lia|].
      intros ms [(d & E)|(o & E)]; [discriminate|]. injection E as <- ->. intros e He. apply in_app_iff. right. exact He.
  - destruct e as [d0 k0|o0].
    + destruct (negb (Nat.eqb k0 (n d0))).
      * destruct (queue_main fuel w n q) as [[[[ok1 w1] n1] tr1]|] eqn:R; [|discriminate]. intros E. injection E as <- <- <- <- ->. 
        destruct (IH _ _ _ _ _ _ _ _ _ R) as (f2 & w4 & n4 & q4 & A & B & C). exists f2, w4, n4, q4. split; [assumption|]. split; [|assumption]. intros d. rewrite B. cbn. reflexivity.
      * destruct (route_net w d0) as [w1|]; [|discriminate]. destruct (gc_net w1 d0) as [w2 ms0].
        destruct (queue_main fuel w2 (bump n d0) (q ++ pushes (bump n d0) ms0)) as [[[[ok3 w3] n3] tr3]|] eqn:R; [|discriminate]. intros E. injection E as <- <- <- <- ->.
        destruct (IH _ _ _ _ _ _ _ _ _ R) as (f2 & w4 & n4 & q4 & A & B & C). exists f2, w4, n4, q4. split; [assumption|]. split; [|assumption]. intros d. rewrite B. cbn. unfold bump. destruct (Nat.eqb d d0); lia.
    + destruct (gc_obj w o0) as [w2 ms0]. destruct (queue_main fuel w2 n (q ++ pushes n ms0)) as [[[[ok3 w3] n3] tr3]|] eqn:R; [|discriminate]. intros E. injection E as <- <- <- <- ->.
      destruct (IH _ _ _ _ _ _ _ _ _ R) as (f2 & w4 & n4 & q4 & A & B & C). exists f2, w4, n4, q4. split; [assumption|]. split; [|assumption]. intros d. rewrite B. cbn. reflexivity.
Qed.
Lemma serves_follow fuel w n q w' n' tr ms : queue_main fuel w n q = Some (true, w', n', tr) -> incl (update_queue n ms) q ->
  forall m, In m ms -> followed_up movable drNets mazeEndIter n m tr.
Proof.
  intros R Hi m Hm. destruct (main_serves _ _ _ _ _ _ _ R) as [S1 S2]. split.
  - intros f d Hf Hd Hl. apply times_in. assert (n d < n' d)%nat.
    { apply (S1 d (n d)); [|lia]. apply Hi. apply in_update. left. exists m, f, d. auto. }
    rewrite (main_times _ _ _ _ _ _ _ _ R d) in H. lia.
  - intros o Hf Ho Hn. apply S2. apply Hi. apply in_update. right. exists m, o. auto.
Qed.
(* the counts never exceed the limit *)
Lemma main_bound fuel : forall w n q ok w' n' tr, queue_main fuel w n q = Some (ok, w', n', tr) -> forall B, (mazeEndIter <= B)%nat -> (forall d, (n d <= B)%nat) -> (forall d k, In (QRoute d k) q -> (k < B)%nat) -> forall d, (n' d <= B)%nat.
Proof.
  intros w n q ok w' n' tr R B HB. revert w n q ok w' n' tr R.
  assert (P : forall n ms d k, In (QRoute d k) (pushes n ms) -> (k < B)%nat).
  { intros n ms d k Hi. apply in_pushes in Hi as (l & -> & Hi). apply in_update in Hi as [(m & f & d' & E & _ & _ & Hd & Hl)|(m & o & E & _)]; [|discriminate]. injection E as <- ->. lia. }
  induction fuel as [|fuel IH]; intros w n q ok w' n' tr; destruct q as [|e q]; cbn [QueueModel.queue_main]; try discriminate.
  - intros E Hn _. injection E as <- <- <- <-. assumption.
  - intros E Hn _. injection E as <- <- <- <-. assumption.
  - destruct e as [d0 k0|o0].
    + destruct (Nat.eqb_spec k0 (n d0)) as [->|Hk]; cbn [negb].
      * destruct (route_net w d0) as [w1|]; [|intros E Hn _; injection E as <- <- <- <-; assumption]. destruct (gc_net w1 d0) as [w2 ms0].
        destruct (queue_main fuel w2 (bump n d0) (q ++ pushes (bump n d0) ms0)) as [[[[ok3 w3] n3] tr3]|] eqn:R; [|discriminate]. intros E Hn Hq. injection E as <- <- <- <-.
        apply (IH _ _ _ _ _ _ _ R).
        -- intros d. unfold bump. destruct (Nat.eqb_spec d d0) as [->|]; [|auto]. specialize (Hq d0 (n d0) (or_introl eq_refl)). lia.
        -- intros d k Hi. apply in_app_iff in Hi as [Hi|Hi]; [apply (Hq d); cbn; auto|eapply P; eassumption].
      * destruct (queue_main fuel w n q) as [[[[ok1 w1] n1] tr1]|] eqn:R; [|discriminate]. intros E Hn Hq. injection E as <- <- <- <-. apply (IH _ _ _ _ _ _ _ R); [assumption|]. intros d k Hi. apply (Hq d). cbn. auto.
    + destruct (gc_obj w o0) as [w2 ms0]. destruct (queue_main fuel w2 n (q ++ pushes n ms0)) as [[[[ok3 w3] n3] tr3]|] eqn:R; [|discriminate]. intros E Hn Hq. injection E as <- <- <- <-.
      apply (IH _ _ _ _ _ _ _ R); [assumption|]. intros d k Hi. apply in_app_iff in Hi as [Hi|Hi]; [apply (Hq d); cbn; auto|eapply P; eassumption].
Qed.
(* more fuel does not change the result *)
Lemma main_mono fuel : forall w n q r, queue_main fuel w n q = Some r -> forall fuel', (fuel <= fuel')%nat -> queue_main fuel' w n q = Some r.
Proof.
  induction fuel as [|fuel IH]; intros w n q r H fuel' Hf; destruct q as [|e q]; destruct fuel' as [|fuel']; try lia; cbn [QueueModel.queue_main] in *; try discriminate; try assumption.
  destruct e as [d0 k0|o0].
  - destruct (negb (Nat.eqb k0 (n d0))).
    + destruct (queue_main fuel w n q) as [r1|] eqn:R; [|discriminate]. rewrite (IH _ _ _ _ R fuel') by lia. assumption.
    + destruct (route_net w d0) as [w1|]; [|assumption]. destruct (gc_net w1 d0) as [w2 ms0].
      destruct (queue_main fuel w2 (bump n d0) (q ++ pushes (bump n d0) ms0)) as [r1|] eqn:R; [|discriminate]. rewrite (IH _ _ _ _ R fuel') by lia. assumption.
  - destruct (gc_obj w o0) as [w2 ms0]. destruct (queue_main fuel w2 n (q ++ pushes n ms0)) as [r1|] eqn:R; [|discriminate]. rewrite (IH _ _ _ _ R fuel') by lia. assumption.
Qed.
(* every routing has a cause that it answers for the first time *)
Definition cause (n : nat -> nat) (pre : list qevent) (d : nat) : Prop :=
  exists pre1 ev pre2 l m f, pre = pre1 ++ ev :: pre2 /\ found_at ev l /\ In m l /\ must_move (fun e => (n e + times e (pre1 ++ [ev]))%nat) m f /\ In d (drNets f) /\
    (n d + times d (pre1 ++ [ev]) < mazeEndIter)%nat /\ times d pre2 = 0%nat.
Lemma cause_cons n n1 ev pre d : (forall e, n1 e = (n e + times e [ev])%nat) -> cause n1 pre d -> cause n (ev :: pre) d.
Proof.
  intros Hn (pre1 & e & pre2 & l & m & f & -> & A & B & C & D & E & F). exists (ev :: pre1), e, pre2, l, m, f.
  assert (G : forall x, (n x + times x ((ev :: pre1) ++ [e]) = n1 x + times x (pre1 ++ [e]))%nat).
  { intros x. rewrite Hn. destruct ev; cbn [app times]; lia. }
  split; [reflexivity|]. split; [assumption|]. split; [assumption|]. split.
  - assert (CM : forall g, QueueSpec.can_move movable drNets mazeEndIter (fun e0 => (n e0 + times e0 ((ev :: pre1) ++ [e]))%nat) g <-> QueueSpec.can_move movable drNets mazeEndIter (fun e0 => (n1 e0 + times e0 (pre1 ++ [e]))%nat) g).
    { intros g. unfold QueueSpec.can_move. setoid_rewrite G. reflexivity. }
    unfold QueueSpec.must_move in *. rewrite CM. setoid_rewrite CM. assumption.
  - rewrite G. auto.
Qed.
Lemma must_move_ext n n' m f : (forall x, n x = n' x) -> must_move n m f -> must_move n' m f.
Proof.
  intros G. assert (CM : forall g, QueueSpec.can_move movable drNets mazeEndIter n g <-> QueueSpec.can_move movable drNets mazeEndIter n' g).
  { intros g. unfold QueueSpec.can_move. setoid_rewrite G. reflexivity. }
  unfold QueueSpec.must_move. rewrite CM. setoid_rewrite CM. auto.
Qed.
Lemma main_cause pre : forall fuel w n q ok w' n' d ms post, queue_main fuel w n q = Some (ok, w', n', pre ++ Routed d ms :: post) ->
  In (QRoute d (n d + times d pre)) q \/ cause n pre d.
Proof.
  assert (G : forall n n1 q ev pre d ms0, (forall e, n1 e = (n e + times e [ev])%nat) -> (forall l, ms0 = Some l -> found_at ev l) ->
    In (QRoute d (n1 d + times d pre)) (q ++ pushes n1 ms0) \/ cause n1 pre d -> In (QRoute d (n d + times d (ev :: pre))) q \/ cause n (ev :: pre) d).
  { intros n n1 q ev pre0 d ms0 Hn Hm [H|H]; [|right; eapply cause_cons; eassumption].
    assert (E : (n1 d + times d pre0 = n d + times d (ev :: pre0))%nat) by (rewrite Hn; destruct ev; cbn [times]; lia).
    apply in_app_iff in H as [H|H]; [left; rewrite <- E; assumption|]. right. apply in_pushes in H as (l & -> & H). specialize (Hm l eq_refl).
    apply in_update in H as [(m & f & d' & Ed & Hml & Hf & Hd & Hl)|(m & o & Ed & _)]; [|discriminate]. injection Ed as <- Ek.
    exists [], ev, pre0, l, m, f. split; [reflexivity|]. split; [assumption|]. split; [assumption|]. split; [|split; [assumption|split; [|lia]]].
    - eapply must_move_ext; [|exact Hf]. intros x. cbn [app]. apply Hn.
    - cbn [app]. rewrite <- Hn. assumption. }
  induction pre as [|p pre IH]; intros fuel w n q ok w' n' d ms post; (destruct fuel as [|fuel]; destruct q as [|e q]; cbn [QueueModel.queue_main app]; try discriminate).
  - destruct e as [d0 k0|o0].
    + destruct (Nat.eqb_spec k0 (n d0)) as [->|Hk]; cbn [negb].
      * intros E. left. left. destruct (route_net w d0) as [w1|]; [|discriminate]. destruct (gc_net w1 d0) as [w2 ms0].
        destruct (queue_main fuel w2 (bump n d0) (q ++ pushes (bump n d0) ms0)) as [[[[ok3 w3] n3] tr3]|]; [|discriminate]. injection E as _ _ _ -> _. cbn [times]. f_equal. lia.
      * destruct (queue_main fuel w n q) as [[[[ok1 w1] n1] tr1]|]; discriminate.
    + destruct (gc_obj w o0) as [w2 ms0]. destruct (queue_main fuel w2 n (q ++ pushes n ms0)) as [[[[ok3 w3] n3] tr3]|]; discriminate.
  - destruct e as [d0 k0|o0].
    + destruct (negb (Nat.eqb k0 (n d0))).
      * destruct (queue_main fuel w n q) as [[[[ok1 w1] n1] tr1]|] eqn:R; [|discriminate]. intros E. injection E as <- <- <- <- ->. apply IH in R.
        destruct R as [R|R]; [left; right; exact R|]. right. eapply cause_cons; [|exact R]. intros x. cbn. lia.
      * destruct (route_net w d0) as [w1|]; [|discriminate]. destruct (gc_net w1 d0) as [w2 ms0].
        destruct (queue_main fuel w2 (bump n d0) (q ++ pushes (bump n d0) ms0)) as [[[[ok3 w3] n3] tr3]|] eqn:R; [|discriminate]. intros E. injection E as <- <- <- <- ->. apply IH in R.
        apply (G n _ q (Routed d0 ms0)) in R; [destruct R as [R|R]; [left; right; exact R|right; exact R]| |].
        -- intros x. cbn. unfold bump. destruct (Nat.eqb x d0); lia.
        -- intros l ->. left. eauto.
    + destruct (gc_obj w o0) as [w2 ms0]. destruct (queue_main fuel w2 n (q ++ pushes n ms0)) as [[[[ok3 w3] n3] tr3]|] eqn:R; [|discriminate]. intros E. injection E as <- <- <- <- ->. apply IH in R.
      apply (G n _ q (Checked o0 ms0)) in R; [destruct R as [R|R]; [left; right; exact R|right; exact R]| |].
      * intros x. cbn. lia.
      * intros l ->. right. eauto.
Qed.
(* ---- termination *)
Variable dnets : list nat.
Hypothesis dnets_all : forall f d, In d (drNets f) -> In d dnets.
Definition M : nat := Nat.max mazeEndIter 1.
Definition remaining (n : nat -> nat) : nat := list_sum (map (fun d => (M - n d)%nat) dnets).
Definition QI (n : nat -> nat) (q : list qentry) : Prop := forall d k, In (QRoute d k) q -> (k < M)%nat /\ In d dnets /\ (k <= n d)%nat.
Lemma remaining_bump n d : In d dnets -> (n d < M)%nat -> (remaining (bump n d) < remaining n)%nat.
Proof. apply sum_bump. Qed.
Lemma QI_push n q ms : QI n q -> QI n (q ++ pushes n ms).
Proof.
  intros H d k Hi. apply in_app_iff in Hi as [Hi|Hi]; [auto|]. apply in_pushes in Hi as (l & -> & Hi). apply in_update in Hi as [(m & f & d' & E & _ & _ & Hd & Hl)|(m & o & E & _)]; [|discriminate].
  injection E as <- ->. split; [unfold M; lia|]. split; [eauto|lia].
Qed.
Lemma QI_mono n n' q : (forall d, (n d <= n' d)%nat) -> QI n q -> QI n' q.
Proof. intros H Q d k Hi. destruct (Q d k Hi) as (A & B & C). specialize (H d). repeat split; auto. lia. Qed.
Definition halts (w : W) (n : nat -> nat) (q : list qentry) : Prop := exists F, forall fuel, (F <= fuel)%nat -> queue_main fuel w n q <> None.
Lemma halts_skip w n d k q : k <> n d -> halts w n q -> halts w n (QRoute d k :: q).
Proof.
  intros Hk (F & H). exists (S F). intros [|fuel] Hf; [lia|]. cbn [QueueModel.queue_main]. destruct (Nat.eqb_spec k (n d)); [congruence|]. cbn [negb].
  specialize (H fuel ltac:(lia)). destruct (queue_main fuel w n q) as [[[[? ?] ?] ?]|]; [discriminate|congruence].
Qed.
Lemma halts_route w n d q : (forall w', halts (fst (gc_net w' d)) (bump n d) (q ++ pushes (bump n d) (snd (gc_net w' d)))) -> halts w n (QRoute d (n d) :: q).
Proof.
  intros H. destruct (route_net w d) as [w'|] eqn:R.
  - destruct (H w') as (F & HF). exists (S F). intros [|fuel] Hf; [lia|]. cbn [QueueModel.queue_main]. rewrite Nat.eqb_refl. cbn [negb]. rewrite R. specialize (HF fuel ltac:(lia)).
    destruct (gc_net w' d) as [w2 ms]. cbn [fst snd] in HF. destruct (queue_main fuel w2 (bump n d) (q ++ pushes (bump n d) ms)) as [[[[? ?] ?] ?]|]; [discriminate|congruence].
  - exists 1%nat. intros [|fuel] Hf; [lia|]. cbn [QueueModel.queue_main]. rewrite Nat.eqb_refl. cbn [negb]. rewrite R. discriminate.
Qed.
Lemma halts_check w n o q : halts (fst (gc_obj w o)) n (q ++ pushes n (snd (gc_obj w o))) -> halts w n (QCheck o :: q).
Proof.
  intros (F & HF). exists (S F). intros [|fuel] Hf; [lia|]. cbn [QueueModel.queue_main]. specialize (HF fuel ltac:(lia)).
  destruct (gc_obj w o) as [w2 ms]. cbn [fst snd] in HF. destruct (queue_main fuel w2 n (q ++ pushes n ms)) as [[[[? ?] ?] ?]|]; [discriminate|congruence].
Qed.
Theorem main_halts : forall t w n q, (remaining n < t)%nat -> QI n q -> halts w n q.
Proof.
  induction t as [|t IHt]; [lia|]. intros w n q Ht HQ.
  assert (Live : forall d w q, QI n (QRoute d (n d) :: q) -> halts w n (QRoute d (n d) :: q)).
  { intros d w0 q0 Q. destruct (Q d (n d) (or_introl eq_refl)) as (A & B & _). apply halts_route. intros w'. apply IHt.
    - pose proof (remaining_bump n d B A). lia.
    - apply QI_push. apply (QI_mono n); [apply bump_le|]. intros e k He. apply Q. cbn. auto. }
  assert (Q1 : forall e q, QI n (e :: q) -> QI n q) by (intros e q0 Q d k Hi; apply Q; cbn; auto).
  (* a live entry in the queue *)
  assert (A : forall q1 w d q2, QI n (q1 ++ QRoute d (n d) :: q2) -> halts w n (q1 ++ QRoute d (n d) :: q2)).
  { induction q1 as [|e q1 IH]; intros w0 d q2 Q; [apply Live; assumption|]. cbn [app] in *.
    destruct e as [d' k|o].
    - destruct (Nat.eq_dec k (n d')) as [->|Hk]; [apply Live; assumption|]. apply halts_skip; [assumption|]. apply IH. eapply Q1; eassumption.
    - apply halts_check. rewrite <- app_assoc. cbn [app]. apply IH. apply Q1 in Q. pose proof (QI_push n _ (snd (gc_obj w0 o)) Q) as Q'. rewrite <- app_assoc in Q'. exact Q'. }
  revert w. induction q as [|e q IH]; intros w.
  - exists 0%nat. intros [|fuel] _; cbn; discriminate.
  - destruct e as [d k|o].
    + destruct (Nat.eq_dec k (n d)) as [->|Hk]; [apply Live; assumption|]. apply halts_skip; [assumption|]. apply IH. eapply Q1; eassumption.
    + apply halts_check. pose proof (QI_push n q (snd (gc_obj w o)) (Q1 _ _ HQ)) as Q'.
      destruct (pushes n (snd (gc_obj w o))) as [|e p] eqn:P; [rewrite app_nil_r; apply IH; eapply Q1; eassumption|].
      destruct (pushes_live n (snd (gc_obj w o))) as (d & Hd & Hl); [rewrite P; discriminate|]. rewrite P in Hd.
      assert (Hi : In (QRoute d (n d)) (q ++ e :: p)) by (apply in_app_iff; auto). apply in_split in Hi as (q1 & q2 & Eq). rewrite Eq in *. apply A. assumption.
Qed.

End Q.
