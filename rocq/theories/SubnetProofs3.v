(* Sub-nets as a partition. *)
From Verif Require Import Base GeomModel TreeModel TreeSpec TreeProofs ConnModel ConnSpec ConnProofs3 ConnProofs4 ConnProofs5 SubnetModel SubnetSpec SubnetProofs1 SubnetProofs2.
From Coq Require Import Sorted Permutation.

Definition group (comp : nat -> nat) (off n s : nat) : list nat := filter (fun i => Nat.eqb (comp (off + i)%nat) s) (seq 0 n).
Lemma in_group comp off n s i : In i (group comp off n s) <-> (i < n)%nat /\ comp (off + i)%nat = s.
Proof. unfold group. rewrite filter_In, in_seq, Nat.eqb_eq. intuition lia. Qed.
Lemma groups_perm (f : nat -> nat) L : forall N, Permutation (concat (map (fun s => filter (fun i => Nat.eqb (f i) s) L) (seq 0 N))) (filter (fun i => (f i <? N)%nat) L).
Proof.
  induction N as [|N IH].
  - cbn. induction L as [|a L IHL]; cbn; [constructor|assumption].
  - rewrite seq_S, map_app, concat_app. cbn [map concat plus]. rewrite app_nil_r.
    eapply Permutation_trans; [apply Permutation_app_tail; exact IH|]. clear IH. induction L as [|a L IHL]; cbn [filter]; [constructor|].
    destruct (Nat.ltb_spec (f a) N), (Nat.eqb_spec (f a) N), (Nat.ltb_spec (f a) (S N)); try lia.
    + cbn. constructor. assumption.
    + eapply Permutation_trans; [symmetry; apply Permutation_middle|]. constructor. assumption.
    + assumption.
Qed.
Lemma filter_all {A} (f : A -> bool) l : (forall x, In x l -> f x = true) -> filter f l = l.
Proof. induction l as [|a l IH]; cbn; intros H; [reflexivity|]. rewrite H by auto. f_equal. auto. Qed.
Lemma max_label_ge comp n v : (v < n)%nat -> (comp v <= max_label comp n)%nat.
Proof.
  intros Hv. unfold max_label. assert (Hi : In v (seq 0 n)) by (apply in_seq; lia). revert Hi. generalize (seq 0 n).
  induction l as [|a l IH]; cbn; [easy|]. intros [->|Hi]; [lia|]. specialize (IH Hi). lia.
Qed.
Lemma max_label_in comp n : (0 < n)%nat -> exists v, (v < n)%nat /\ comp v = max_label comp n.
Proof.
  intros Hn. unfold max_label.
  assert (H : forall l, l <> [] -> exists v, In v l /\ comp v = fold_right Nat.max 0%nat (map comp l)).
  { induction l as [|a l IH]; [congruence|]. intros _. cbn. destruct l as [|b l]; [exists a; cbn; split; [auto|lia]|].
    destruct IH as (v & Hv & E); [discriminate|]. destruct (Nat.max_spec (comp a) (fold_right Nat.max 0%nat (map comp (b :: l)))) as [[_ M]|[_ M]]; rewrite M; [exists v|exists a]; cbn [In] in *; auto. }
  destruct (H (seq 0 n)) as (v & Hv & E); [destruct n; [lia|discriminate]|]. apply in_seq in Hv. exists v. split; [lia|assumption].
Qed.
Lemma mine_positions {A} comp off s (l : list A) :
  map snd (filter (fun x => Nat.eqb (comp (off + fst x)%nat) s) (numbered l)) = at_positions (group comp off (length l) s) l.
Proof.
  unfold at_positions, group, numbered.
  assert (H : forall (m : list A) n pre, length pre = n ->
    map snd (filter (fun x => Nat.eqb (comp (off + fst x)%nat) s) (combine (seq n (length m)) m)) =
    flat_map (fun i => match nth_error (pre ++ m) i with Some a => [a] | None => [] end) (filter (fun i => Nat.eqb (comp (off + i)%nat) s) (seq n (length m)))).
  { induction m as [|a m IH]; intros n pre Hp; cbn [length seq combine filter map flat_map]; [reflexivity|]. cbn [fst].
    specialize (IH (S n) (pre ++ [a]) ltac:(rewrite app_length; cbn; lia)). rewrite <- app_assoc in IH. cbn [app] in IH.
    destruct (Nat.eqb (comp (off + n)%nat) s); cbn [map flat_map snd]; [|exact IH].
    rewrite nth_error_app2 by lia. replace (n - length pre)%nat with 0%nat by lia. cbn [nth_error app]. f_equal. exact IH. }
  apply (H l 0%nat []). reflexivity.
Qed.
Lemma in_at_positions {A} g (l : list A) a : In a (at_positions g l) <-> exists i, In i g /\ nth_error l i = Some a.
Proof.
  unfold at_positions. rewrite in_flat_map. split; intros (i & Hi & E); exists i; (split; [assumption|]).
  - destruct (nth_error l i); [destruct E as [->|[]]; reflexivity|destruct E].
  - rewrite E. cbn. auto.
Qed.
Lemma at_positions_all {A} (l : list A) : at_positions (seq 0 (length l)) l = l.
Proof.
  unfold at_positions. assert (H : forall (m pre : list A), flat_map (fun i => match nth_error (pre ++ m) i with Some a => [a] | None => [] end) (seq (length pre) (length m)) = m).
  { induction m as [|a m IH]; intros pre; cbn [length seq flat_map]; [reflexivity|].
    rewrite nth_error_app2 by lia. rewrite Nat.sub_diag. cbn. f_equal. specialize (IH (pre ++ [a])). rewrite app_length, <- app_assoc in IH. cbn [app length] in IH. rewrite Nat.add_1_r in IH. exact IH. }
  apply (H l []).
Qed.
Lemma perm_flat_map {A B} (f : A -> list B) l l' : Permutation l l' -> Permutation (flat_map f l) (flat_map f l').
Proof.
  induction 1; cbn; [constructor|apply Permutation_app_head; assumption| |eapply Permutation_trans; eassumption].
  rewrite !app_assoc. apply Permutation_app_tail. apply Permutation_app_comm.
Qed.
Lemma flat_map_concat' {A B} (f : A -> list B) ll : flat_map f (concat ll) = concat (map (flat_map f) ll).
Proof. induction ll as [|l ll IH]; cbn; [reflexivity|]. rewrite flat_map_app. f_equal. assumption. Qed.

Section N.
Variable objs ext : list dfig.
Hypothesis ok : wires_ok objs.
Variable pins_at : point -> Z -> list Z.
Variable routeBox : box.
Let pins := sub_pin2ep pins_at routeBox objs.
Let gCnt := length objs.
Let nCnt := (length pins + gCnt)%nat.
Let adj := adjVec (sub_nodeMap objs pins).
Notation chain := (chained pins_at routeBox objs).
Lemma goes_in_iff d : goes_in routeBox d = true <-> inside routeBox d.
Proof. destruct d as [[bp ep l tb te|p l1 l2]|p l]; cbn [goes_in inside]; [|tauto|tauto]. rewrite andb_true_iff, !in_clip_iff. tauto. Qed.
Lemma pin_has_obj id k : found pins_at routeBox objs id k -> exists i, (i < gCnt)%nat /\ joint pins_at routeBox objs (Wire i) k.
Proof.
  intros (_ & _ & o & Ho & He). assert (Ho' := Ho). apply In_nth_error in Ho as (i & Hi). exists i. split; [apply nth_error_Some; congruence|]. cbn. rewrite Hi.
  assert (E : is_end o k) by (destruct o; cbn in *; tauto). split; [apply end_lies; [apply ok; assumption|assumption]|exists o; auto].
Qed.

Theorem initNets_spec pick fuel : (turns adj nCnt <= fuel)%nat ->
  exists subs groups, initNets pins_at routeBox pick fuel objs ext = Some subs /\ length groups = length subs /\
  Permutation (concat groups) (seq 0 (length objs)) /\
  (forall s g sub, nth_error groups s = Some g -> nth_error subs s = Some sub ->
     (objs <> [] -> g <> []) /\
     (exists fin fout, sn_route sub = filter fin (at_positions g objs) /\ sn_ext sub = (if Nat.eqb s 0 then ext else []) ++ filter fout (at_positions g objs) /\
        (forall d, fin d = true <-> inside routeBox d) /\ (forall d, fout d = true <-> ~ inside routeBox d))) /\
  (forall s t g h i j, nth_error groups s = Some g -> nth_error groups t = Some h -> In i g -> In j h -> (s = t <-> chain (Wire i) (Wire j))) /\
  NoDup (concat (map sn_pins subs)) /\
  (forall id, In id (concat (map sn_pins subs)) <-> exists k, found pins_at routeBox objs id k) /\
  (forall s t sub g id i, nth_error subs s = Some sub -> nth_error groups t = Some g -> In id (sn_pins sub) -> In i g -> (s = t <-> chain (Pin id) (Wire i))).
Proof.
  intros Hf. destruct (connComp_spec adj nCnt pick (sub_range objs ok pins_at routeBox) (sub_sym objs pins_at routeBox) fuel Hf) as (comp & lab & E & C1 & C2 & C3).
  set (N := S (max_label comp nCnt)).
  assert (RI : forall a b, (a < nCnt)%nat -> (b < nCnt)%nat -> comp a = comp b <-> chain (sub_item objs pins_at routeBox a) (sub_item objs pins_at routeBox b)).
  { intros a b Ha Hb. rewrite (C1 a b Ha Hb). apply (reach_iff objs ok pins_at routeBox a b Ha Hb). }
  assert (CN : forall v, (v < nCnt)%nat -> (comp v < N)%nat) by (intros v Hv; pose proof (max_label_ge comp nCnt v Hv); unfold N; lia).
  assert (GO : forall i, (i < gCnt)%nat -> (i < nCnt)%nat) by (unfold nCnt; lia).
  exists (map (sub_of routeBox objs ext (map fst pins) comp) (seq 0 N)), (map (group comp 0 gCnt) (seq 0 N)).
  assert (NE : forall (B : Type) (f : nat -> B) s b, nth_error (map f (seq 0 N)) s = Some b -> (s < N)%nat /\ b = f s).
  { intros B f s b H. rewrite nth_error_map in H. destruct (nth_error (seq 0 N) s) as [s'|] eqn:Es; [|discriminate]. injection H as <-.
    assert (L : (s < length (seq 0 N))%nat) by (apply nth_error_Some; congruence). rewrite seq_length in L. split; [assumption|].
    rewrite (nth_error_nth' _ 0%nat) in Es by (rewrite seq_length; assumption). rewrite seq_nth in Es by assumption. injection Es as <-. reflexivity. }
  assert (PN : forall s, sn_pins (sub_of routeBox objs ext (map fst pins) comp s) = at_positions (group comp gCnt (length pins) s) (map fst pins)).
  { intros s. cbn [sub_of sn_pins]. rewrite mine_positions, map_length. reflexivity. }
  split; [|split; [|split; [|split; [|split; [|split; [|split]]]]]].
  - unfold initNets. fold pins. fold gCnt. fold nCnt. fold adj. rewrite E. reflexivity.
  - rewrite !map_length. reflexivity.
  - eapply Permutation_trans; [apply (groups_perm comp (seq 0 gCnt) N)|]. rewrite filter_all; [constructor 1 || apply Permutation_refl|].
    intros v Hv. apply in_seq in Hv. apply Nat.ltb_lt. apply CN, GO. lia.
  - intros s g sub Hg Hs. apply NE in Hg as [Ls ->]. apply NE in Hs as [_ ->]. split.
    + intros Hne Hg.
      assert (Hn0 : (0 < nCnt)%nat) by (unfold nCnt, gCnt; destruct objs; [congruence|cbn; lia]).
      assert (s < lab)%nat. { destruct (max_label_in comp nCnt Hn0) as (v & Hv & Ev). specialize (C2 v Hv). unfold N in Ls. lia. }
      destruct (C3 s ltac:(assumption)) as (v & Hv & Ev).
      destruct (Nat.lt_ge_cases v gCnt) as [Lv|Lv].
      * assert (In v (group comp 0 gCnt s)) by (apply in_group; auto). rewrite Hg in H0. destruct H0.
      * destruct (nth_error pins (v - gCnt)) as [e|] eqn:Ee; [|apply nth_error_None in Ee; unfold nCnt in Hv; lia].
        destruct (sub_item_pin objs pins_at routeBox _ _ Ee) as [Ei Li]. replace (length objs + (v - gCnt))%nat with v in Ei, Li by (unfold gCnt in *; lia).
        destruct (sub_pins_ok pins_at routeBox objs) as [_ Hn]. fold pins in Hn. destruct e as [id ls]. specialize (Hn id ls (nth_error_In _ _ Ee)).
        destruct ls as [|k ls]; [congruence|]. pose proof (proj1 (sub_pin_here objs pins_at routeBox _ _ k Ee) ltac:(cbn; auto)) as F. cbn [fst] in F, Ei.
        destruct (pin_has_obj id k F) as (i & Li' & Hj).
        assert (Q : comp v = comp i).
        { apply RI; [assumption|auto|]. rewrite Ei, (sub_item_obj objs pins_at routeBox i Li'). eapply chained_step; [apply chained_refl|exact F|exact Hj]. }
        assert (H1 : In i (group comp 0 gCnt s)) by (apply in_group; split; [assumption|cbn; congruence]). rewrite Hg in H1. destruct H1.
    + exists (goes_in routeBox), (fun d => negb (goes_in routeBox d)). cbn [sub_of sn_route sn_ext]. rewrite !mine_positions. split; [reflexivity|]. split; [reflexivity|].
      split; intros d; [apply goes_in_iff|]. rewrite negb_true_iff. pose proof (goes_in_iff d) as G. destruct (goes_in routeBox d); split; intros H; try discriminate; try reflexivity; [tauto|intros Q; apply G in Q; discriminate].
  - intros s t g h i j Hg Hh Hi Hj. apply NE in Hg as [Ls ->]. apply NE in Hh as [Lt ->]. apply in_group in Hi as [Li <-]. apply in_group in Hj as [Lj <-]. cbn [plus].
    rewrite (RI i j (GO i Li) (GO j Lj)), (sub_item_obj objs pins_at routeBox i Li), (sub_item_obj objs pins_at routeBox j Lj). reflexivity.
  - rewrite map_map. rewrite (map_ext _ _ PN).
    assert (P : Permutation (concat (map (fun s => at_positions (group comp gCnt (length pins) s) (map fst pins)) (seq 0 N))) (map fst pins)).
    { unfold at_positions. rewrite <- (map_map (fun s => group comp gCnt (length pins) s) (flat_map _)), <- flat_map_concat'.
      eapply Permutation_trans; [apply perm_flat_map; apply (groups_perm (fun i => comp (gCnt + i)%nat) (seq 0 (length pins)) N)|].
      rewrite filter_all by (intros v Hv; apply in_seq in Hv; apply Nat.ltb_lt; apply CN; unfold nCnt; lia).
      rewrite <- (map_length fst pins). fold (at_positions (seq 0 (length (map fst pins))) (map fst pins)). rewrite at_positions_all. apply Permutation_refl. }
    eapply Permutation_NoDup; [apply Permutation_sym; exact P|].
    destruct (sub_pins_ok pins_at routeBox objs) as [Hs _]. fold pins in Hs. clear -Hs. induction Hs as [|a l H1 H2 H3]; cbn; constructor; [|assumption].
    intros H. apply in_map_iff in H as (b & Eb & Hb). rewrite Forall_forall in H3. specialize (H3 b Hb). lia.
  - intros id. rewrite map_map, (map_ext _ _ PN). rewrite in_concat. split.
    + intros (l & Hl & Hid). apply in_map_iff in Hl as (s & <- & Hs). apply in_at_positions in Hid as (q & _ & Eq). rewrite nth_error_map in Eq. destruct (nth_error pins q) as [e|] eqn:Ee; [|discriminate]. injection Eq as <-.
      destruct (sub_pins_ok pins_at routeBox objs) as [_ Hn]. fold pins in Hn. destruct e as [id ls]. specialize (Hn id ls (nth_error_In _ _ Ee)).
      destruct ls as [|k ls]; [congruence|]. exists k. apply (sub_pin_here objs pins_at routeBox _ _ k Ee). cbn. auto.
    + intros (k & F). apply (sub_found pins_at routeBox objs id k) in F as (ls & Hls & _). fold pins in Hls. apply In_nth_error in Hls as (q & Eq).
      assert (Lq : (q < length pins)%nat) by (apply nth_error_Some; congruence). assert (L : (gCnt + q < nCnt)%nat) by (unfold nCnt; lia).
      exists (at_positions (group comp gCnt (length pins) (comp (gCnt + q)%nat)) (map fst pins)). split.
      * apply in_map_iff. exists (comp (gCnt + q)%nat). split; [reflexivity|]. apply in_seq. specialize (CN _ L). lia.
      * apply in_at_positions. exists q. split; [apply in_group; auto|]. rewrite nth_error_map, Eq. reflexivity.
  - intros s t sub g id i Hs Hg Hid Hi. apply NE in Hs as [Ls ->]. apply NE in Hg as [Lt ->]. apply in_group in Hi as [Li <-]. rewrite PN in Hid. apply in_at_positions in Hid as (q & Hq & Eq). apply in_group in Hq as [Lq <-].
    rewrite nth_error_map in Eq. destruct (nth_error pins q) as [e|] eqn:Ee; [|discriminate]. injection Eq as <-. destruct (sub_item_pin objs pins_at routeBox _ _ Ee) as [Ei Le].
    cbn [plus]. rewrite (RI (gCnt + q)%nat i Le (GO i Li)), (sub_item_obj objs pins_at routeBox i Li). unfold gCnt. rewrite Ei. reflexivity.
Qed.
End N.
