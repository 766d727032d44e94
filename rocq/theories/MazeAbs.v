(* The search as an abstract transition system: committed directions and a bag of keys
   (position, last-but-one direction, last direction).  Invariants for soundness, termination and
   completeness. *)
From Verif Require Import Base GeomModel GeomSpec GridModel GridSpec GridProofs GridProofs2.

Lemma opp_opp d : opp (opp d) = d.
Proof. destruct d; reflexivity. Qed.
Lemma opp_unk d : opp d = DUnk <-> d = DUnk.
Proof. destruct d; cbn; split; congruence. Qed.
Lemma step_back p d : step (step p (opp d)) d = p.
Proof. rewrite <- (opp_opp d) at 2. apply step_step. Qed.
Lemma step_inj_dir p a b : step p a = step p b -> a = b.
Proof. destruct p as [x y z], a, b; unfold step; cbn [mx my mz]; intros H; try reflexivity; exfalso; inversion H; lia. Qed.
Lemma step_neq p d : d <> DUnk -> step p d <> p.
Proof. intros Hd E. apply Hd. apply (step_inj_dir p). exact E. Qed.
Lemma dir_eq_dec (a b : dir) : {a = b} + {a <> b}.
Proof. decide equality. Defined.
Lemma dir_eqb_eq a b : dir_eqb a b = true <-> a = b.
Proof. destruct a, b; cbn; split; congruence. Qed.
Lemma dir_eqb_neq a b : dir_eqb a b = false <-> a <> b.
Proof. destruct a, b; cbn; split; congruence. Qed.
Definition dirs6 : list dir := [DN; DE; DS; DW; DU; DD].
Lemma dirs6_in d : d <> DUnk -> In d dirs6.
Proof. destruct d; cbn; tauto. Qed.
Lemma dirs6_out d : In d dirs6 -> d <> DUnk.
Proof. cbn. intuition congruence. Qed.

Lemma filter_len {A} (f : A -> bool) l : (length (filter f l) <= length l)%nat.
Proof. induction l as [|a l IH]; cbn; [lia|]. destruct (f a); cbn; lia. Qed.

Section Abs.
Variable edge : midx -> dir -> bool.
Variables src dst : midx -> bool.
Variable cc : list midx.
Hypothesis cc_src : forall s, In s cc -> src s = true.

Definition key : Type := midx * dir * dir.
Definition kpos (k : key) := fst (fst k).
Definition ok_cand (cm : midx -> dir) (v : midx) (d2 d : dir) : bool :=
  edge v d && negb (src (step v d)) && dir_eqb (cm (step v d)) DUnk && negb (dir_eqb d2 (opp d)).
Definition cands cm v d2 : list dir := filter (ok_cand cm v d2) dirs6.
Definition aset (cm : midx -> dir) (u : midx) (d : dir) : midx -> dir := fun p => if midx_eq_dec p u then d else cm p.
(* the predecessor of the position of a key *)
Definition kpred (v : midx) (d2 : dir) := step v (opp d2).
Definition tail_ok cm v (d1 d2 : dir) : bool :=
  dir_eqb d1 DUnk || dir_eqb (cm (kpred v d2)) DUnk || dir_eqb (cm (kpred v d2)) d1.
Definition commit cm v d1 d2 : midx -> dir :=
  if dir_eqb d1 DUnk then cm else match cands cm v d2 with [] => cm | _ => aset cm (kpred v d2) d1 end.
Definition pushes cm v d2 : list key := map (fun d => (step v d, d2, d)) (cands cm v d2).
(* expanding a key *)
Definition aexpand cm (k : key) : (midx -> dir) * list key :=
  let '(v, d1, d2) := k in
  if tail_ok cm v d1 d2 then (commit cm v d1 d2, pushes cm v d2) else (cm, []).

Lemma ok_cand_iff cm v d2 d : ok_cand cm v d2 d = true <->
  edge v d = true /\ src (step v d) = false /\ cm (step v d) = DUnk /\ d2 <> opp d.
Proof.
  unfold ok_cand. rewrite !andb_true_iff, !negb_true_iff, dir_eqb_eq, dir_eqb_neq. tauto.
Qed.
Lemma cands_iff cm v d2 d : In d (cands cm v d2) <->
  d <> DUnk /\ edge v d = true /\ src (step v d) = false /\ cm (step v d) = DUnk /\ d2 <> opp d.
Proof.
  unfold cands. rewrite filter_In, ok_cand_iff. split.
  - intros [A B]. split; [apply dirs6_out; assumption|assumption].
  - intros [A B]. split; [apply dirs6_in; assumption|assumption].
Qed.

(* the committed chain from a node back to a start point *)
Inductive chain (cm : midx -> dir) : midx -> list midx -> Prop :=
| chain_start s : In s cc -> chain cm s [s]
| chain_step t d l : cm t = d -> d <> DUnk -> src t = false -> edge (step t (opp d)) d = true ->
    chain cm (step t (opp d)) l -> chain cm t (t :: l).
(* the history of a key *)
Inductive hist (cm : midx -> dir) : key -> list midx -> Prop :=
| hist0 v : In v cc -> hist cm (v, DUnk, DUnk) [v]
| hist1 v d2 : d2 <> DUnk -> src v = false -> edge (kpred v d2) d2 = true -> In (kpred v d2) cc ->
    hist cm (v, DUnk, d2) [v; kpred v d2]
| hist2 v d1 d2 l : d1 <> DUnk -> d2 <> DUnk -> d1 <> opp d2 -> src v = false -> src (kpred v d2) = false ->
    edge (kpred v d2) d2 = true -> edge (kpred (kpred v d2) d1) d1 = true ->
    chain cm (kpred (kpred v d2) d1) l ->
    hist cm (v, d1, d2) (v :: kpred v d2 :: l).

Definition ext (cm cm' : midx -> dir) := forall p, cm p <> DUnk -> cm' p = cm p.
Lemma chain_ext cm cm' p l : ext cm cm' -> chain cm p l -> chain cm' p l.
Proof.
  intros X H. induction H as [s Hs|t d l Ht Hd Hn He Hc IH].
  - constructor; assumption.
  - apply (chain_step cm' t d); auto. rewrite X; [assumption|]. rewrite Ht; assumption.
Qed.
Lemma hist_ext cm cm' k l : ext cm cm' -> hist cm k l -> hist cm' k l.
Proof. intros X H. destruct H; constructor; auto. eapply chain_ext; eassumption. Qed.
Lemma chain_in cm p l q : chain cm p l -> In q l -> In q cc \/ cm q <> DUnk.
Proof.
  intros H. induction H as [s Hs|t d l Ht Hd Hn He Hc IH]; intros [Hq|Hq]; subst; auto.
Qed.
Lemma commit_ext cm v d1 d2 : tail_ok cm v d1 d2 = true -> ext cm (commit cm v d1 d2).
Proof.
  unfold tail_ok, commit. intros H p Hp. destruct (dir_eqb d1 DUnk) eqn:E1; [reflexivity|].
  destruct (cands cm v d2); [reflexivity|]. unfold aset. destruct (midx_eq_dec p (kpred v d2)) as [->|]; [|reflexivity].
  cbn [orb] in H. apply orb_true_iff in H as [H|H]; apply dir_eqb_eq in H; congruence.
Qed.
Lemma aexpand_ext cm k : ext cm (fst (aexpand cm k)).
Proof.
  destruct k as [[v d1] d2]. unfold aexpand. destruct (tail_ok cm v d1 d2) eqn:T; cbn [fst].
  - apply commit_ext; assumption.
  - intros p _; reflexivity.
Qed.
Lemma kpred_step v d : kpred (step v d) d = v.
Proof. unfold kpred. apply step_step. Qed.

(* invariant on keys: a duplicate-free history *)
Definition good cm (k : key) := exists l, hist cm k l /\ NoDup l.
Lemma expand_hist cm v d1 d2 l d :
  hist cm (v, d1, d2) l -> NoDup l -> tail_ok cm v d1 d2 = true -> In d (cands cm v d2) ->
  hist (commit cm v d1 d2) (step v d, d2, d) (step v d :: l) /\ NoDup (step v d :: l).
Proof.
  intros H N T Hd. pose proof Hd as Hd'. apply cands_iff in Hd' as (D & He & Hs & Hc & Hr).
  assert (Hw : ~ In (step v d) cc) by (intros X; rewrite (cc_src _ X) in Hs; discriminate).
  inversion H as [v0 Hv|v0 d20 D2 Sv Ee Hu|v0 d10 d20 l0 D1 D2 Dn Sv Su Ee Ee' Hch]; subst.
  - split.
    + pose proof (hist1 (commit cm v DUnk DUnk) (step v d) d D Hs) as K. rewrite kpred_step in K. auto.
    + constructor; [|assumption]. cbn. intros [X|[]]. apply (step_neq v d); congruence.
  - split.
    + pose proof (hist2 (commit cm v DUnk d2) (step v d) d2 d [kpred v d2] D2 D Hr Hs) as K. rewrite kpred_step in K.
      apply K; auto. constructor. assumption.
    + constructor; [|assumption]. cbn. intros [X|[X|[]]].
      * apply (step_neq v d); congruence.
      * apply Hr. unfold kpred in X. apply step_inj_dir in X. rewrite <- X. symmetry. apply opp_opp.
  - assert (C : commit cm v d1 d2 (kpred v d2) = d1).
    { unfold commit. replace (dir_eqb d1 DUnk) with false by (symmetry; apply dir_eqb_neq; assumption).
      destruct (cands cm v d2) eqn:E; [destruct Hd|]. unfold aset.
      destruct (midx_eq_dec (kpred v d2) (kpred v d2)); congruence. }
    split.
    + pose proof (hist2 (commit cm v d1 d2) (step v d) d2 d (kpred v d2 :: l0) D2 D Hr Hs) as K. rewrite kpred_step in K.
      apply K; auto. apply (chain_step _ _ d1); auto. apply (chain_ext cm); [apply commit_ext; assumption|assumption].
    + constructor; [|assumption]. cbn. intros [X|[X|X]].
      * apply (step_neq v d); congruence.
      * apply Hr. unfold kpred in X. apply step_inj_dir in X. rewrite <- X. symmetry. apply opp_opp.
      * destruct (chain_in _ _ _ _ Hch X); contradiction.
Qed.

(* ---- runs ---- *)
Record ast := mkA { acm : midx -> dir; awf : list key; alog : list key }.
Inductive astep : ast -> ast -> Prop :=
| astep_skip cm w1 k w2 P : cm (kpos k) <> DUnk ->
    astep (mkA cm (w1 ++ k :: w2) P) (mkA cm (w1 ++ w2) P)
| astep_expand cm w1 k w2 P : cm (kpos k) = DUnk -> dst (kpos k) = false ->
    astep (mkA cm (w1 ++ k :: w2) P)
          (mkA (fst (aexpand cm k)) ((w1 ++ w2) ++ snd (aexpand cm k)) (P ++ snd (aexpand cm k))).
Definition ainit (cm : midx -> dir) : ast := mkA cm (map (fun s => (s, DUnk, DUnk)) cc) (map (fun s => (s, DUnk, DUnk)) cc).
Inductive areach (cm0 : midx -> dir) : ast -> Prop :=
| ar0 : areach cm0 (ainit cm0)
| arS a b : areach cm0 a -> astep a b -> areach cm0 b.

(* ---- soundness ---- *)
Definition all_good (a : ast) := forall k, In k (awf a) -> good (acm a) k.
Lemma good_ext cm cm' k : ext cm cm' -> good cm k -> good cm' k.
Proof. intros X (l & H & N). exists l. split; [eapply hist_ext; eassumption|assumption]. Qed.
Lemma aexpand_good cm k k' : good cm k -> In k' (snd (aexpand cm k)) -> good (fst (aexpand cm k)) k'.
Proof.
  destruct k as [[v d1] d2]. intros (l & H & N). unfold aexpand.
  destruct (tail_ok cm v d1 d2) eqn:T; cbn [fst snd]; [|intros []].
  unfold pushes. rewrite in_map_iff. intros (d & <- & Hd).
  destruct (expand_hist cm v d1 d2 l d H N T Hd) as [A B]. exists (step v d :: l). split; assumption.
Qed.
Lemma astep_good a b : astep a b -> all_good a -> all_good b.
Proof.
  intros S G. destruct S as [cm w1 k w2 P Hk|cm w1 k w2 P Hk Hd]; unfold all_good in *; cbn [acm awf] in *.
  - intros k' Hin. apply G. apply in_app_or in Hin as [?|?]; apply in_or_app; cbn; auto.
  - intros k' Hin. apply in_app_or in Hin as [Hin|Hin].
    + apply (good_ext cm); [apply aexpand_ext|]. apply G.
      apply in_app_or in Hin as [?|?]; apply in_or_app; cbn; auto.
    + apply aexpand_good; [|assumption]. apply G. apply in_or_app; cbn; auto.
Qed.
Lemma areach_good cm0 a : areach cm0 a -> all_good a.
Proof.
  induction 1 as [|a b _ IH S]; [|eapply astep_good; eassumption].
  intros k Hin. cbn in Hin. apply in_map_iff in Hin as (s & <- & Hs). exists [s]. split; [constructor; assumption|].
  constructor; [intros []|constructor].
Qed.

(* ---- termination ---- *)
Variable V : list midx.
Hypothesis cc_V : forall s, In s cc -> In s V.
Hypothesis edge_V : forall p d, d <> DUnk -> edge p d = true -> In p V /\ In (step p d) V.
Lemma chain_V cm p l : chain cm p l -> forall q, In q l -> In q V.
Proof.
  induction 1 as [s Hs|t d l Ht Hd Hn He Hc IH]; intros q [Hq|Hq]; subst; auto.
  - destruct Hq.
  - destruct (edge_V _ _ Hd He) as [_ A]. rewrite step_back in A. assumption.
Qed.
Lemma hist_V cm k l : hist cm k l -> forall q, In q l -> In q V.
Proof.
  intros H q Hq. destruct H as [v Hv|v d2 D2 Sv Ee Hu|v d1 d2 l D1 D2 Dn Sv Su Ee Ee' Hch]; cbn in Hq.
  - destruct Hq as [<-|[]]. auto.
  - pose proof (edge_V _ _ D2 Ee) as [A B]. unfold kpred in *. rewrite step_back in B.
    destruct Hq as [<-|[<-|[]]]; assumption.
  - pose proof (edge_V _ _ D2 Ee) as [A B]. unfold kpred in *. rewrite step_back in B.
    destruct Hq as [<-|[<-|Hq]]; [assumption|assumption|]. eapply chain_V; eassumption.
Qed.
Definition bound : nat := S (length V).
Definition weight (l : list midx) : Z := 7 ^ Z.of_nat (bound - length l).
Lemma hist_len cm k l : hist cm k l -> NoDup l -> (length l < bound)%nat.
Proof. intros H N. unfold bound. pose proof (NoDup_incl_length N (hist_V cm k l H)). lia. Qed.
Fixpoint zsum (l : list Z) : Z := match l with [] => 0 | a :: r => a + zsum r end.
Lemma zsum_app a b : zsum (a ++ b) = zsum a + zsum b.
Proof. induction a; cbn; lia. Qed.
(* the state has measure m *)
Definition ghist cm k l := hist cm k l /\ NoDup l.
Definition meas (a : ast) (m : Z) : Prop :=
  exists ls, Forall2 (ghist (acm a)) (awf a) ls /\ m = zsum (map weight ls).
Lemma weight_pos l : 0 < weight l.
Proof. unfold weight. apply Z.pow_pos_nonneg; lia. Qed.
Lemma zsum_pos ls : 0 <= zsum (map weight ls).
Proof. induction ls as [|a r IH]; cbn; [lia|]. pose proof (weight_pos a). lia. Qed.
Lemma Forall2_ghist_ext cm cm' w ls : ext cm cm' -> Forall2 (ghist cm) w ls -> Forall2 (ghist cm') w ls.
Proof.
  intros X H. induction H as [|k l w ls [A B] F IH]; constructor; [|assumption].
  split; [eapply hist_ext; eassumption|assumption].
Qed.
Lemma aexpand_meas cm k l : ghist cm k l ->
  exists ls, Forall2 (ghist (fst (aexpand cm k))) (snd (aexpand cm k)) ls /\ zsum (map weight ls) < weight l.
Proof.
  destruct k as [[v d1] d2]. intros [H N]. unfold aexpand.
  destruct (tail_ok cm v d1 d2) eqn:T; cbn [fst snd].
  2:{ exists []. split; [constructor|]. cbn. apply weight_pos. }
  exists (map (fun d => step v d :: l) (cands cm v d2)).
  assert (HX : forall ds, (forall d, In d ds -> In d (cands cm v d2)) ->
     Forall2 (ghist (commit cm v d1 d2)) (map (fun d => (step v d, d2, d)) ds) (map (fun d => step v d :: l) ds) /\
     (ds <> [] -> zsum (map weight (map (fun d => step v d :: l) ds)) * 7 = Z.of_nat (length ds) * weight l)).
  { induction ds as [|d ds IH]; intros Hin.
    - split; [constructor|congruence].
    - destruct (expand_hist cm v d1 d2 l d H N T (Hin d (or_introl eq_refl))) as [A B].
      destruct IH as [I1 I2]; [intros; apply Hin; right; assumption|].
      pose proof (hist_len _ _ _ A B) as L. cbn [length] in L.
      assert (W : weight (step v d :: l) * 7 = weight l).
      { unfold weight. cbn [length]. replace (bound - length l)%nat with (S (bound - S (length l))) by lia.
        rewrite Nat2Z.inj_succ, Z.pow_succ_r by lia. lia. }
      split; [constructor; [split; assumption|assumption]|]. intros _. cbn [map zsum length].
      destruct ds as [|d' ds']; [cbn [map zsum length]; lia|].
      specialize (I2 ltac:(discriminate)). lia. }
  destruct (HX (cands cm v d2) (fun d h => h)) as [A B]. split; [exact A|].
  pose proof (weight_pos l).
  destruct (cands cm v d2) as [|d0 ds] eqn:E; [cbn; assumption|].
  specialize (B ltac:(discriminate)).
  assert (length (d0 :: ds) <= 6)%nat.
  { rewrite <- E. unfold cands. clear. etransitivity; [apply filter_len|cbn; lia]. }
  nia.
Qed.
Lemma astep_meas a b m : astep a b -> meas a m -> exists m', meas b m' /\ 0 <= m' < m.
Proof.
  intros S (ls & F & ->). destruct S as [cm w1 k w2 P Hk|cm w1 k w2 P Hk Hd]; cbn [acm awf] in *;
  apply Forall2_app_inv_l in F as (l1 & l2 & F1 & F2 & ->);
  inversion F2 as [|k' l w' l2' G F3]; subst.
  - exists (zsum (map weight (l1 ++ l2'))). split.
    + exists (l1 ++ l2'). split; [apply Forall2_app; assumption|reflexivity].
    + rewrite !map_app, !zsum_app. cbn. pose proof (weight_pos l). pose proof (zsum_pos l1). pose proof (zsum_pos l2'). lia.
  - destruct (aexpand_meas cm k l G) as (ln & Fn & Ln).
    exists (zsum (map weight ((l1 ++ l2') ++ ln))). split.
    + exists ((l1 ++ l2') ++ ln). split; [|reflexivity]. apply Forall2_app; [|assumption].
      apply Forall2_app; (eapply Forall2_ghist_ext; [apply aexpand_ext|assumption]).
    + rewrite !map_app, !zsum_app. cbn. pose proof (weight_pos l). pose proof (zsum_pos l1). pose proof (zsum_pos l2').
      pose proof (zsum_pos ln). lia.
Qed.
Lemma init_meas cm : meas (ainit cm) (Z.of_nat (length cc) * 7 ^ Z.of_nat (length V)).
Proof.
  unfold meas, ainit; cbn [acm awf]. exists (map (fun s => [s]) cc). split.
  - assert (X : forall l, (forall s, In s l -> In s cc) -> Forall2 (ghist cm) (map (fun s => (s, DUnk, DUnk)) l) (map (fun s => [s]) l)).
    { induction l as [|s l IH]; intros Hl; cbn; constructor.
      - split; [constructor; apply Hl; left; reflexivity|constructor; [intros []|constructor]].
      - apply IH. intros; apply Hl; right; assumption. }
    apply X. auto.
  - generalize cc. intros l. induction l as [|s l IH]; [reflexivity|].
    cbn [map zsum length]. rewrite <- IH. unfold weight at 1. unfold bound. cbn [length].
    rewrite Nat.sub_succ, Nat.sub_0_r. lia.
Qed.

(* ---- completeness ---- *)
Definition reached (P : list key) (v : midx) := exists k, In k P /\ kpos k = v.
(* all continuations from v, entered in direction d, are covered *)
Definition covers cm (P : list key) v din :=
  forall d, d <> DUnk -> edge v d = true -> src (step v d) = false -> din <> opp d ->
    cm (step v d) <> DUnk \/ In (step v d, din, d) P.
Definition blocked cm (v : midx) (d1 d2 : dir) := d1 <> DUnk /\ cm (kpred v d2) <> DUnk /\ cm (kpred v d2) <> d1.
Definition K1 (a : ast) := forall v d1 d2, In (v, d1, d2) (alog a) ->
  In (v, d1, d2) (awf a) \/ acm a v <> DUnk \/
  (dst v = false /\ (blocked (acm a) v d1 d2 \/ covers (acm a) (alog a) v d2)).
Definition donep cm (p : midx) := In p cc \/ cm p <> DUnk.
Definition K2 (a : ast) := forall v d1 d2, In (v, d1, d2) (alog a) -> d2 <> DUnk ->
  src v = false /\ edge (kpred v d2) d2 = true /\
  reached (alog a) (kpred v d2) /\ covers (acm a) (alog a) (kpred v d2) d1 /\ dst (kpred v d2) = false /\
  (d1 <> DUnk -> src (kpred v d2) = false /\ donep (acm a) (kpred (kpred v d2) d1)) /\
  (d1 = DUnk -> In (kpred v d2) cc).
Definition K3 (a : ast) := forall t, acm a t <> DUnk ->
  dst t = false /\ reached (alog a) t /\ donep (acm a) (kpred t (acm a t)) /\ covers (acm a) (alog a) t (acm a t).
Definition Kw (a : ast) := forall k, In k (awf a) -> In k (alog a).
Definition Kc (a : ast) := forall s, In s cc -> In (s, DUnk, DUnk) (alog a).
Definition Kz (a : ast) := forall v d1, In (v, d1, DUnk) (alog a) -> d1 = DUnk /\ In v cc.
Definition Kinv a := K1 a /\ K2 a /\ K3 a /\ Kw a /\ Kc a /\ Kz a.

Lemma covers_mono cm cm' P P' v d : ext cm cm' -> incl P P' -> covers cm P v d -> covers cm' P' v d.
Proof.
  intros X I C e He Ee Es Hr. destruct (C e He Ee Es Hr) as [A|A].
  - left. rewrite X; assumption.
  - right. apply I; assumption.
Qed.
Lemma blocked_mono cm cm' v d1 d2 : ext cm cm' -> blocked cm v d1 d2 -> blocked cm' v d1 d2.
Proof. intros X (A & B & C). unfold blocked. rewrite X by assumption. auto. Qed.
Lemma donep_mono cm cm' p : ext cm cm' -> donep cm p -> donep cm' p.
Proof. intros X [A|A]; [left; assumption|right; rewrite X; assumption]. Qed.
Lemma reached_mono P P' v : incl P P' -> reached P v -> reached P' v.
Proof. intros I (k & A & B). exists k. auto. Qed.

Lemma not_tail_ok cm v d1 d2 : tail_ok cm v d1 d2 = false -> blocked cm v d1 d2.
Proof.
  unfold tail_ok, blocked. rewrite !orb_false_iff, !dir_eqb_neq. tauto.
Qed.
Lemma commit_cases cm v d1 d2 p : commit cm v d1 d2 p = cm p \/
  (p = kpred v d2 /\ d1 <> DUnk /\ commit cm v d1 d2 p = d1 /\ cands cm v d2 <> []).
Proof.
  unfold commit. destruct (dir_eqb d1 DUnk) eqn:E; [auto|]. apply dir_eqb_neq in E.
  destruct (cands cm v d2); [auto|]. unfold aset. destruct (midx_eq_dec p (kpred v d2)) as [->|]; [|auto].
  right. repeat split; auto. discriminate.
Qed.
Lemma expand_covers cm P v d1 d2 :
  tail_ok cm v d1 d2 = true -> covers (commit cm v d1 d2) (P ++ pushes cm v d2) v d2.
Proof.
  intros T d Hd He Hs Hr. destruct (dir_eq_dec (cm (step v d)) DUnk) as [C|C].
  - right. apply in_or_app. right. unfold pushes. apply in_map_iff. exists d. split; [reflexivity|].
    apply cands_iff. auto.
  - left. rewrite (commit_ext cm v d1 d2 T); assumption.
Qed.

Lemma astep_K a b : astep a b -> Kinv a -> Kinv b.
Proof.
  intros S (H1 & H2 & H3 & Hw & Hc & Hz). destruct S as [cm w1 k w2 P Hk|cm w1 k w2 P Hk Hd];
  unfold Kinv, K1, K2, K3, Kw, Kc, Kz in *; cbn [acm awf alog] in *.
  - (* skipped *)
    split; [|split; [exact H2|split; [exact H3|split; [|split; [exact Hc|exact Hz]]]]].
    + intros v d1 d2 Hin. destruct (H1 v d1 d2 Hin) as [A|[A|A]]; auto.
      apply in_app_or in A as [A|[A|A]].
      * left; apply in_or_app; auto.
      * subst k. right; left. exact Hk.
      * left; apply in_or_app; auto.
    + intros k' Hin. apply Hw. apply in_app_or in Hin as [?|?]; apply in_or_app; cbn; auto.
  - (* expanded *)
    destruct k as [[v d1] d2]. cbn [kpos fst] in Hk, Hd.
    assert (Hin0 : In (v, d1, d2) P) by (apply Hw; apply in_or_app; cbn; auto).
    pose proof (aexpand_ext cm (v, d1, d2)) as X.
    set (cm' := fst (aexpand cm (v, d1, d2))) in *. set (N := snd (aexpand cm (v, d1, d2))) in *.
    assert (I : incl P (P ++ N)) by (intros x Hx; apply in_or_app; auto).
    assert (B : blocked cm' v d1 d2 \/ covers cm' (P ++ N) v d2).
    { unfold cm', N, aexpand in *. destruct (tail_ok cm v d1 d2) eqn:T; cbn [fst snd] in *.
      - right. apply expand_covers; assumption.
      - left. apply not_tail_ok; assumption. }
    assert (U : forall p, cm' p <> DUnk -> cm' p = cm p \/
              (p = kpred v d2 /\ d1 <> DUnk /\ cm' p = d1 /\ d2 <> DUnk)).
    { intros p Hp. unfold cm', aexpand in Hp |- *. destruct (tail_ok cm v d1 d2) eqn:T; cbn [fst] in *; [|auto].
      destruct (commit_cases cm v d1 d2 p) as [A|(A1 & A2 & A3 & A4)]; [auto|].
      right. repeat split; auto. intros ->. apply Hz in Hin0 as [A _]. congruence. }
    assert (HN : forall k', In k' N -> exists d, In d (cands cm v d2) /\ k' = (step v d, d2, d) /\ tail_ok cm v d1 d2 = true).
    { intros k' Hk'. unfold N, aexpand in Hk'. destruct (tail_ok cm v d1 d2) eqn:T; cbn [snd] in Hk'; [|destruct Hk'].
      unfold pushes in Hk'. apply in_map_iff in Hk' as (d & <- & Hd'). exists d. auto. }
    split; [|split; [|split; [|split; [|split]]]].
    + intros v' d1' d2' Hin. apply in_app_or in Hin as [Hin|Hin].
      * destruct (H1 v' d1' d2' Hin) as [A|[A|(A1 & A2)]].
        -- apply in_app_or in A as [A|[A|A]].
           ++ left. apply in_or_app; left; apply in_or_app; auto.
           ++ injection A as <- <- <-. right; right. auto.
           ++ left. apply in_or_app; left; apply in_or_app; auto.
        -- right; left. rewrite X; assumption.
        -- right; right. split; [assumption|]. destruct A2 as [A2|A2].
           ++ left. eapply blocked_mono; eassumption.
           ++ right. eapply covers_mono; eassumption.
      * left. apply in_or_app; right; assumption.
    + intros v' d1' d2' Hin D2'. apply in_app_or in Hin as [Hin|Hin].
      * destruct (H2 v' d1' d2' Hin D2') as (A1 & A2 & A3 & A4 & A5 & A6 & A9).
        split; [assumption|]. split; [assumption|].
        split; [eapply reached_mono; eassumption|]. split; [eapply covers_mono; eassumption|].
        split; [assumption|]. split; [|assumption].
        intros D1'. destruct (A6 D1') as [A7 A8]. split; [assumption|eapply donep_mono; eassumption].
      * destruct (HN _ Hin) as (d & Hdc & E & T). injection E as -> -> ->.
        apply cands_iff in Hdc as (D & He & Hs & Hcm & Hr). rewrite kpred_step.
        split; [assumption|]. split; [assumption|].
        split; [exists (v, d1, d2); split; [apply I; assumption|reflexivity]|].
        split. { destruct B as [B|B]; [|assumption]. exfalso. destruct B as (B1 & B2 & B3).
                 unfold cm', aexpand in B2, B3. rewrite T in B2, B3. cbn [fst] in B2, B3.
                 destruct (commit_cases cm v d1 d2 (kpred v d2)) as [E|(_ & _ & E & _)]; [|congruence].
                 unfold tail_ok in T. rewrite !orb_true_iff, !dir_eqb_eq in T. destruct T as [[T|T]|T]; congruence. }
        split; [assumption|]. split; [|intros ->; apply (Hz v d1); assumption]. intros D2. destruct (H2 v d1 d2 Hin0 D2) as (A1 & A2 & A3 & A4 & A5 & A6 & A9).
        split; [assumption|].
        destruct (dir_eq_dec d1 DUnk) as [->|D1].
        -- (* the predecessor is a start point *)
           left. auto.
        -- right. unfold cm', aexpand. rewrite T. cbn [fst]. unfold commit.
           replace (dir_eqb d1 DUnk) with false by (symmetry; apply dir_eqb_neq; assumption).
           destruct (cands cm v d2) as [|c cs] eqn:EC.
           ++ exfalso. assert (F : In d (cands cm v d2)) by (apply cands_iff; auto). rewrite EC in F. destruct F.
           ++ unfold aset. destruct (midx_eq_dec (kpred v d2) (kpred v d2)); congruence.
    + intros t Ht. destruct (U t Ht) as [E|(-> & D1 & E & D2)].
      * rewrite E in Ht |- *. destruct (H3 t Ht) as (A1 & A2 & A3 & A4).
        split; [assumption|]. split; [eapply reached_mono; eassumption|].
        split; [eapply donep_mono; eassumption|eapply covers_mono; eassumption].
      * rewrite E. destruct (H2 v d1 d2 Hin0 D2) as (A1 & A2 & A3 & A4 & A5 & A6 & A9). destruct (A6 D1) as [A7 A8].
        split; [assumption|]. split; [eapply reached_mono; eassumption|].
        split; [eapply donep_mono; eassumption|eapply covers_mono; eassumption].
    + intros k' Hin. apply in_app_or in Hin as [Hin|Hin].
      * apply I, Hw. apply in_app_or in Hin as [?|?]; apply in_or_app; cbn; auto.
      * apply in_or_app; auto.
    + intros s Hs. apply I. auto.
    + intros v' d1' Hin. apply in_app_or in Hin as [Hin|Hin]; [apply (Hz v' d1'); assumption|].
      destruct (HN _ Hin) as (d & Hdc & E & T). injection E as -> -> <-.
      apply cands_iff in Hdc as (D & _). congruence.
Qed.
Lemma init_K cm0 : (forall s, In s cc -> dst s = false) -> (forall p, cm0 p = DUnk) -> Kinv (ainit cm0).
Proof.
  intros Hd H0. unfold Kinv, K1, K2, K3, Kw, Kc, Kz, ainit; cbn [acm awf alog].
  split; [|split; [|split; [|split; [|split]]]].
  - auto.
  - intros v d1 d2 Hin D. apply in_map_iff in Hin as (s & E & _). congruence.
  - intros t Ht. rewrite H0 in Ht. congruence.
  - auto.
  - intros s Hs. apply in_map_iff. exists s. auto.
  - intros v d1 Hin. apply in_map_iff in Hin as (s & E & Hs). injection E as <- <-. auto.
Qed.
Lemma areach_K cm0 a : (forall s, In s cc -> dst s = false) -> (forall p, cm0 p = DUnk) -> areach cm0 a -> Kinv a.
Proof.
  intros Hd H0. induction 1 as [|a b _ IH S]; [apply init_K; assumption|eapply astep_K; eassumption].
Qed.
(* when the bag is empty, everything reachable was reached and is no destination *)
Lemma closed a v d : Kinv a -> awf a = [] -> reached (alog a) v -> d <> DUnk -> edge v d = true ->
  src (step v d) = false -> reached (alog a) (step v d).
Proof.
  intros (H1 & H2 & H3 & Hw & Hc & Hz) E ([[v0 d1] d2] & Hin & Ev) D He Hs. cbn [kpos fst] in Ev. subst v0.
  destruct (dir_eq_dec (acm a (step v d)) DUnk) as [Cw|Cw]; [|apply (H3 _ Cw)].
  assert (Pd : forall p, donep (acm a) p -> reached (alog a) p).
  { intros p [A|A]; [exists (p, DUnk, DUnk); split; [auto|reflexivity]|apply (H3 _ A)]. }
  assert (CV : forall e, covers (acm a) (alog a) v e -> e <> opp d -> reached (alog a) (step v d)).
  { intros e C Hne. destruct (C d D He Hs Hne) as [A|A]; [congruence|]. exists (step v d, e, d). auto. }
  destruct (dir_eq_dec (acm a v) DUnk) as [Cv|Cv].
  - assert (BK : forall e1 e2, In (v, e1, e2) (alog a) -> e2 = opp d -> reached (alog a) (step v d)).
    { intros e1 e2 Hi ->. assert (D' : opp d <> DUnk) by (rewrite opp_unk; assumption).
      destruct (H2 _ _ _ Hi D') as (_ & _ & R & _). unfold kpred in R. rewrite opp_opp in R. assumption. }
    destruct (H1 v d1 d2 Hin) as [A|[A|(A1 & A2)]]; [rewrite E in A; destruct A|congruence|].
    destruct (dir_eq_dec d2 (opp d)) as [Eo|Eo]; [apply (BK d1 d2); assumption|].
    destruct A2 as [(B1 & B2 & B3)|C]; [|apply (CV d2); assumption].
    assert (D2 : d2 <> DUnk). { intros ->. apply Hz in Hin as [A _]. congruence. }
    destruct (H2 v d1 d2 Hin D2) as (S1 & S2 & _).
    destruct (H3 _ B2) as (T1 & T2 & T3 & T4).
    set (du := acm a (kpred v d2)) in *.
    assert (Dn : du <> opp d2).
    { intros F. destruct T3 as [T3|T3]; unfold kpred in T3; rewrite F, opp_opp, step_back in T3.
      - rewrite (cc_src _ T3) in S1. discriminate.
      - congruence. }
    assert (Sv : step (kpred v d2) d2 = v) by (unfold kpred; apply step_back).
    assert (N : In (v, du, d2) (alog a)).
    { destruct (T4 d2 D2 S2) as [A|A]; rewrite ?Sv in *; auto. congruence. }
    destruct (H1 v du d2 N) as [A|[A|(A3 & A4)]]; [rewrite E in A; destruct A|congruence|].
    destruct A4 as [(_ & _ & F)|C]; [destruct (F eq_refl)|]. apply (CV d2); assumption.
  - destruct (H3 v Cv) as (_ & _ & Dp & C).
    destruct (dir_eq_dec (acm a v) (opp d)) as [F|F]; [|apply (CV (acm a v)); assumption].
    unfold kpred in Dp. rewrite F, opp_opp in Dp. apply Pd; assumption.
Qed.
Lemma reached_nodst a v : Kinv a -> awf a = [] -> reached (alog a) v -> dst v = false.
Proof.
  intros (H1 & H2 & H3 & Hw & Hc & Hz) E ([[v0 d1] d2] & Hin & Ev). cbn [kpos fst] in Ev. subst v0.
  destruct (H1 v d1 d2 Hin) as [A|[A|(A1 & A2)]]; [rewrite E in A; destruct A|apply (H3 _ A)|assumption].
Qed.
End Abs.
