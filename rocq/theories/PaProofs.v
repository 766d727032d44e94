(* The dynamic program: its table after a run, and the pattern read off it. *)
From Verif Require Import Base PaModel PaSpec.

Lemma upto_In n x : In x (upto n) <-> 0 <= x < n.
Proof.
  unfold upto. rewrite in_map_iff. split.
  - intros (k & <- & Hk). apply in_seq in Hk. lia.
  - intros H. exists (Z.to_nat x). split; [lia|]. apply in_seq. lia.
Qed.
Lemma upto_succ n : 0 <= n -> upto (n + 1) = upto n ++ [n].
Proof.
  intros H. unfold upto. replace (Z.to_nat (n + 1)) with (Z.to_nat n + 1)%nat by lia.
  rewrite seq_app, map_app. cbn [seq map]. f_equal. f_equal. lia.
Qed.
Lemma upto_0 n : n <= 0 -> upto n = [].
Proof. intros H. unfold upto. replace (Z.to_nat n) with O by lia. reflexivity. Qed.
Lemma upto_length n : length (upto n) = Z.to_nat n.
Proof. unfold upto. rewrite map_length, seq_length. reflexivity. Qed.
(* induction along a loop over upto *)
Lemma fold_upto {A} (f : A -> Z -> A) (P : Z -> A -> Prop) n s :
  0 <= n -> P 0 s -> (forall k x, 0 <= k < n -> P k x -> P (k + 1) (f x k)) ->
  P n (fold_left f (upto n) s).
Proof.
  intros Hn H0 Hs. assert (G : forall m, 0 <= m <= n -> P m (fold_left f (upto m) s)).
  { intros m Hm. remember (Z.to_nat m) as k eqn:Hk. revert m Hm Hk.
    induction k as [|k IH]; intros m Hm Hk.
    - replace m with 0 by lia. rewrite upto_0 by lia. exact H0.
    - replace m with ((m - 1) + 1) by lia. rewrite upto_succ by lia.
      rewrite fold_left_app. cbn [fold_left]. apply Hs; [lia|]. apply IH; lia. }
  apply G. lia.
Qed.

Lemma flat_inj i a i' a' dim : 0 <= a < dim -> 0 <= a' < dim ->
  getFlatIdx i a dim = getFlatIdx i' a' dim -> i = i' /\ a = a'.
Proof.
  unfold getFlatIdx. intros Ha Ha' H.
  assert (E1 : ((i + 1) * dim + a) / dim = i + 1).
  { rewrite Z.div_add_l by lia. rewrite Z.div_small by lia. lia. }
  assert (E2 : ((i' + 1) * dim + a') / dim = i' + 1).
  { rewrite Z.div_add_l by lia. rewrite Z.div_small by lia. lia. }
  rewrite H in E1. assert (i = i') by lia. subst i'. lia.
Qed.
Lemma nested_flat i a dim : -1 <= i -> 0 <= a < dim -> getNestedIdx (getFlatIdx i a dim) dim = (i, a).
Proof.
  unfold getNestedIdx, getFlatIdx. intros Hi Ha.
  assert (0 <= (i + 1) * dim) by (apply Z.mul_nonneg_nonneg; lia).
  rewrite Z.quot_div_nonneg, Z.rem_mod_nonneg by lia.
  rewrite Z.div_add_l, Z.div_small by lia.
  rewrite (Z.add_comm ((i + 1) * dim) a), Z.mod_add, Z.mod_small by lia. f_equal; lia.
Qed.
Lemma flat_range i a n dim : -1 <= i <= n -> 0 <= a < dim -> 0 <= getFlatIdx i a dim < (n + 2) * dim.
Proof.
  unfold getFlatIdx. intros Hi Ha.
  assert (0 <= (i + 1) * dim) by (apply Z.mul_nonneg_nonneg; lia).
  assert ((i + 2) * dim <= (n + 2) * dim) by (apply Z.mul_le_mono_nonneg_r; lia). lia.
Qed.

Lemma tset_same t i x : tset t i x i = x.
Proof. unfold tset. now rewrite Z.eqb_refl. Qed.
Lemma tset_other t i x j : j <> i -> tset t i x j = t j.
Proof. unfold tset. destruct (Z.eqb_spec j i); congruence. Qed.

Section DP.
  Variable cacheT : Type.
  Variable edgeCost : Z -> Z -> table -> cacheT -> Z * cacheT.
  Variables (n dim M : Z).
  Hypothesis n0 : 0 <= n.
  Hypothesis dim0 : 0 < dim.
  Hypothesis M0 : 0 <= M.
  Hypothesis fits : (n + 1) * M < INF.
  (* the table on entry *)
  Variable t0 : table.
  Definition valid (i a : Z) : Prop := 0 <= a < dim /\ nodeCost (t0 (getFlatIdx i a dim)) <> INF.
  Hypothesis some_valid : forall i, 0 <= i <= n -> exists a, valid i a.
  Hypothesis start_path : pathCost (t0 (getFlatIdx (-1) 0 dim)) = 0.
  Hypothesis start_prev : prevNodeIdx (t0 (getFlatIdx (-1) 0 dim)) = -1.
  Hypothesis start_valid : valid (-1) 0.
  Hypothesis only_start : forall a, valid (-1) a -> a = 0.
  Hypothesis other_path : forall i a, -1 <= i <= n -> 0 <= a < dim -> (i = -1 -> a <> 0) ->
    pathCost (t0 (getFlatIdx i a dim)) = INF.
  Hypothesis only_end : forall a, valid n a -> a = 0.
  (* costs the edge function may return, what it keeps, and what it has written down *)
  Variable poss : Z -> Z -> Z -> Z -> Prop.
  Variable Rok : cacheT -> Prop.
  Variable logged : cacheT -> Z -> Z -> Z -> Prop.
  Hypothesis poss_range : forall i a b e, poss i a b e -> 0 <= e <= M.
  Hypothesis edge_ok : forall i a b nodes c, -1 <= i < n -> valid i a -> valid (i + 1) b ->
    Rok c -> (forall x, nodeCost (nodes x) = nodeCost (t0 x)) ->
    let r := edgeCost (getFlatIdx i a dim) (getFlatIdx (i + 1) b dim) nodes c in
    poss i a b (fst r) /\ Rok (snd r) /\ logged (snd r) i a b /\
    (forall i' a' b', logged c i' a' b' -> logged (snd r) i' a' b').

  Local Notation fl i a := (getFlatIdx i a dim).

  (* what holds of a finished entry *)
  Definition settled (nodes : table) (c : cacheT) (j b : Z) : Prop :=
    (exists a e, valid (j - 1) a /\ poss (j - 1) a b e /\
       pathCost (nodes (fl j b)) = pathCost (nodes (fl (j - 1) a)) + e /\
       prevNodeIdx (nodes (fl j b)) = fl (j - 1) a) /\
    (forall a, valid (j - 1) a -> logged c (j - 1) a b /\ exists e, poss (j - 1) a b e /\
       pathCost (nodes (fl j b)) <= pathCost (nodes (fl (j - 1) a)) + e).

  (* [Inv k m]: columns before k finished, and entries before m of column k *)
  Record Inv (k m : Z) (st : table * cacheT) : Prop := {
    iv_cost : forall x, nodeCost (fst st x) = nodeCost (t0 x);
    iv_rok : Rok (snd st);
    iv_start : pathCost (fst st (fl (-1) 0)) = 0 /\ prevNodeIdx (fst st (fl (-1) 0)) = -1;
    iv_range : forall j a, -1 <= j <= n -> valid j a -> j < k \/ (j = k /\ a < m) ->
      0 <= pathCost (fst st (fl j a)) <= (j + 1) * M;
    iv_inf : forall j a, -1 <= j <= n -> 0 <= a < dim -> ~ (valid j a /\ (j < k \/ (j = k /\ a < m))) ->
      pathCost (fst st (fl j a)) = INF;
    iv_settled : forall j b, 0 <= j <= n -> valid j b -> j < k \/ (j = k /\ b < m) ->
      settled (fst st) (snd st) j b }.

  Lemma valid_dec i a : valid i a \/ ~ valid i a.
  Proof. unfold valid. destruct (Z.eq_dec (nodeCost (t0 (fl i a))) INF); destruct (Z_le_dec 0 a); destruct (Z_lt_dec a dim); (left; lia) || (right; intros [? ?]; try lia; congruence). Qed.

  Lemma range_INF j : -1 <= j <= n -> (j + 1) * M < INF.
  Proof. intros H. assert ((j + 1) * M <= (n + 1) * M) by (apply Z.mul_le_mono_nonneg_r; lia). lia. Qed.

  (* one entry: the loop over the previous column *)
  Definition part (k m p : Z) (st0 st : table * cacheT) : Prop :=
    (forall x, nodeCost (fst st x) = nodeCost (t0 x)) /\ Rok (snd st) /\
    (forall x, x <> fl k m -> fst st x = fst st0 x) /\
    (forall i' a' b', logged (snd st0) i' a' b' -> logged (snd st) i' a' b') /\
    (forall a, valid (k - 1) a -> a < p -> logged (snd st) (k - 1) a m /\ exists e, poss (k - 1) a m e /\
        pathCost (fst st (fl k m)) <= pathCost (fst st (fl (k - 1) a)) + e) /\
    (((forall a, valid (k - 1) a -> a < p -> False) /\ pathCost (fst st (fl k m)) = INF) \/
     (exists a e, valid (k - 1) a /\ poss (k - 1) a m e /\
       pathCost (fst st (fl k m)) = pathCost (fst st (fl (k - 1) a)) + e /\
       prevNodeIdx (fst st (fl k m)) = fl (k - 1) a)).

  Lemma relax_part k m st0 : 0 <= k <= n -> valid k m -> Inv k m st0 ->
    forall p st, 0 <= p < dim -> part k m p st0 st ->
    part k m (p + 1) st0 (relax cacheT edgeCost dim k m st p).
  Proof.
    intros Hk Hm HI p [nodes c] Hp (Pc & Pr & Po & Pl & Pa & Pe).
    unfold relax. cbn [fst snd] in *.
    assert (Hne : forall a, 0 <= a < dim -> fl (k - 1) a <> fl k m).
    { intros a Ha E. apply flat_inj in E; [lia|lia|exact (proj1 Hm)]. }
    assert (Hprev : forall a, valid (k - 1) a -> 0 <= pathCost (nodes (fl (k - 1) a)) <= (k - 1 + 1) * M).
    { intros a Ha. rewrite Po by (apply Hne, Ha). apply (iv_range _ _ _ HI); [lia|exact Ha|lia]. }
    pose proof (range_INF (k - 1) ltac:(lia)) as HF.
    destruct (valid_dec (k - 1) p) as [Vp|Vp].
    - destruct (pathCost (nodes (fl (k - 1) p)) =? INF) eqn:E0.
      { specialize (Hprev p Vp). lia. }
      pose proof (edge_ok (k - 1) p m nodes c ltac:(lia) Vp) as HE.
      replace (k - 1 + 1) with k in HE by lia. specialize (HE Hm Pr Pc). cbn zeta in HE.
      destruct (edgeCost (fl (k - 1) p) (fl k m) nodes c) as [e c'] eqn:Ee. cbn [fst snd] in HE.
      destruct HE as (He & Hr' & Hl & Hmono). pose proof (poss_range _ _ _ _ He) as Her.
      destruct ((pathCost (nodes (fl k m)) =? INF)
                || (pathCost (nodes (fl (k - 1) p)) + e <? pathCost (nodes (fl k m)))) eqn:Eb.
      + (* update *)
        set (nd := mkNode (pathCost (nodes (fl (k - 1) p)) + e) (nodeCost (nodes (fl k m))) (fl (k - 1) p)).
        unfold part. cbn [fst snd]. split; [|split; [|split; [|split; [|split]]]].
        * intros x. unfold tset. destruct (Z.eqb_spec x (fl k m)) as [->|]; [cbn [nodeCost nd]|]; apply Pc.
        * exact Hr'.
        * intros x Hx. rewrite tset_other by exact Hx. apply Po, Hx.
        * intros i' a' b' L. apply Hmono, Pl, L.
        * intros a Va Hap. rewrite tset_same, (tset_other _ _ _ (fl (k - 1) a)) by apply Hne, Va.
          cbn [pathCost nd]. destruct (Z.eq_dec a p) as [->|Hn].
          -- split; [exact Hl|]. exists e. split; [exact He|lia].
          -- destruct (Pa a Va ltac:(lia)) as (La & ea & Hea & Hle).
             split; [apply Hmono, La|]. exists ea. split; [exact Hea|].
             apply orb_true_iff in Eb as [Eb|Eb]; [|lia].
             specialize (Hprev a Va). pose proof (poss_range _ _ _ _ Hea).
             assert ((k - 1 + 1) * M + M <= (n + 1) * M).
             { replace ((k - 1 + 1) * M + M) with ((k + 1) * M) by lia.
               apply Z.mul_le_mono_nonneg_r; lia. }
             lia.
        * right. exists p, e. rewrite tset_same, (tset_other _ _ _ (fl (k - 1) p)) by apply Hne, Vp.
          split; [exact Vp|]. split; [exact He|]. split; reflexivity.
      + unfold part. cbn [fst snd]. split; [exact Pc|]. split; [exact Hr'|].
        split; [exact Po|]. split; [intros i' a' b' L; apply Hmono, Pl, L|].
        apply orb_false_iff in Eb as [Eb1 Eb2]. split.
        * intros a Va Hap. destruct (Z.eq_dec a p) as [->|Hn].
          -- split; [exact Hl|]. exists e. split; [exact He|lia].
          -- destruct (Pa a Va ltac:(lia)) as (La & ea & Hea & Hle).
             split; [apply Hmono, La|]. exists ea. split; assumption.
        * destruct Pe as [[_ Pe]|Pe]; [lia|right; exact Pe].
    - assert (E0 : pathCost (nodes (fl (k - 1) p)) = INF).
      { rewrite Po by (apply Hne; lia). apply (iv_inf _ _ _ HI); [lia|lia|]. intros [? _]; contradiction. }
      rewrite E0, Z.eqb_refl. unfold part. cbn [fst snd].
      split; [exact Pc|]. split; [exact Pr|]. split; [exact Po|]. split; [exact Pl|]. split.
      + intros a Va Hap. apply Pa; [exact Va|]. destruct (Z.eq_dec a p) as [->|]; [contradiction|lia].
      + destruct Pe as [[Pn Pi]|Pe]; [left|right; exact Pe]. split; [|exact Pi].
        intros a Va Hap. apply (Pn a Va). destruct (Z.eq_dec a p) as [->|]; [contradiction|lia].
  Qed.

  Lemma settled_frame nodes nodes' c c' j b k m :
    (forall x, x <> fl k m -> nodes' x = nodes x) ->
    (forall i' a' b', logged c i' a' b' -> logged c' i' a' b') ->
    0 <= m < dim -> 0 <= j <= k -> 0 <= b < dim -> (j = k -> b <> m) ->
    settled nodes c j b -> settled nodes' c' j b.
  Proof.
    intros Hf Hl Hm Hj Hb Hn [(a & e & Va & He & Hp & Hq) Hall].
    assert (N1 : fl j b <> fl k m).
    { intros E. apply flat_inj in E; [|exact Hb|exact Hm]. destruct E. apply Hn; lia. }
    assert (N2 : forall a, valid (j - 1) a -> fl (j - 1) a <> fl k m).
    { intros a' [Ha' _] E. apply flat_inj in E; [|exact Ha'|exact Hm]. lia. }
    split.
    - exists a, e. rewrite !Hf by auto. auto.
    - intros a' Va'. destruct (Hall a' Va') as (L & e' & He' & Hle). split; [apply Hl, L|].
      exists e'. split; [exact He'|]. rewrite !Hf by auto. exact Hle.
  Qed.

  Lemma visit_inv k m st : 0 <= k <= n -> 0 <= m < dim -> Inv k m st ->
    Inv k (m + 1) (visit cacheT edgeCost dim k st m).
  Proof.
    intros Hk Hm HI. unfold visit. rewrite (iv_cost _ _ _ HI).
    destruct (Z.eqb_spec (nodeCost (t0 (fl k m))) INF) as [E|E].
    - (* not an access point *)
      assert (Nv : ~ valid k m) by (intros [_ V]; contradiction).
      destruct HI as [H1 H2 H3 H4 H5 H6]. constructor; try assumption.
      + intros j a Hj Va Hw. apply H4; [exact Hj|exact Va|].
        destruct Hw as [Hw|[-> Hw]]; [lia|]. destruct (Z.eq_dec a m) as [->|]; [contradiction|lia].
      + intros j a Hj Ha Hw. apply H5; [exact Hj|exact Ha|]. intros [Va Hw']. apply Hw. split; [exact Va|lia].
      + intros j b Hj Vb Hw. apply H6; [exact Hj|exact Vb|].
        destruct Hw as [Hw|[-> Hw]]; [lia|]. destruct (Z.eq_dec b m) as [->|]; [contradiction|lia].
    - assert (Vm : valid k m) by (split; assumption).
      assert (P : part k m dim st (fold_left (relax cacheT edgeCost dim k m) (upto dim) st)).
      { apply (fold_upto _ (fun p s => part k m p st s)); [lia| |].
        - unfold part. split; [apply (iv_cost _ _ _ HI)|]. split; [apply (iv_rok _ _ _ HI)|].
          split; [auto|]. split; [auto|]. split; [intros a [Ha _] Hn; lia|].
          left. split; [intros a [Ha _] Hn; lia|].
          apply (iv_inf _ _ _ HI); [lia|exact Hm|]. intros [_ Hw]. lia.
        - intros p s Hp HP. apply relax_part; auto. }
      destruct P as (Pc & Pr & Po & Pl & Pa & Pe).
      set (st' := fold_left (relax cacheT edgeCost dim k m) (upto dim) st) in *.
      assert (Hne : forall j a, 0 <= a < dim -> j <> k \/ a <> m -> fl j a <> fl k m).
      { intros j a Ha Hd E'. apply flat_inj in E'; [lia|exact Ha|exact Hm]. }
      assert (Hsome : exists a e, valid (k - 1) a /\ poss (k - 1) a m e /\
        pathCost (fst st' (fl k m)) = pathCost (fst st' (fl (k - 1) a)) + e /\
        prevNodeIdx (fst st' (fl k m)) = fl (k - 1) a).
      { destruct Pe as [[Pn _]|Pe]; [exfalso|exact Pe].
        destruct (Z.eq_dec k 0) as [->|Hk0].
        - apply (Pn 0 start_valid). lia.
        - destruct (some_valid (k - 1) ltac:(lia)) as [a Va]. apply (Pn a Va). destruct Va. lia. }
      constructor.
      + exact Pc.
      + exact Pr.
      + rewrite !Po by (apply Hne; lia). apply (iv_start _ _ _ HI).
      + intros j a Hj Va Hw. destruct (Z.eq_dec j k) as [->|Hjk]; [destruct (Z.eq_dec a m) as [->|Ham]|].
        * destruct Hsome as (a' & e & Va' & He & -> & _).
          rewrite Po by (apply Hne; [apply Va'|lia]).
          pose proof (iv_range _ _ _ HI (k - 1) a' ltac:(lia) Va' ltac:(lia)).
          pose proof (poss_range _ _ _ _ He). lia.
        * rewrite Po by (apply Hne; [apply Va|lia]). apply (iv_range _ _ _ HI); [lia|exact Va|lia].
        * rewrite Po by (apply Hne; [apply Va|lia]). apply (iv_range _ _ _ HI); [lia|exact Va|lia].
      + intros j a Hj Ha Hw.
        rewrite Po.
        * apply (iv_inf _ _ _ HI); [exact Hj|exact Ha|]. intros [Va Hw']. apply Hw. split; [exact Va|lia].
        * apply Hne; [exact Ha|]. destruct (Z.eq_dec j k) as [->|]; [|lia].
          destruct (Z.eq_dec a m) as [->|]; [|lia]. exfalso. apply Hw. split; [exact Vm|lia].
      + intros j b Hj Vb Hw.
        destruct (Z.eq_dec j k) as [->|Hjk]; [destruct (Z.eq_dec b m) as [->|Hbm]|].
        * split; [exact Hsome|]. intros a Va. apply Pa; [exact Va|apply Va].
        * apply (settled_frame (fst st) _ (snd st) _ k b k m); auto; try lia; [apply Vb|].
          apply (iv_settled _ _ _ HI); [exact Hj|exact Vb|lia].
        * apply (settled_frame (fst st) _ (snd st) _ j b k m); auto; try lia; [apply Vb|].
          apply (iv_settled _ _ _ HI); [exact Hj|exact Vb|lia].
  Qed.

  Lemma Inv_next k st : Inv k dim st -> Inv (k + 1) 0 st.
  Proof.
    intros [H1 H2 H3 H4 H5 H6]. constructor; try assumption.
    - intros j a Hj Va Hw. apply H4; auto. destruct Va as [Va _]. lia.
    - intros j a Hj Ha Hw. apply H5; auto. intros [Va Hw']. apply Hw. split; [exact Va|lia].
    - intros j b Hj Vb Hw. apply H6; auto. destruct Vb as [Vb _]. lia.
  Qed.

  Lemma perform_inv c0 : Rok c0 -> Inv (n + 1) 0 (perform cacheT edgeCost n dim (t0, c0)).
  Proof.
    intros Hc. unfold perform.
    apply (fold_upto _ (fun k s => Inv k 0 s)); [lia| |].
    - constructor; cbn [fst snd]; auto.
      + intros j a Hj Va Hw. assert (j = -1) by (destruct Hw as [|[-> ]]; [lia|destruct Va; lia]). subst j.
        apply only_start in Va. subst a. lia.
      + intros j a Hj Ha Hw. apply other_path; auto. intros -> ->. apply Hw. split; [exact start_valid|lia].
      + intros j b Hj Vb Hw. destruct Hw as [|[-> ]]; [lia|destruct Vb; lia].
    - intros k s Hk HI. apply Inv_next. unfold visit_column.
      apply (fold_upto _ (fun m s => Inv k m s)); [lia|exact HI|].
      intros m x Hm Hx. apply visit_inv; [lia|exact Hm|exact Hx].
  Qed.

  (* --- reading the pattern off --- *)
  Lemma pat_set_length i v l : length (pat_set i v l) = length l.
  Proof. revert i; induction l as [|a l IH]; intros [|i]; cbn; auto. Qed.
  Lemma pat_set_nth i v l j : nth j (pat_set i v l) 0 = if (j =? i)%nat && (i <? length l)%nat then v else nth j l 0.
  Proof.
    revert i j; induction l as [|a l IH]; intros [|i] [|j]; cbn [pat_set nth length]; try reflexivity;
      try (cbn; rewrite ?andb_false_r; reflexivity).
    rewrite IH. reflexivity.
  Qed.

  (* the chain of predecessors from entry (j, b) *)
  Lemma walk_back_spec st : Inv (n + 1) 0 st -> forall jn fuel j b pat,
    j = Z.of_nat jn - 1 -> -1 <= j <= n -> valid j b -> (jn < fuel)%nat -> length pat = Z.to_nat n ->
    exists pat', walk_back fuel (fst st) n dim (fl j b) j pat = Some (pat', -1) /\
      length pat' = Z.to_nat n /\
      (forall i, j < Z.of_nat i -> nth i pat' 0 = nth i pat 0) /\
      (0 <= j < n -> nth (Z.to_nat j) pat' 0 = b) /\
      (forall i, Z.of_nat i <= j -> Z.of_nat i < n -> valid (Z.of_nat i) (nth i pat' 0)) /\
      exists s : Z -> Z, (forall i, 0 <= i <= j -> i < n -> s i = nth (Z.to_nat i) pat' 0) /\ s j = b /\ s (-1) = 0 /\
        forall i, 0 <= i <= j -> exists e, poss (i - 1) (s (i - 1)) (s i) e /\
          pathCost (fst st (fl i (s i))) = pathCost (fst st (fl (i - 1) (s (i - 1)))) + e.
  Proof.
    clear edge_ok edgeCost poss_range other_path dim0. intros HI. induction jn as [|jn IH]; intros fuel j b pat Hj Hr Vb Hf Hlen.
    - assert (Ej : j = -1) by lia. clear Hj. subst j. pose proof (only_start _ Vb). subst b.
      destruct fuel as [|fuel]; [lia|]. cbn [walk_back].
      rewrite (proj2 (iv_start _ _ _ HI)), Z.eqb_refl.
      exists pat. split; [reflexivity|]. split; [exact Hlen|]. split; [auto|]. split; [lia|].
      split; [lia|]. exists (fun _ => 0). split; [lia|]. split; [reflexivity|]. split; [reflexivity|]. lia.
    - destruct fuel as [|fuel]; [lia|]. cbn [walk_back].
      destruct (iv_settled _ _ _ HI j b ltac:(lia) Vb ltac:(lia)) as [(a & e & Va & He & Hp & Hq) _].
      rewrite Hq. pose proof (flat_range (j - 1) a n dim ltac:(lia) (proj1 Va)) as Hfr.
      destruct (Z.eqb_spec (fl (j - 1) a) (-1)) as [E|_]; [lia|].
      rewrite nested_flat by (try lia; exact (proj1 Vb)).
      set (pat1 := if j =? n then pat else pat_set (Z.to_nat j) b pat).
      assert (L1 : length pat1 = Z.to_nat n) by (unfold pat1; destruct (j =? n); rewrite ?pat_set_length; exact Hlen).
      destruct (IH fuel (j - 1) a pat1 ltac:(lia) ltac:(lia) Va ltac:(lia) L1)
        as (pat' & Hw & Hl' & Hrest & Hat & Hval & s & Hs1 & Hs2 & Hs3 & Hs4).
      exists pat'. split; [exact Hw|]. split; [exact Hl'|].
      assert (Hb : 0 <= j < n -> nth (Z.to_nat j) pat' 0 = b).
      { intros Hjn. rewrite Hrest by lia. unfold pat1. destruct (Z.eqb_spec j n); [lia|].
        rewrite pat_set_nth. rewrite Nat.eqb_refl. cbn [andb].
        destruct (Nat.ltb_spec (Z.to_nat j) (length pat)); [reflexivity|lia]. }
      split; [|split; [exact Hb|split]].
      + intros i Hi. rewrite Hrest by lia. unfold pat1. destruct (Z.eqb_spec j n); [reflexivity|].
        rewrite pat_set_nth. destruct (Nat.eqb_spec i (Z.to_nat j)); [lia|reflexivity].
      + intros i Hi Hin. destruct (Z.eq_dec (Z.of_nat i) j) as [<-|Hne].
        * rewrite Nat2Z.id in Hb. rewrite Hb by lia. exact Vb.
        * apply Hval; lia.
      + exists (fun i => if i =? j then b else s i). split; [|split; [|split]].
        * intros i Hi Hin. destruct (Z.eqb_spec i j) as [->|]; [symmetry; apply Hb; lia|apply Hs1; lia].
        * now rewrite Z.eqb_refl.
        * destruct (Z.eqb_spec (-1) j); [lia|exact Hs3].
        * intros i Hi. destruct (Z.eqb_spec i j) as [->|].
          -- destruct (Z.eqb_spec (j - 1) j); [lia|]. rewrite Hs2. exists e. split; assumption.
          -- destruct (Z.eqb_spec (i - 1) j); [lia|]. apply Hs4. lia.
  Qed.

  (* the pattern read off: one valid choice per place *)
  Lemma read_off_some st : Inv (n + 1) 0 st -> exists pat, read_off (fst st) n dim = Some pat /\
    length pat = Z.to_nat n /\
    (forall i, Z.of_nat i < n -> valid (Z.of_nat i) (nth i pat 0)) /\
    exists s : Z -> Z, (forall i, 0 <= i < n -> s i = nth (Z.to_nat i) pat 0) /\ s n = 0 /\ s (-1) = 0 /\
        forall i, 0 <= i <= n -> exists e, poss (i - 1) (s (i - 1)) (s i) e /\
          pathCost (fst st (fl i (s i))) = pathCost (fst st (fl (i - 1) (s (i - 1)))) + e.
  Proof.
    clear edge_ok edgeCost poss_range other_path dim0. intros HI. assert (Ve : valid n 0).
    { destruct (some_valid n ltac:(lia)) as [a Va]. pose proof (only_end _ Va). now subst a. }
    unfold read_off.
    destruct (walk_back_spec st HI (Z.to_nat (n + 1)) (Z.to_nat (n + 2)) n 0 (repeat (-1) (Z.to_nat n)))
      as (pat & Hw & Hl & _ & _ & Hval & s & Hs1 & Hs2 & Hs3 & Hs4);
      try lia; [exact Ve|apply repeat_length|].
    rewrite Hw. rewrite Z.eqb_refl. exists pat. split; [reflexivity|]. split; [exact Hl|].
    split; [intros i Hi; apply Hval; lia|]. exists s. split; [intros i Hi; apply Hs1; lia|].
    split; [exact Hs2|]. split; [exact Hs3|exact Hs4].
  Qed.
End DP.
