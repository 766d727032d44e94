(* The rounds of pattern generation for one cell: optimality, and what gets recorded. *)
From Verif Require Import Base PaModel PaSpec PaProofs PaProofs2 PaProofs3.

Lemma edge_inj i a b i' a' b' dim : 0 <= a < dim -> 0 <= b < dim -> 0 <= a' < dim -> 0 <= b' < dim ->
  getFlatEdgeIdx i a b dim = getFlatEdgeIdx i' a' b' dim -> i = i' /\ a = a' /\ b = b'.
Proof.
  intros Ha Hb Ha' Hb' E.
  assert (E' : getFlatIdx (getFlatIdx i a dim - 1) b dim = getFlatIdx (getFlatIdx i' a' dim - 1) b' dim).
  { unfold getFlatIdx, getFlatEdgeIdx in *. lia. }
  apply flat_inj in E'; [|assumption|assumption]. destruct E' as [E1 ->].
  assert (E2 : getFlatIdx i a dim = getFlatIdx i' a' dim) by lia.
  apply flat_inj in E2; [|assumption|assumption]. destruct E2; auto.
Qed.

Section Pins.
  Variable drc : list (Z * Z) -> bool.
  Variable pins : list pin.
  Variables (M dim : Z).
  Hypothesis SE : sensible pins M.
  Hypothesis ne : pins <> [].
  Hypothesis dim_ok : forall p, In p pins -> Z.of_nat (length (pinAps p)) <= dim.

  Let n := numPins pins.
  Let cnt := fun i => Z.of_nat (length (pinAps (pin_at pins i))).
  Let f := fun i a => apCost (ap_at pins i a).

  Lemma n_pos : 0 < n.
  Proof. unfold n, numPins. destruct pins; [contradiction|cbn [length]; lia]. Qed.
  Lemma pin_in i : 0 <= i < n -> In (pin_at pins i) pins.
  Proof. intros Hi. apply nth_In. unfold n, numPins in Hi. lia. Qed.
  Lemma cnt_ok i : 0 <= i < n -> 0 < cnt i <= dim.
  Proof.
    intros Hi. pose proof (pin_in i Hi) as Hin. pose proof (dim_ok _ Hin). pose proof (se_aps _ _ SE _ Hin).
    unfold cnt. destruct (pinAps (pin_at pins i)); [contradiction|cbn [length] in *; lia].
  Qed.
  Lemma dim_pos : 0 < dim.
  Proof. pose proof (cnt_ok 0 ltac:(pose proof n_pos; lia)). lia. Qed.
  Lemma f_ok i a : 0 <= i < n -> 0 <= a < cnt i -> 0 <= f i a <= M.
  Proof.
    intros Hi Ha. unfold f, ap_at. apply (se_cost _ _ SE (pin_at pins i)); [apply pin_in, Hi|].
    apply nth_In. unfold cnt in Ha. lia.
  Qed.
  Lemma M_lt : M < INF.
  Proof.
    pose proof (se_fits _ _ SE). pose proof (se_M _ _ SE).
    assert (1 * M <= (Z.of_nat (length pins) + 1) * M) by (apply Z.mul_le_mono_nonneg_r; lia). lia.
  Qed.
  Lemma f_fin i a : 0 <= i < n -> 0 <= a < cnt i -> f i a < INF.
  Proof. intros Hi Ha. pose proof (f_ok i a Hi Ha). pose proof M_lt. lia. Qed.

  (* the node costs stay put *)
  Definition costs_in (t : table) : Prop :=
    (forall a, 0 <= a < dim -> nodeCost (t (getFlatIdx (-1) a dim)) = if a =? 0 then 0 else INF) /\
    (forall a, 0 <= a < dim -> nodeCost (t (getFlatIdx n a dim)) = if a =? 0 then 0 else INF) /\
    (forall i a, 0 <= i < n -> 0 <= a < dim -> nodeCost (t (getFlatIdx i a dim)) = if a <? cnt i then f i a else INF).
  Lemma init_costs_in : costs_in (genPatterns_init pins dim).
  Proof.
    pose proof n_pos. pose proof dim_pos.
    assert (HF : fresh_table f cnt n dim (genPatterns_init pins dim)).
    { apply (fresh_intro f cnt dim n); [lia|lia|]. intros i Hi. pose proof (cnt_ok i Hi). lia. }
    destruct HF as (_ & _ & _ & H1 & H2 & H3). split; [exact H1|]. split; [exact H2|exact H3].
  Qed.
  Lemma reset_fresh t : costs_in t -> fresh_table f cnt n dim (genPatterns_reset pins dim t).
  Proof.
    intros (C1 & C2 & C3). pose proof n_pos. pose proof dim_pos.
    unfold genPatterns_reset. fold n.
    set (s := getFlatIdx (-1) 0 dim) in *. set (e := getFlatIdx n 0 dim) in *.
    assert (Ne : s <> e) by (intros E; apply flat_inj in E; lia).
    split; [|split; [|split; [|split; [|split]]]].
    - rewrite tset_other, tset_same by exact Ne. reflexivity.
    - rewrite tset_other, tset_same by exact Ne. reflexivity.
    - intros i a Hi Ha Hn0. unfold tset.
      destruct (Z.eqb_spec (getFlatIdx i a dim) e) as [E|E]; cbn [pathCost].
      + destruct (Z.eqb_spec e s); [congruence|reflexivity].
      + destruct (Z.eqb_spec (getFlatIdx i a dim) s) as [E'|E']; [|reflexivity].
        apply flat_inj in E'; [|lia|lia]. destruct E' as [-> ->]. now destruct Hn0.
    - intros a Ha. rewrite <- C1 by exact Ha. unfold tset.
      destruct (Z.eqb_spec (getFlatIdx (-1) a dim) e) as [E|E]; [apply flat_inj in E; lia|].
      destruct (Z.eqb_spec (getFlatIdx (-1) a dim) s) as [E'|E']; [|reflexivity].
      apply flat_inj in E'; [|lia|lia]. destruct E' as [_ ->]. rewrite C1 by lia. reflexivity.
    - intros a Ha. rewrite <- C2 by exact Ha. unfold tset.
      destruct (Z.eqb_spec (getFlatIdx n a dim) e) as [E|E].
      + apply flat_inj in E; [|lia|lia]. destruct E as [_ ->]. rewrite C2 by lia. reflexivity.
      + destruct (Z.eqb_spec (getFlatIdx n a dim) s) as [E'|E']; [|reflexivity].
        apply flat_inj in E'; lia.
    - intros i a Hi Ha. rewrite <- C3 by assumption. unfold tset.
      destruct (Z.eqb_spec (getFlatIdx i a dim) e) as [E|E]; [apply flat_inj in E; lia|].
      destruct (Z.eqb_spec (getFlatIdx i a dim) s) as [E'|E']; [apply flat_inj in E'; lia|]. reflexivity.
  Qed.

  (* the cache: unknown or the verdict on the pair *)
  Definition pair_bad (i a b : Z) : bool := negb (acceptable drc (via1 pins i a ++ via1 pins (i + 1) b)).
  Definition cache_ok (c : cache) : Prop := forall i a b, 0 <= i < n - 1 -> 0 <= a < dim -> 0 <= b < dim ->
    c (getFlatEdgeIdx i a b dim) = -1 \/ c (getFlatEdgeIdx i a b dim) = b2z (pair_bad i a b).
  Definition known (c : cache) (i a b : Z) : Prop := 0 <= i < n - 1 -> c (getFlatEdgeIdx i a b dim) <> -1.
  Definition full (c : cache) : Prop := forall i a b, 0 <= i < n - 1 -> 0 <= a < cnt i -> 0 <= b < cnt (i + 1) ->
    known c i a b.

  Lemma hasVio_spec p i a b nodes c : 0 <= i < n - 1 -> 0 <= a < dim -> 0 <= b < dim -> cache_ok c ->
    let r := hasVio drc pins dim p i a (i + 1) b nodes c in
    cache_ok (snd r) /\ known (snd r) i a b /\ (forall i' a' b', known c i' a' b' -> known (snd r) i' a' b') /\
    (known c i a b -> snd r = c) /\
    (known c i a b \/ look_back_harmless drc pins -> fst r = pair_bad i a b).
  Proof.
    intros Hi Ha Hb Hc. unfold hasVio. cbn zeta.
    set (ei := getFlatEdgeIdx i a b dim).
    destruct (Z.eqb_spec (c ei) (-1)) as [E|E]; cbn [negb].
    - set (v := negb (genPatterns_gc drc (via_of pins i a ++ via_of pins (i + 1) b))).
      assert (Ev : v = pair_bad i a b) by reflexivity.
      assert (K : cache_ok (cset c ei (b2z v)) /\ known (cset c ei (b2z v)) i a b /\
        (forall i' a' b', known c i' a' b' -> known (cset c ei (b2z v)) i' a' b') /\
        (known c i a b -> cset c ei (b2z v) = c)).
      { split; [|split; [|split]].
        - intros i' a' b' Hi' Ha' Hb'. unfold cset.
          destruct (Z.eqb_spec (getFlatEdgeIdx i' a' b' dim) ei) as [E'|E'].
          + apply edge_inj in E'; [|lia..]. destruct E' as (-> & -> & ->). right. now rewrite Ev.
          + apply Hc; assumption.
        - intros _. unfold cset. fold ei. rewrite Z.eqb_refl. unfold b2z. destruct v; lia.
        - intros i' a' b' Hk Hi'. unfold cset. destruct (Z.eqb_spec (getFlatEdgeIdx i' a' b' dim) ei);
            [unfold b2z; destruct v; lia|apply Hk, Hi'].
        - intros Hk. now destruct (Hk Hi). }
      assert (R : forall x, (known c i a b \/ look_back_harmless drc pins -> x = pair_bad i a b) ->
        let r := (x, cset c ei (b2z v)) in
        cache_ok (snd r) /\ known (snd r) i a b /\ (forall i' a' b', known c i' a' b' -> known (snd r) i' a' b') /\
        (known c i a b -> snd r = c) /\
        (known c i a b \/ look_back_harmless drc pins -> fst r = pair_bad i a b)).
      { intros x Hx. cbn [fst snd]. destruct K as (K1 & K2 & K3 & K4). auto. }
      destruct (negb v && negb (p =? -1)) eqn:E1; [|apply R; auto].
      destruct (negb (prevNodeIdx (nodes p) =? -1)); [|apply R; auto].
      destruct (getNestedIdx (prevNodeIdx (nodes p)) dim) as [h d].
      destruct (negb (h =? -1)); [|apply R; auto].
      apply R. intros [Hk|Hh]; [now destruct (Hk Hi)|].
      apply andb_true_iff in E1 as [E1 _].
      assert (Hv : v = false) by (destruct v; [discriminate|reflexivity]). rewrite <- Ev, Hv.
      apply negb_false_iff. apply negb_false_iff in Hv.
      exact (Hh i a b h d Hv).
    - cbn [fst snd]. split; [exact Hc|]. split; [intros _; exact E|]. split; [auto|]. split; [auto|].
      intros _. destruct (Hc i a b Hi Ha Hb) as [H|H]; fold ei in H; [congruence|].
      rewrite H. unfold b2z. destruct (pair_bad i a b); reflexivity.
  Qed.

  Variables (used viol : list (Z * Z)).
  Let w := ended n (pin_pair drc pins used viol).
  Let RokA := fun c : cache => cache_ok c /\ (full c \/ look_back_harmless drc pins).

  Lemma edge_spec t0 i a b nodes c : fresh_table f cnt n dim t0 -> -1 <= i < n ->
    valid dim t0 i a -> valid dim t0 (i + 1) b -> cache_ok c ->
    (forall x, nodeCost (nodes x) = nodeCost (t0 x)) ->
    let r := getEdgeCost drc pins dim used viol (getFlatIdx i a dim) (getFlatIdx (i + 1) b dim) nodes c in
    0 <= fst r <= M /\ cache_ok (snd r) /\ known (snd r) i a b /\
    (forall i' a' b', known c i' a' b' -> known (snd r) i' a' b') /\
    (known c i a b -> snd r = c) /\
    (known c i a b \/ look_back_harmless drc pins -> fst r = w i a b).
  Proof.
    intros HF Hi Va Vb Hc Hnc r. subst r. pose proof (se_M _ _ SE) as HM.
    pose proof HF as (F1 & F2 & F3 & F4 & F5 & F6).
    unfold getEdgeCost. rewrite !nested_flat by (try lia; apply Va || apply Vb).
    fold n. unfold w, ended. replace (i + 1 =? n) with (i =? n - 1) by lia.
    destruct ((i =? -1) || (i =? n - 1)) eqn:E.
    { cbn [fst snd]. split; [lia|]. split; [exact Hc|]. split; [intros Hk; lia|]. auto. }
    assert (Hi' : 0 <= i < n - 1) by lia.
    destruct (hasVio_spec (getFlatIdx i a dim) i a b nodes c Hi' (proj1 Va) (proj1 Vb) Hc)
      as (H1 & H2 & H3 & H4 & H5).
    assert (Va' : 0 <= a < cnt i) by (apply (valid_mid f cnt n dim t0 HF f_fin cnt_ok); [lia|exact Va]).
    assert (Vb' : 0 <= b < cnt (i + 1)) by (apply (valid_mid f cnt n dim t0 HF f_fin cnt_ok); [lia|exact Vb]).
    assert (Ca : nodeCost (nodes (getFlatIdx i a dim)) = f i a).
    { rewrite Hnc, F6 by (try lia; apply Va). destruct (Z.ltb_spec a (cnt i)); [reflexivity|lia]. }
    assert (Cb : nodeCost (nodes (getFlatIdx (i + 1) b dim)) = f (i + 1) b).
    { rewrite Hnc, F6 by (try lia; apply Vb). destruct (Z.ltb_spec b (cnt (i + 1))); [reflexivity|lia]. }
    pose proof (quot_half_range _ _ _ (f_ok i a ltac:(lia) Va') (f_ok (i + 1) b ltac:(lia) Vb')) as HQ.
    destruct (hasVio drc pins dim (getFlatIdx i a dim) i a (i + 1) b nodes c) as [v c'].
    cbn [fst snd] in *.
    assert (Hw : v = pair_bad i a b -> pin_pair drc pins used viol i a b =
      if v then 1000
      else if ((i =? 0) && inSet used (i, a)) || ((i + 1 =? n - 1) && inSet used (i + 1, b)) then 100
      else if inSet viol (i, a) || inSet viol (i + 1, b) then 1000
      else Z.quot (f i a + f (i + 1) b) 2).
    { intros ->. unfold pin_pair, pair_bad.
      destruct (acceptable drc (via1 pins i a ++ via1 pins (i + 1) b)); reflexivity. }
    rewrite Ca, Cb.
    destruct v;
    [|destruct (((i =? 0) && inSet used (i, a)) || ((i + 1 =? n - 1) && inSet used (i + 1, b)));
      [|destruct (inSet viol (i, a) || inSet viol (i + 1, b))]]; cbn [fst snd];
      (split; [lia|]; split; [exact H1|]; split; [exact H2|]; split; [exact H3|]; split; [exact H4|];
       intros Hk; symmetry; apply Hw, H5, Hk).
  Qed.

  Lemma fresh_side t0 : fresh_table f cnt n dim t0 ->
    (forall i, 0 <= i <= n -> exists a, valid dim t0 i a) /\ valid dim t0 (-1) 0 /\
    (forall a, valid dim t0 (-1) a -> a = 0) /\ (forall a, valid dim t0 n a -> a = 0).
  Proof.
    intros HF. split; [|split; [|split]].
    - apply (valid_some f cnt n dim t0); auto using dim_pos, f_fin, cnt_ok, n_pos.
    - apply (valid_start f cnt n dim t0); auto using dim_pos, f_fin, cnt_ok, n_pos.
    - apply (valid_only_start f cnt n dim t0); auto using dim_pos, f_fin, cnt_ok, n_pos.
    - apply (valid_only_end f cnt n dim t0); auto using dim_pos, f_fin, cnt_ok, n_pos.
  Qed.

  (* any round: the table is as it should be, the cache is complete afterwards *)
  Lemma perform_any t c : costs_in t -> cache_ok c ->
    let st := genPatterns_perform drc pins dim used viol (genPatterns_reset pins dim t, c) in
    costs_in (fst st) /\ cache_ok (snd st) /\ full (snd st) /\
    exists pat, read_off (fst st) n dim = Some pat /\ choice (ap_counts pins) pat.
  Proof.
    intros Ht Hc st. pose proof (reset_fresh t Ht) as HF.
    set (t0 := genPatterns_reset pins dim t) in *.
    destruct (fresh_side t0 HF) as (S1 & S2 & S3 & S4). pose proof HF as (F1 & F2 & F3 & F4 & F5 & F6).
    pose proof (se_M _ _ SE). pose proof n_pos. pose proof dim_pos.
    assert (HI : Inv cache n dim M t0 (fun _ _ _ e => 0 <= e <= M) cache_ok known (n + 1) 0 st).
    { unfold st, genPatterns_perform. fold n.
      apply perform_inv; auto; try lia.
      - exact (se_fits _ _ SE).
      - intros i a b nodes c' Hi Va Vb Hc' Hnc r. subst r.
        destruct (edge_spec t0 i a b nodes c' HF Hi Va Vb Hc' Hnc) as (E1 & E2 & E3 & E4 & _ & _). auto. }
    assert (Vmid := valid_mid f cnt n dim t0 HF f_fin cnt_ok).
    split; [|split; [|split]].
    - split; [|split].
      + intros a Ha. rewrite (iv_cost _ _ _ _ _ _ _ _ _ _ _ HI). auto.
      + intros a Ha. rewrite (iv_cost _ _ _ _ _ _ _ _ _ _ _ HI). auto.
      + intros i a Hi Ha. rewrite (iv_cost _ _ _ _ _ _ _ _ _ _ _ HI). auto.
    - apply (iv_rok _ _ _ _ _ _ _ _ _ _ _ HI).
    - intros i a b Hi Ha Hb.
      destruct (iv_settled _ _ _ _ _ _ _ _ _ _ _ HI (i + 1) b ltac:(lia)) as [_ Hall];
        [apply Vmid; lia|lia|].
      replace (i + 1 - 1) with i in Hall by lia. apply Hall. apply Vmid; lia.
    - destruct (read_off_some cache n dim M ltac:(lia) t0 S1 S3 S4 _ _ _ st HI) as (pat & Hr & Hl & Hv & _).
      exists pat. split; [exact Hr|].
      assert (HF2 : forall l1 l2, length l1 = length l2 ->
        (forall i, (i < length l1)%nat -> 0 <= nth i l2 0 < Z.of_nat (nth i l1 O)) -> choice l1 l2).
      { unfold choice. induction l1 as [|x l1 IH]; intros [|y l2] HL Hx; try discriminate; constructor.
        - apply (Hx O). cbn; lia.
        - apply IH; [cbn in HL; lia|]. intros i Hi. apply (Hx (S i)). cbn; lia. }
      apply HF2.
      + unfold ap_counts. rewrite map_length. unfold n, numPins in Hl. lia.
      + unfold ap_counts. rewrite map_length. intros i Hi.
        assert (Hin : Z.of_nat i < n) by (unfold n, numPins; lia).
        pose proof (Hv i Hin) as Hvi. apply Vmid in Hvi; [|lia]. unfold cnt, pin_at in Hvi.
        rewrite Nat2Z.id in Hvi. change O with ((fun p => length (pinAps p)) pin0). rewrite map_nth. exact Hvi.
  Qed.

  (* a round in which the pair verdicts are fixed picks a cheapest pattern *)
  Lemma perform_cheapest t c : costs_in t -> RokA c ->
    exists pat, read_off (fst (genPatterns_perform drc pins dim used viol (genPatterns_reset pins dim t, c))) n dim
      = Some pat /\ cheapest (pin_pair drc pins used viol) (ap_counts pins) pat.
  Proof.
    intros Ht Hc. pose proof (reset_fresh t Ht) as HF.
    set (t0 := genPatterns_reset pins dim t) in *.
    set (st := genPatterns_perform drc pins dim used viol (t0, c)).
    destruct (fresh_side t0 HF) as (S1 & S2 & S3 & S4). pose proof HF as (F1 & F2 & F3 & F4 & F5 & F6).
    pose proof (se_M _ _ SE). pose proof n_pos. pose proof dim_pos.
    assert (Vmid := valid_mid f cnt n dim t0 HF f_fin cnt_ok).
    assert (HI : Inv cache n dim M t0 (fun i a b e => e = w i a b /\ 0 <= e <= M) RokA (fun _ _ _ _ => True) (n + 1) 0 st).
    { unfold st, genPatterns_perform. fold n.
      apply perform_inv; auto; try lia.
      - exact (se_fits _ _ SE).
      - intros i a b nodes c' Hi Va Vb [Hc' Hm] Hnc r. subst r.
        destruct (edge_spec t0 i a b nodes c' HF Hi Va Vb Hc' Hnc) as (E1 & E2 & E3 & E4 & E5 & E6).
        assert (HK : full c' -> known c' i a b).
        { intros Hf Hi'. apply Hf; [lia|apply Vmid in Va; lia|apply Vmid in Vb; lia|exact Hi']. }
        split; [split; [|exact E1]|].
        + apply E6. destruct Hm; auto.
        + split; [|auto]. split; [exact E2|]. destruct Hm as [Hm|Hm]; [left|auto].
          rewrite E5 by auto. exact Hm. }
    destruct (read_off_cheapest cache n dim M t0 w RokA (fun _ _ _ _ => True)
      ltac:(lia) ltac:(intros; unfold w, ended; reflexivity)
      ltac:(intros; unfold w, ended; rewrite Z.eqb_refl, orb_true_r; reflexivity)
      (ap_counts pins) st) as (pat & Hr & Hch); auto; try lia.
    - exact (se_fits _ _ SE).
    - unfold ap_counts. rewrite map_length. reflexivity.
    - intros i a Hi. rewrite Vmid by exact Hi. unfold cnt, pin_at, ap_counts.
      change O with ((fun p => length (pinAps p)) pin0). rewrite map_nth. reflexivity.
    - exists pat. split; [exact Hr|]. apply (cheapest_ext w); [|exact Hch].
      intros j a b Hj. unfold w, ended. unfold ap_counts in Hj. rewrite map_length in Hj. unfold n, numPins.
      destruct (Z.eqb_spec j (-1)); [lia|]. destruct (Z.eqb_spec j (Z.of_nat (length pins) - 1)); [lia|].
      reflexivity.
  Qed.
End Pins.
