(* Rows of cells, and the rounds of pattern generation for one cell. *)
From Verif Require Import Base PaModel PaSpec PaProofs PaProofs2.

Lemma total_ext w w' pat : forall i, (forall j a b, i <= j < i + Z.of_nat (length pat) - 1 -> w j a b = w' j a b) ->
  total w i pat = total w' i pat.
Proof.
  induction pat as [|a [|b r] IH]; intros i H; try reflexivity.
  rewrite !total_cons. rewrite (H i) by (cbn [length]; lia). f_equal.
  apply IH. intros j x y Hj. apply H. cbn [length] in *. lia.
Qed.
Lemma choice_length o p : choice o p -> length o = length p.
Proof. unfold choice. induction 1; cbn; auto. Qed.
Lemma cheapest_ext w w' o p :
  (forall j a b, 0 <= j < Z.of_nat (length o) - 1 -> w j a b = w' j a b) ->
  cheapest w o p -> cheapest w' o p.
Proof.
  intros H [Hc Hm]. split; [exact Hc|]. intros p' Hp'. specialize (Hm p' Hp').
  rewrite (total_ext w w' p), (total_ext w w' p') in Hm; [exact Hm| |];
    intros j a b Hj; apply H; [rewrite (choice_length _ _ Hp')|rewrite (choice_length _ _ Hc)]; lia.
Qed.
(* pair costs with free virtual ends *)
Definition ended (n : Z) (w : Z -> Z -> Z -> Z) (i a b : Z) : Z :=
  if (i =? -1) || (i =? n - 1) then 0 else w i a b.

Lemma quot_half_range a b M : 0 <= a <= M -> 0 <= b <= M -> 0 <= Z.quot (a + b) 2 <= M.
Proof.
  intros Ha Hb. rewrite Z.quot_div_nonneg by lia. split; [apply Z.div_pos; lia|].
  apply Z.div_le_upper_bound; lia.
Qed.

(* --- rows --- *)
Section Row.
  Variable clean : Z -> Z -> Z -> bool.
  Variable costs : list (list Z).
  Variable M : Z.
  Hypothesis some : forall l, In l costs -> l <> [] /\ (length l <= 5)%nat.
  Hypothesis cost_ok : forall l c, In l costs -> In c l -> 0 <= c <= M.
  Hypothesis M1000 : 1000 <= M.
  Hypothesis fits : (Z.of_nat (length costs) + 1) * M < INF.

  Lemma row_optimal : exists pat, genInstPattern clean costs = Some pat /\
    cheapest (row_pair clean costs) (map (@length Z) costs) pat.
  Proof.
    destruct costs as [|l0 costs0] eqn:Ec.
    { exists []. split; [reflexivity|]. split; [constructor|]. intros pat' H'.
      inversion H'. cbn. lia. }
    unfold genInstPattern. rewrite <- Ec in *.
    assert (Hn : 0 < numInsts costs) by (unfold numInsts; rewrite Ec; cbn [length]; lia).
    clear Ec l0 costs0.
    set (n := numInsts costs) in *. set (dim := maxAccessPatternSize).
    set (cnt := fun i => Z.of_nat (length (costs_at costs i))).
    set (f := fun i a => nth (Z.to_nat a) (costs_at costs i) 0).
    assert (Hin : forall i, 0 <= i < n -> In (costs_at costs i) costs).
    { intros i Hi. unfold costs_at. apply nth_In. unfold n, numInsts in Hi. lia. }
    assert (Hcnt : forall i, 0 <= i < n -> 0 < cnt i <= dim).
    { intros i Hi. destruct (some _ (Hin i Hi)) as [Hne Hl]. unfold cnt, dim, maxAccessPatternSize.
      destruct (costs_at costs i); [contradiction|cbn [length] in *; lia]. }
    assert (Hf : forall i a, 0 <= i < n -> 0 <= a < cnt i -> 0 <= f i a <= M).
    { intros i a Hi Ha. unfold f. apply (cost_ok _ _ (Hin i Hi)). apply nth_In. unfold cnt in Ha. lia. }
    assert (HM : M < INF).
    { assert (1 * M <= (Z.of_nat (length costs) + 1) * M) by (apply Z.mul_le_mono_nonneg_r; lia). lia. }
    assert (HF : fresh_table f cnt n dim (genInstPattern_init costs)).
    { apply (fresh_intro f cnt dim n); [lia|reflexivity|]. intros i Hi. specialize (Hcnt i Hi). lia. }
    assert (Hfin : forall i a, 0 <= i < n -> 0 <= a < cnt i -> f i a < INF)
      by (intros i a Hi Ha; specialize (Hf i a Hi Ha); lia).
    set (t0 := genInstPattern_init costs) in *.
    set (w := ended n (row_pair clean costs)).
    assert (Vmid : forall i a, 0 <= i < n -> valid dim t0 i a <-> 0 <= a < cnt i).
    { intros i a Hi. apply (valid_mid f cnt n dim t0 HF Hfin Hcnt); auto. }
    assert (HI : Inv unit n dim M t0 (fun i a b e => e = w i a b /\ 0 <= e <= M) (fun _ => True)
                  (fun _ _ _ _ => True) (n + 1) 0 (perform unit (getEdgeCostInst clean costs) n dim (t0, tt))).
    { pose proof HF as (F1 & F2 & F3 & F4 & F5 & F6).
      apply perform_inv; auto; try lia.
      - reflexivity.
      - apply (valid_some f cnt n dim t0); auto; reflexivity.
      - apply (valid_start f cnt n dim t0); auto; reflexivity.
      - apply (valid_only_start f cnt n dim t0); auto.
      - apply (valid_only_end f cnt n dim t0); auto.
      - intros i a b nodes c Hi Va Vb _ Hnc r. subst r. split; [|auto].
        unfold getEdgeCostInst. fold dim. rewrite !nested_flat by (try lia; apply Va || apply Vb).
        fold n. unfold w, ended. replace (i + 1 =? n) with (i =? n - 1) by lia.
        destruct ((i =? -1) || (i =? n - 1)) eqn:E; [cbn; lia|].
        assert (Hi' : 0 <= i < n - 1) by lia.
        unfold row_pair. destruct (clean i a b); cbn [fst]; [|lia].
        apply Vmid in Va; [|lia]. apply Vmid in Vb; [|lia].
        rewrite !Hnc, !F6 by (try lia; pose proof (Hcnt i); pose proof (Hcnt (i + 1)); lia).
        destruct (Z.ltb_spec a (cnt i)); destruct (Z.ltb_spec b (cnt (i + 1))); try lia.
        split; [reflexivity|]. apply quot_half_range; apply Hf; lia. }
    destruct (read_off_cheapest unit n dim M t0 w (fun _ => True) (fun _ _ _ _ => True)
      ltac:(lia) ltac:(intros; unfold w, ended; reflexivity)
      ltac:(intros; unfold w, ended; rewrite Z.eqb_refl, orb_true_r; reflexivity)
      (map (@length Z) costs) (perform unit (getEdgeCostInst clean costs) n dim (t0, tt)))
      as (pat & Hr & Hc); auto; try lia; try reflexivity.
    - apply (valid_some f cnt n dim t0); auto; reflexivity.
    - apply (valid_start f cnt n dim t0); auto; reflexivity.
    - apply (valid_only_start f cnt n dim t0); auto.
    - apply (valid_only_end f cnt n dim t0); auto.
    - rewrite map_length. reflexivity.
    - intros i a Hi. rewrite Vmid by exact Hi. unfold cnt, costs_at.
      change O with (length (@nil Z)). rewrite map_nth. reflexivity.
    - exists pat. destruct costs as [|l0 c0]; [cbn in Hn; lia|]. split; [exact Hr|].
      apply (cheapest_ext w); [|exact Hc]. intros j a b Hj. unfold w, ended.
      rewrite map_length in Hj. unfold n, numInsts.
      destruct (Z.eqb_spec j (-1)); [lia|]. destruct (Z.eqb_spec j (Z.of_nat (length (l0 :: c0)) - 1)); [lia|].
      reflexivity.
  Qed.
End Row.
