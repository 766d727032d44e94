(* The rounds: better types first, and worse ones only while there are too few. *)
From Verif Require Import Base GeomModel GridModel ApModel ApSpec ApProofs ApProofs2 ApProofs3 ApProofs4.
From Coq Require Import Sorting.Sorted.

Lemma enough_iff E n : enough E n = true <-> quota E <= n.
Proof. unfold enough, quota. destruct (e_kind E); lia. Qed.

Lemma cand_range E l r p low high : candidate E l r p low high -> 0 <= low <= 3 /\ 0 <= high <= 2.
Proof.
  intros (_ & _ & _ & _ & _ & _ & _ & _ & l2 & _ & L & H & _). split; auto.
  destruct L as [(_ & -> & _)|(_ & _ & L)]; lia.
Qed.
Lemma cand_high E l r r' p low low' high high' : candidate E l r p low high -> candidate E l r' p low' high' -> high = high'.
Proof.
  intros (_ & _ & _ & _ & _ & _ & _ & _ & l2 & S & _ & H & C) (_ & _ & _ & _ & _ & _ & _ & _ & l2' & S' & _ & H' & C').
  assert (l2' = l2) by (unfold second in *; lia). subst l2'.
  pose proof (half_not_track E l2 (along E l p)) as HN. unfold coord_type in C, C'.
  destruct C as [_ [[-> C]|[(-> & C)|[(-> & C)|(-> & C)]]]], C' as [_ [[-> C']|[(-> & C')|[(-> & C')|(-> & C')]]]]; tauto || lia.
Qed.

Lemma check_key E a : key (check_ap E a) = key a.
Proof. reflexivity. Qed.
Lemma check_cost E a : ap_cost (check_ap E a) = ap_cost a.
Proof. reflexivity. Qed.

Definition costle (a b : ap) : Prop := ap_cost a <= ap_cost b.
Record inv (E : aenv) (k : Z) (G : list ap) (s : list (point * Z)) (aps : list ap) : Prop := {
  i_aps : aps = filter (keep E) (map (check_ap E) G);
  i_made : forall g, In g G -> made E g /\ ap_cost g < k;
  i_sort : StronglySorted costle G;
  i_dup : NoDup (map key G);
  i_set : forall q, In q s <-> In q (map key G);
  i_all : forall l r p low high, candidate E l r p low high -> low + 4 * high < k ->
    exists g, In g G /\ key g = (p, l) /\ ap_cost g <= low + 4 * high;
  i_few : forall a, In a aps -> cheaper (ap_cost a) aps < quota E }.

Lemma sorted_app (G H : list ap) k : StronglySorted costle G -> (forall g, In g G -> ap_cost g < k) -> (forall h, In h H -> ap_cost h = k) ->
  StronglySorted costle (G ++ H).
Proof.
  intros S A B. induction S as [|g G S IH F]; cbn [app].
  - induction H as [|h H IH]; [constructor|]. constructor; [apply IH; intros; apply B; right; auto|].
    apply Forall_forall. intros x I. unfold costle. rewrite (B h (or_introl eq_refl)), (B x (or_intror I)). lia.
  - constructor; [apply IH; intros; apply A; right; auto|]. apply Forall_app. split; auto.
    apply Forall_forall. intros x I. unfold costle. rewrite (B x I). specialize (A g (or_introl eq_refl)). lia.
Qed.

Lemma filter_none {A} (f : A -> bool) l : (forall x, In x l -> f x = false) -> filter f l = [].
Proof. induction l as [|x l IH]; cbn; auto. intros H. rewrite (H x (or_introl eq_refl)). apply IH. auto. Qed.
Lemma filter_all {A} (f : A -> bool) l : (forall x, In x l -> f x = true) -> filter f l = l.
Proof. induction l as [|x l IH]; cbn; auto. intros H. rewrite (H x (or_introl eq_refl)). f_equal. apply IH. auto. Qed.

Section Rounds.
Variables (E : aenv) (T : tracks_on_grid E).

Lemma round_inv lt ut G s aps aps' s' b : 0 <= lt <= 3 -> 0 <= ut <= 2 ->
  inv E (lt + 4 * ut) G s aps -> Z.of_nat (length aps) < quota E ->
  pin_round E lt ut aps s = Some (aps', s', b) ->
  exists G', inv E (lt + 4 * ut + 1) G' s' aps' /\ b = enough E (Z.of_nat (length aps')).
Proof.
  intros LT UT I FEW. unfold pin_round. destruct (gen_points E lt ut ([], s)) as [[tmp s1]|] eqn:GP; [|discriminate].
  intros Q. injection Q as <- <- <-.
  apply (gen_points_ext E T lt ut _ _ LT UT) in GP. destruct GP as (new & A & B & C & D & F). cbn [fst snd app] in A, B, D, F. subst tmp.
  exists (G ++ new). split; [|reflexivity].
  assert (NC : forall a, In a new -> ap_cost a = lt + 4 * ut).
  { intros a J. destruct (B a J) as [(M & H & L) N]. unfold ap_cost. rewrite H. destruct L as [->|L]; [auto|].
    destruct (Z.eq_dec lt 0) as [->|NZ]; [rewrite L; auto|]. exfalso. apply N. apply (i_set _ _ _ _ _ I).
    destruct M as [_ (r & M)]. destruct (i_all _ _ _ _ _ I _ r _ _ _ M ltac:(lia)) as (g & IG & KG & _).
    unfold key at 1. rewrite <- KG. apply in_map. auto. }
  assert (OC : forall a, In a aps -> ap_cost a < lt + 4 * ut).
  { intros a J. rewrite (i_aps _ _ _ _ _ I) in J. apply filter_In in J. destruct J as [J _]. apply in_map_iff in J.
    destruct J as (g & <- & J). rewrite check_cost. apply (i_made _ _ _ _ _ I); auto. }
  assert (KC : forall a, In a (filter (keep E) (map (check_ap E) new)) -> ap_cost a = lt + 4 * ut).
  { intros a J. apply filter_In in J. destruct J as [J _]. apply in_map_iff in J. destruct J as (g & <- & J). rewrite check_cost. auto. }
  constructor.
  - rewrite map_app, filter_app, <- (i_aps _ _ _ _ _ I). auto.
  - intros g J. apply in_app_iff in J. destruct J as [J|J].
    + destruct (i_made _ _ _ _ _ I g J). split; auto. lia.
    + split; [apply (B g J) | rewrite NC by auto; lia].
  - apply sorted_app with (k := lt + 4 * ut); [apply (i_sort _ _ _ _ _ I) | intros; apply (i_made _ _ _ _ _ I); auto | auto].
  - rewrite map_app. apply NoDup_app2; [apply (i_dup _ _ _ _ _ I) | auto|].
    intros q J K. apply in_map_iff in K. destruct K as (a & <- & K). apply (B a K). apply (i_set _ _ _ _ _ I). auto.
  - intros q. rewrite map_app, in_app_iff, <- (i_set _ _ _ _ _ I). apply D.
  - intros l r p low high CD LE.
    destruct (Z.eq_dec (low + 4 * high) (lt + 4 * ut)) as [EQ|NE].
    + pose proof (cand_range _ _ _ _ _ _ CD). assert (low = lt) by lia. assert (high = ut) by lia. subst.
      assert (J : In (p, l) s1) by (apply F; eauto). apply D in J. destruct J as [J|J].
      * apply (i_set _ _ _ _ _ I) in J. apply in_map_iff in J. destruct J as (g & KG & J). exists g. split; [apply in_app_iff; auto|].
        split; auto. apply (i_made _ _ _ _ _ I) in J. lia.
      * apply in_map_iff in J. destruct J as (g & KG & J). exists g. split; [apply in_app_iff; auto|]. split; auto. rewrite NC by auto. lia.
    + destruct (i_all _ _ _ _ _ I _ r _ _ _ CD ltac:(lia)) as (g & IG & KG & CG). exists g. split; [apply in_app_iff; auto|]. auto.
  - intros a J. unfold cheaper. rewrite filter_app, app_length. apply in_app_iff in J. destruct J as [J|J].
    + rewrite (filter_none _ (filter (keep E) (map (check_ap E) new))).
      * pose proof (i_few _ _ _ _ _ I a J) as H. unfold cheaper in H. cbn [length]. lia.
      * intros x X. specialize (KC x X). specialize (OC a J). lia.
    + rewrite (KC a J). rewrite (filter_none _ (filter (keep E) (map (check_ap E) new))) by (intros x X; specialize (KC x X); lia).
      rewrite filter_all by (intros x X; specialize (OC x X); lia). cbn [length]. lia.
Qed.

(* the rounds of [rounds] left after the first k *)
Lemma rounds_nth k : (k < 12)%nat -> exists lt ut rest, skipn k rounds = (lt, ut) :: rest /\ rest = skipn (S k) rounds /\
  lt + 4 * ut = Z.of_nat k /\ 0 <= lt <= 3 /\ 0 <= ut <= 2.
Proof.
  intros H. do 12 (destruct k as [|k]; [do 3 eexists; repeat split; lia|]). lia.
Qed.

Lemma rounds_inv n : forall k G s aps res, (n = 12 - k)%nat -> (k <= 12)%nat ->
  inv E (Z.of_nat k) G s aps -> Z.of_nat (length aps) < quota E ->
  pin_rounds E (skipn k rounds) aps s = Some res ->
  exists k' G' s', inv E k' G' s' res /\ (12 <= k' \/ quota E <= Z.of_nat (length res)).
Proof.
  induction n as [|n IH]; intros k G s aps res N K I F P.
  - assert (k = 12%nat) by lia. subst k. cbn in P. injection P as <-. exists 12, G, s. split; auto. lia.
  - destruct (rounds_nth k ltac:(lia)) as (lt & ut & rest & SK & -> & CO & LT & UT). rewrite SK in P. cbn [pin_rounds] in P.
    destruct (pin_round E lt ut aps s) as [[[aps' s'] b]|] eqn:R; [|discriminate].
    rewrite <- CO in I. destruct (round_inv lt ut G s aps aps' s' b LT UT I F R) as (G' & I' & B).
    destruct b.
    + injection P as <-. exists (lt + 4 * ut + 1), G', s'. split; auto. right. apply enough_iff. auto.
    + apply (IH (S k) G' s' aps' res); auto; try lia.
      * replace (Z.of_nat (S k)) with (lt + 4 * ut + 1) by lia. auto.
      * destruct (Z.lt_ge_cases (Z.of_nat (length aps')) (quota E)) as [X|X]; auto. apply enough_iff in X. congruence.
Qed.

Lemma prep_inv aps : 0 < quota E -> prep_pin E = Some aps ->
  exists k G s, inv E k G s aps /\ (12 <= k \/ quota E <= Z.of_nat (length aps)).
Proof.
  intros Q P. unfold prep_pin in P. apply (rounds_inv 12 0 [] [] [] aps); auto; try lia.
  constructor; cbn [map In].
  - reflexivity.
  - intros g [].
  - constructor.
  - constructor.
  - intros q. tauto.
  - intros l r p low high C. pose proof (cand_range _ _ _ _ _ _ C). lia.
  - intros a [].
Qed.

Lemma recorded_cand aps a : 0 < quota E -> prep_pin E = Some aps -> In a aps ->
  exists r, candidate E (ap_layer a) r (ap_pt a) (ap_low a) (ap_high a).
Proof.
  intros Q P J. destruct (prep_inv aps Q P) as (k & G & s & I & _). rewrite (i_aps _ _ _ _ _ I) in J.
  apply filter_In in J. destruct J as [J _]. apply in_map_iff in J. destruct J as (g & <- & J).
  destruct (i_made _ _ _ _ _ I g J) as [[_ M] _]. exact M.
Qed.

(* --- what follows -------------------------------------------------------------------------------- *)
Hypothesis VA : forall l v, In v (firstn 2 (e_vias E (l + 1))) -> bleft (v_box1 v) < bright (v_box1 v).
Variables (aps : list ap) (QP : 0 < quota E) (PP : prep_pin E = Some aps).

(* every recorded access point is the check of a place of the pin *)
Lemma recorded a : In a aps -> a = checked E (ap_layer a) (ap_pt a) (ap_low a) (ap_high a) /\
  (exists r, candidate E (ap_layer a) r (ap_pt a) (ap_low a) (ap_high a)) /\ worth E (ap_layer a) (ap_pt a) (ap_low a) (ap_high a).
Proof.
  intros J. destruct (prep_inv aps QP PP) as (k & G & s & I & _). rewrite (i_aps _ _ _ _ _ I) in J.
  apply filter_In in J. destruct J as [J KP]. apply in_map_iff in J. destruct J as (g & <- & J).
  destruct (i_made _ _ _ _ _ I g J) as [[M (r & C)] _].
  assert (Q : check_ap E g = checked E (ap_layer g) (ap_pt g) (ap_low g) (ap_high g)) by (unfold checked; rewrite <- M; auto).
  change (ap_layer (check_ap E g)) with (ap_layer g). change (ap_pt (check_ap E g)) with (ap_pt g).
  change (ap_low (check_ap E g)) with (ap_low g). change (ap_high (check_ap E g)) with (ap_high g).
  split; auto. split; [eauto|]. apply keep_iff; auto. rewrite <- Q. auto.
Qed.

Lemma NoDup_filter_map G : NoDup (map key G) -> NoDup (map key (filter (keep E) (map (check_ap E) G))).
Proof.
  induction G as [|g G IH]; cbn [map filter]; intros N; [constructor|]. inversion N as [|? ? N1 N2]; subst.
  destruct (keep E (check_ap E g)); cbn [map]; auto. constructor; auto. rewrite check_key. intros J.
  apply N1. apply in_map_iff in J. destruct J as (x & Q & J). apply filter_In in J. destruct J as [J _].
  apply in_map_iff in J. destruct J as (y & <- & J). rewrite check_key in Q. rewrite <- Q. apply in_map. auto.
Qed.
Lemma recorded_once : NoDup (map key aps).
Proof.
  destruct (prep_inv aps QP PP) as (k & G & s & I & _). rewrite (i_aps _ _ _ _ _ I). apply NoDup_filter_map. apply (i_dup _ _ _ _ _ I).
Qed.

Lemma sorted_filter_map G : StronglySorted costle G -> StronglySorted costle (filter (keep E) (map (check_ap E) G)).
Proof.
  induction 1 as [|g G S IH F]; cbn [map filter]; [constructor|]. destruct (keep E (check_ap E g)); auto. constructor; auto.
  apply Forall_forall. intros x J. apply filter_In in J. destruct J as [J _]. apply in_map_iff in J. destruct J as (y & <- & J).
  unfold costle. rewrite !check_cost. rewrite Forall_forall in F. apply F. auto.
Qed.
Lemma recorded_sorted : StronglySorted costle aps.
Proof.
  destruct (prep_inv aps QP PP) as (k & G & s & I & _). rewrite (i_aps _ _ _ _ _ I). apply sorted_filter_map. apply (i_sort _ _ _ _ _ I).
Qed.

Lemma recorded_few a : In a aps -> cheaper (ap_cost a) aps < quota E.
Proof. destruct (prep_inv aps QP PP) as (k & G & s & I & _). apply (i_few _ _ _ _ _ I). Qed.

Lemma recorded_all l r p low high : candidate E l r p low high -> worth E l p low high ->
  (exists a, In a aps /\ ap_pt a = p /\ ap_layer a = l /\ ap_low a <= low /\ ap_high a = high) \/
  quota E <= cheaper (low + 4 * high) aps.
Proof.
  intros C W. destruct (prep_inv aps QP PP) as (k & G & s & I & ST).
  pose proof (cand_range _ _ _ _ _ _ C) as CR.
  (* the points recorded at cost at least that of the candidate come from rounds not before its own *)
  destruct (Z.lt_ge_cases (low + 4 * high) k) as [L|L].
  - destruct (i_all _ _ _ _ _ I _ _ _ _ _ C L) as (g & J & KG & CG).
    injection KG as KP KL. destruct (i_made _ _ _ _ _ I g J) as [[M (r' & C')] _].
    rewrite KP, KL in C'. pose proof (cand_high _ _ _ _ _ _ _ _ _ C C') as HH. pose proof (cand_range _ _ _ _ _ _ C') as CR'.
    left. exists (check_ap E g). split; [|split; [auto|split; [auto|split; [|symmetry; auto]]]].
    2: { change (ap_low (check_ap E g)) with (ap_low g). unfold ap_cost in CG. lia. }
      rewrite (i_aps _ _ _ _ _ I). apply filter_In. split; [apply in_map; auto|].
      assert (Q : check_ap E g = checked E l p (ap_low g) high) by (unfold checked; rewrite <- KP, <- KL, HH, <- M; auto).
      rewrite Q. apply keep_iff; auto. apply worth_mono with (low := low); auto; unfold ap_cost in CG; lia.
  - right. destruct ST as [ST|ST]; [lia|]. unfold cheaper. rewrite filter_all; auto. intros a J.
    rewrite (i_aps _ _ _ _ _ I) in J. apply filter_In in J. destruct J as [J _]. apply in_map_iff in J.
    destruct J as (g & <- & J). rewrite check_cost. destruct (i_made _ _ _ _ _ I g J). lia.
Qed.
End Rounds.
