From Verif Require Import Base Stl GeomModel GeomSpec GeomProofs TechModel GcModel GcSpec GcProofs GcProofs2 GcProofs3
  EolModel StepModel CornModel CostModel CutModel CutSpec CutProofs CutProofs2 Cs8Model Cs8Spec.

(* ---- cut classes ---- *)
Lemma class_from_spec cs w len : forall k f,
  (class_from k cs w len f = f /\ (forall j, nth_error cs j <> Some (w, len))) \/
  (exists n, class_from k cs w len f = k + Z.of_nat n /\ nth_error cs n = Some (w, len) /\
     forall j, (n < j)%nat -> nth_error cs j <> Some (w, len)).
Proof.
  induction cs as [|c cs IH]; intros k f; cbn [class_from].
  - left. split; [reflexivity|]. intros [|j]; discriminate.
  - destruct (IH (k + 1) (if (fst c =? w) && (snd c =? len) then k else f)) as [[E H]|(n & E & N & H)].
    + rewrite E. destruct ((fst c =? w) && (snd c =? len)) eqn:M.
      * right. exists 0%nat. split; [lia|]. destruct c as [a b]. cbn [fst snd] in M. split.
        -- cbn. f_equal. f_equal; lia.
        -- intros [|j] J; [lia|]. apply H.
      * left. split; [reflexivity|]. intros [|j]; [|apply H]. cbn. destruct c as [a b]. cbn [fst snd] in M.
        intros X. injection X as -> ->. rewrite !Z.eqb_refl in M. discriminate.
    + right. exists (S n). split; [rewrite E; lia|]. split; [exact N|]. intros [|j] J; [lia|]. apply H. lia.
Qed.
Lemma class_iff V l r i : 0 <= i -> (class_idx V l r = i <-> of_class (w8_classes V l) i r).
Proof.
  intros Hi. unfold class_idx, of_class. change (box_width (gbox r)) with (Z.min (deltaX (gbox r)) (deltaY (gbox r))).
  change (box_length (gbox r)) with (Z.max (deltaX (gbox r)) (deltaY (gbox r))).
  set (w := Z.min _ _). set (len := Z.max _ _). clearbody w len.
  destruct (class_from_spec (w8_classes V l) w len 0 (-1)) as [[E H]|(n & E & N & H)]; rewrite E.
  - split; [lia|]. intros (w' & len' & _ & X & -> & -> & _). exfalso. exact (H _ X).
  - split.
    + intros <-. rewrite Z.add_0_l, Nat2Z.id. exists w, len. split; [lia|]. auto.
    + intros (w' & len' & _ & X & -> & -> & H'). destruct (Nat.lt_trichotomy n (Z.to_nat i)) as [L|[L|L]].
      * exfalso. exact (H _ L X).
      * lia.
      * exfalso. exact (H' _ L N).
Qed.
Lemma about_iff V l y r : classes_ok V l -> In y (w8_rules V l) ->
  ((class_idx V l r =? rule_class y) = true <-> about V l y r).
Proof.
  intros CK I. specialize (CK y I). unfold about, rule_class. destruct (y_class y) as [i|].
  - rewrite Z.eqb_eq. apply class_iff. lia.
  - unfold class_idx. rewrite CK. cbn. tauto.
Qed.

(* ---- adjacent cuts ---- *)
Definition seen8 (V : worker8) (l : Z) (y : rule8) (r o : grect) : bool :=
  (dist8 y (gbox r) (gbox o) <? y_within y * y_within y) && (class_idx V l o =? rule_class y).
Lemma count8_length V l y r : forall os a,
  fold_left (fun cnt o =>
    if dist8 y (gbox r) (gbox o) >=? y_within y * y_within y then cnt
    else if class_idx V l o =? rule_class y then cnt + 1 else cnt) os a =
  a + Z.of_nat (length (filter (seen8 V l y r) os)).
Proof.
  induction os as [|o os IH]; intros a; cbn [fold_left filter]; [cbn; lia|].
  rewrite IH. unfold seen8 at 2. rewrite Z.geb_leb.
  destruct (Z.leb_spec (y_within y * y_within y) (dist8 y (gbox r) (gbox o)));
    destruct (Z.ltb_spec (dist8 y (gbox r) (gbox o)) (y_within y * y_within y)); try lia; cbn [andb].
  - reflexivity.
  - destruct (class_idx V l o =? rule_class y); cbn [length]; lia.
Qed.
Lemma dist8_nonneg y a b : 0 <= dist8 y a b.
Proof.
  unfold dist8. destruct (y_c2c y); [unfold c2c_square|unfold gap_square; cbv zeta];
    apply Z.add_nonneg_nonneg; apply Z.square_nonneg.
Qed.
Lemma dist8_self y a : normalised a -> dist8 y a a = 0.
Proof.
  intros H. unfold dist8. destruct (y_c2c y); [unfold c2c_square; rewrite !Z.sub_diag; reflexivity|].
  apply gap_self. exact H.
Qed.
Lemma near8 y a b v : normalised a -> normalised b -> (nearer_than (y_c2c y) a b v <-> dist8 y a b < v * v).
Proof. intros. unfold dist8. apply nearer_iff; assumption. Qed.

Lemma crowd_iff V l y n r : good_worker (w8 V) -> classes_ok V l -> In y (w8_rules V l) -> In r (q_rects (w8 V) l) ->
  0 <= y_within y -> 1 <= n -> about V l y r ->
  (n <= count8 V l y r <-> crowd V l y n r).
Proof.
  intros (GN & GD & GI) CK Iy I Hw Hn Ab. unfold count8, crowd. rewrite count8_length.
  set (fs := filter _ _). pose proof (GN l r I) as Nr.
  assert (FI : forall o, In o fs <-> In o (q_rects (w8 V) l) /\ about V l y o /\ nearer_than (y_c2c y) (gbox r) (gbox o) (y_within y)).
  { intros o. unfold fs. rewrite filter_In. unfold seen8. rewrite andb_true_iff, Z.ltb_lt, about_iff by assumption. split.
    - intros [A [B C]]. apply filter_In in A as [A _]. split; [exact A|]. split; [exact C|].
      apply near8; auto. exact (GN l o A).
    - intros (A & B & C). pose proof (GN l o A) as No. split.
      + eapply nearer_found; eauto. lia.
      + split; [apply near8; auto|exact B]. }
  assert (ND : NoDup fs) by (unfold fs, q_find; apply NoDup_filter, NoDup_filter, GD).
  assert (Self : (exists o, In o fs) -> In r fs).
  { intros (o & Io). apply FI in Io as (A & _ & B). apply FI. split; [exact I|]. split; [exact Ab|].
    apply near8; auto. pose proof (GN l o A) as No. apply near8 in B; auto.
    pose proof (dist8_nonneg y (gbox r) (gbox o)). rewrite dist8_self by assumption. lia. }
  split.
  - intros H.
    assert (If : In r fs).
    { apply Self. destruct fs as [|o fs']; [cbn in H; lia|]. exists o. left. reflexivity. }
    apply in_split in If as (p & q & E). exists (p ++ q). rewrite E in ND, H.
    apply NoDup_remove in ND as [ND NI]. split; [exact ND|]. split.
    + rewrite app_length in *. cbn [length] in H. lia.
    + intros o Io. assert (Io' : In o fs) by (rewrite E; apply in_app_iff in Io; apply in_app_iff; cbn; tauto).
      apply FI in Io' as (A & B & C). split; [exact A|]. split; [congruence|]. split; assumption.
  - intros (os & NDo & Len & H).
    assert (exists o, In o os) as (o & Io).
    { destruct os as [|o ?]; [cbn in Len; lia|]. exists o. left. reflexivity. }
    assert (Ir : In r fs). { apply Self. exists o. apply FI. destruct (H o Io) as (? & _ & ? & ?). auto. }
    assert (Inc : incl (r :: os) fs).
    { intros x [<- |Ix]; [exact Ir|]. apply FI. destruct (H x Ix) as (? & _ & ? & ?). auto. }
    assert (NDr : NoDup (r :: os)). { constructor; [|exact NDo]. intros Ix. destruct (H r Ix) as (_ & ? & _). congruence. }
    pose proof (NoDup_incl_length NDr Inc) as LL. cbn [length] in LL. lia.
Qed.
Lemma asked8_iff V l y r o v n : y_adj y = Some n -> (asked8 V l y r o v <-> v = req8 V l y r o).
Proof.
  intros E. unfold asked8, req8. rewrite E. pose proof (big_iff (w8 V) l r) as B1. pose proof (big_iff (w8 V) l o) as B2.
  destruct (big_obs (w8 V) l r) eqn:E1; [|destruct (big_obs (w8 V) l o) eqn:E2]; cbn [orb];
      split; intros H; intuition congruence.
Qed.
Lemma req8_range V l y r o : 0 <= y_spc y -> 0 <= y_within y -> 0 <= req8 V l y r o <= reach8 y.
Proof.
  intros. unfold req8, reach8. destruct (y_adj y); [|lia]. destruct (big_obs (w8 V) l r || big_obs (w8 V) l o); lia.
Qed.

(* ---- what a check of one cut adds ---- *)
Definition adj_found (V : worker8) (l : Z) (y : rule8) (r o : grect) (m : marker) : Prop :=
  y_second y = None /\ exists n, y_adj y = Some n /\
    adj_cut V l y n r o (g_marker (pair_geom (gbox r) (gbox o))) = Some m.
Definition corner_found (V : worker8) (l : Z) (y : rule8) (r o : grect) (m : marker) : Prop :=
  exists s i, y_second y = Some s /\ y_stack y = false /\ y_orth y = false /\ y_class y = Some i /\ class_idx V l r = i /\
    y_short y = false /\ box_contains_box (gbox o) (gbox r) true = true /\
    exists k, In k (q_corners V s (gbox o)) /\
      ((y_concave y = true /\ concave8 l y r o k = Some m) \/
       (y_concave y = false /\ y_ext y = false /\ exists eol, y_eol y = Some eol /\ convex8 l y eol r o k = Some m)).
Definition pair_found (V : worker8) (l : Z) (y : rule8) (r o : grect) (m : marker) : Prop :=
  gid r <> gid o /\ nets_of y r o /\ (adj_found V l y r o m \/ corner_found V l y r o m).
Lemma grows_none (P : marker -> Prop) ms : (forall m, ~ P m) -> grows P ms ms.
Proof. intros H. split; [apply incl_refl|]. split; [intros m X; destruct (H m X)|auto]. Qed.
Lemma layer_grows V l s y r o ms : y_second y = Some s -> grows (corner_found V l y r o) ms (layer_check V l s y r o ms).
Proof.
  intros Es. unfold layer_check.
  destruct (y_stack y) eqn:E1; [apply grows_none; intros m (s' & i & A); intuition congruence|].
  destruct (y_orth y) eqn:E2; [apply grows_none; intros m (s' & i & A); intuition congruence|].
  destruct (y_class y) as [i|] eqn:E3; [|apply grows_none; intros m (s' & i & A); intuition congruence].
  destruct (Z.eqb_spec (class_idx V l r) i) as [E4|E4]; cbn [negb];
    [|apply grows_none; intros m (s' & i' & A); intuition congruence].
  destruct (y_short y) eqn:E5; [apply grows_none; intros m (s' & i' & A); intuition congruence|].
  destruct (y_concave y) eqn:E6.
  - destruct (box_contains_box (gbox o) (gbox r) true) eqn:E7; cbn [negb];
      [|apply grows_none; intros m (s' & i' & A); intuition congruence].
    eapply grows_ext; [|apply (fold_grows _ (fun k m => concave8 l y r o k = Some m)); intros; apply add_opt_grows].
    intros m. split.
    + intros (k & Ik & H). exists s, i. do 7 (split; [assumption|]). exists k. split; [exact Ik|]. left. auto.
    + intros (s' & i' & S' & _ & _ & _ & _ & _ & _ & k & Ik & [[_ H]|[H _]]); [|congruence].
      rewrite Es in S'. injection S' as <-. eauto.
  - destruct (y_ext y) eqn:E8.
    { apply grows_none. intros m (s' & i' & _ & _ & _ & _ & _ & _ & _ & k & _ & [[? _]|(_ & ? & _)]); congruence. }
    destruct (y_eol y) as [eol|] eqn:E9.
    2: { apply grows_none. intros m (s' & i' & _ & _ & _ & _ & _ & _ & _ & k & _ & [[? _]|(_ & _ & e & ? & _)]); congruence. }
    destruct (box_contains_box (gbox o) (gbox r) true) eqn:E7; cbn [negb];
      [|apply grows_none; intros m (s' & i' & A); intuition congruence].
    eapply grows_ext; [|apply (fold_grows _ (fun k m => convex8 l y eol r o k = Some m)); intros; apply add_opt_grows].
    intros m. split.
    + intros (k & Ik & H). exists s, i. do 7 (split; [assumption|]). exists k. split; [exact Ik|]. right. eauto.
    + intros (s' & i' & S' & _ & _ & _ & _ & _ & _ & k & Ik & [[H _]|(_ & _ & e & He & H)]); [congruence|].
      rewrite Es in S'. injection S' as <-. assert (eol = e) by congruence. subst e. eauto.
Qed.
Lemma pair_grows V l y r o ms : grows (pair_found V l y r o) ms (pair8 V l y r o ms).
Proof.
  unfold pair8, pair_found. destruct (Z.eqb_spec (gid r) (gid o)) as [E|E].
  { apply grows_none. tauto. }
  destruct (y_same y && negb (gnet r =? gnet o)) eqn:N.
  { apply grows_none. intros m (_ & H & _). unfold nets_of in H. apply andb_true_iff in N as [N1 N2]. specialize (H N1). lia. }
  assert (NO : nets_of y r o). { intros S. rewrite S in N. cbn in N. lia. }
  destruct (y_second y) as [s|] eqn:S.
  - eapply grows_ext; [|apply layer_grows; exact S]. intros m. split; [tauto|].
    intros (_ & _ & [[H _]|H]); [congruence|exact H].
  - assert (NC : forall m, ~ corner_found V l y r o m) by (intros m (s & i & H & _); congruence).
    destruct (y_adj y) as [n|] eqn:A.
    + eapply grows_ext; [|apply add_opt_grows]. intros m. split.
      * intros H. split; [exact E|]. split; [exact NO|]. left. split; [exact S|]. eauto.
      * intros (_ & _ & [(_ & n' & A' & H)|H]); [|destruct (NC m H)]. assert (n = n') by congruence. subst n'. exact H.
    + apply grows_none. intros m (_ & _ & [(_ & n' & A' & H)|H]); [congruence|exact (NC m H)].
Qed.
Definition layer8 (l : Z) (y : rule8) : Z := match y_second y with Some s => s | None => l end.
Definition near_rects (V : worker8) (l : Z) (y : rule8) (r : grect) : list grect :=
  q_find (w8 V) (layer8 l y) (my_bloat (gbox r) (reach8 y)).
Lemma rule_grows V l r skip y ms :
  grows (fun m => exists o, In o (near_rects V l y r) /\ (skip = true -> gnet r = gnet o) /\ pair_found V l y r o m) ms (rule_check8 V l r skip ms y).
Proof.
  unfold rule_check8. fold (layer8 l y). fold (near_rects V l y r).
  apply (fold_grows _ (fun o m => (skip = true -> gnet r = gnet o) /\ pair_found V l y r o m)).
  intros o ms'. destruct (skip && negb (gnet r =? gnet o)) eqn:S.
  - apply grows_none. intros m [H _]. apply andb_true_iff in S as [S1 S2]. specialize (H S1). lia.
  - eapply grows_ext; [|apply pair_grows]. intros m. split; [|tauto]. intros H. split; [|exact H].
    intros ->. cbn in S. lia.
Qed.
Lemma grows_trans (P Q : marker -> Prop) a b c : grows P a b -> grows Q b c -> grows (fun m => P m \/ Q m) a c.
Proof.
  intros (A1 & B1 & C1) (A2 & B2 & C2). split; [eapply incl_tran; eauto|]. split.
  - intros m [H|H]; [eapply reports_incl; [exact A2|auto]|auto].
  - intros m I. destruct (C2 m I) as [I'|H]; [|auto]. destruct (C1 m I'); auto.
Qed.
(* a SAMENET rule of the layer, if there is one *)
Definition hides (V : worker8) (l : Z) : Prop := exists y, In y (w8_rules V l) /\ y_same y = true.
Definition rule_found (V : worker8) (l : Z) (y : rule8) (r o : grect) (m : marker) : Prop :=
  In y (w8_rules V l) /\ In o (near_rects V l y r) /\ (hides V l -> gnet r = gnet o) /\ pair_found V l y r o m.
Lemma rules8_In V l same y : In y (rules8 V l same) <-> In y (w8_rules V l) /\ y_same y = same.
Proof. unfold rules8. rewrite filter_In. destruct (y_same y), same; cbn; intuition congruence. Qed.
Lemma check8_grows V l r ms : grows (fun m => exists y o, rule_found V l y r o m) ms (check8 V l ms r).
Proof.
  unfold check8. set (skip := match rules8 V l true with [] => false | _ => true end).
  assert (SK : skip = true <-> hides V l).
  { unfold skip, hides. split.
    - destruct (rules8 V l true) as [|y ys] eqn:E; [discriminate|]. intros _. exists y. apply rules8_In. rewrite E. left. reflexivity.
    - intros (y & Hy). apply rules8_In in Hy. destruct (rules8 V l true); [destruct Hy|reflexivity]. }
  clearbody skip.
  eapply grows_ext; [|eapply grows_trans].
  2: { apply (fold_grows (rule_check8 V l r false) (fun y m => exists o, In o (near_rects V l y r) /\ (false = true -> gnet r = gnet o) /\ pair_found V l y r o m)).
       intros. apply rule_grows. }
  2: { apply (fold_grows (rule_check8 V l r skip) (fun y m => exists o, In o (near_rects V l y r) /\ (skip = true -> gnet r = gnet o) /\ pair_found V l y r o m)).
       intros. apply rule_grows. }
  intros m. cbv beta. split.
  - intros [(y & Iy & o & Io & _ & H)|(y & Iy & o & Io & S & H)]; exists y, o; apply rules8_In in Iy as [Iy Sy].
    + split; [exact Iy|]. split; [exact Io|]. split; [|exact H]. intros _. destruct H as (_ & N & _). exact (N Sy).
    + split; [exact Iy|]. split; [exact Io|]. split; [|exact H]. intros X. apply S, SK, X.
  - intros (y & o & Iy & Io & S & H). destruct (y_same y) eqn:Sy.
    + left. exists y. split; [apply rules8_In; auto|]. exists o. split; [exact Io|]. split; [discriminate|exact H].
    + right. exists y. split; [apply rules8_In; auto|]. exists o. split; [exact Io|]. split; [intros X; apply S, SK, X|exact H].
Qed.
Lemma cut_check_grows W l r ms :
  grows (fun m => exists c, In c (all_rules W l) /\ found W l r c m) ms (cut_check W l ms r).
Proof. unfold cut_check. apply fold_grows. intros c ms'. apply cut_rule_grows. Qed.
Lemma check_cuts8_grows V rs ms :
  grows (fun m => exists l r, In (l, r) rs /\
           ((exists c, In c (all_rules (w8 V) l) /\ found (w8 V) l r c m) \/ (exists y o, rule_found V l y r o m)))
        ms (check_cuts8 V rs ms).
Proof.
  unfold check_cuts8. eapply grows_ext.
  2: { apply (fold_grows _ (fun x m => (exists c, In c (all_rules (w8 V) (fst x)) /\ found (w8 V) (fst x) (snd x) c m) \/
                                       (exists y o, rule_found V (fst x) y (snd x) o m))).
       intros [l r] ms'. cbn [fst snd]. eapply grows_trans; [apply cut_check_grows|apply check8_grows]. }
  intros m. split.
  - intros ([l r] & I & H). exists l, r. split; [exact I|exact H].
  - intros (l & r & I & H). exists (l, r). split; [exact I|exact H].
Qed.
