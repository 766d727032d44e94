From Verif Require Import Base GeomModel GeomSpec GridModel GridSpec GridProofs GridProofs2 MazeModel MazeSpec MazeAbs MazeProofs NetModel NetSpec NetProofs NetProofs2.
From Coq Require Import Permutation.

(* ---- connectivity ---- *)
Lemma joined_incl fs fs' p q : incl fs fs' -> joined fs p q -> joined fs' p q.
Proof.
  intros I. induction 1; [apply joined_refl|eapply joined_step; eauto|apply joined_sym; assumption|eapply joined_trans; eassumption].
Qed.
Lemma up_step_cases p q : up_step p q = (p, q) \/ up_step p q = (q, p).
Proof. unfold up_step. zcases; auto. Qed.
Lemma walk_joined fs : forall w, incl (walk_steps w) (flat_map unit_steps fs) -> forall a q, In q (a :: w) ->
  incl (walk_steps (a :: w)) (flat_map unit_steps fs) -> joined fs a q.
Proof.
  induction w as [|b w IH]; intros H a q Hq I.
  - destruct Hq as [<-|[]]. apply joined_refl.
  - destruct Hq as [<-|Hq]; [apply joined_refl|].
    rewrite walk_steps_cons2 in I.
    assert (J : joined fs a b).
    { assert (K : In (up_step a b) (flat_map unit_steps fs)) by (apply I; cbn; auto).
      apply in_flat_map in K as (f & Hf & K). destruct (up_step_cases a b) as [E|E]; rewrite E in K.
      - eapply joined_step; eassumption.
      - apply joined_sym. eapply joined_step; eassumption. }
    eapply joined_trans; [exact J|]. apply IH; [|assumption|].
    + intros x Hx. apply H. destruct w as [|c w]; [destruct Hx|]. rewrite walk_steps_cons2. cbn. auto.
    + intros x Hx. apply I. cbn. auto.
Qed.
Lemma path_joined g rap last p a w fs q : bends last p (a :: w) -> incl (writePath g rap p) fs -> In q (a :: w) ->
  joined fs a q.
Proof.
  intros B I Hq. destruct (writePath_spec g rap last p (a :: w) B) as [P _].
  assert (K : incl (walk_steps (a :: w)) (flat_map unit_steps fs)).
  { intros x Hx. apply (Permutation_in _ (Permutation_sym P)) in Hx. apply in_flat_map in Hx as (f & Hf & Hx).
    apply in_flat_map. exists f. auto. }
  apply (walk_joined fs w); auto. intros x Hx. apply K. destruct w as [|c w]; [destruct Hx|]. rewrite walk_steps_cons2. cbn. auto.
Qed.
Lemma walk_steps_in w : forall u v, In (u, v) (walk_steps w) -> In u w /\ In v w.
Proof.
  induction w as [|a w IH]; intros u v H; [destruct H|]. destruct w as [|b w]; [destruct H|].
  rewrite walk_steps_cons2 in H. destruct H as [H|H].
  - destruct (up_step_cases a b) as [E|E]; rewrite E in H; injection H as <- <-; cbn; auto.
  - apply IH in H. cbn in *. tauto.
Qed.

(* ---- points of a bend list ---- *)
Lemma in_span a d n q : d <> DUnk ->
  In q (span_points a (stepn a d (Z.of_nat (S n)))) <-> In q (a :: run a d (S n)).
Proof.
  intros Hd. rewrite in_run. destruct a as [x y z]. set (k := Z.of_nat (S n)). assert (0 < k) by lia.
  unfold span_points. destruct d; try contradiction; cbn [stepn mx my mz]; rewrite !Z.eqb_refl;
  [replace (z =? z - k) with false by lia|replace (y =? y - k) with false by lia|replace (x =? x - k) with false by lia
  |replace (x =? x + k) with false by lia|replace (y =? y + k) with false by lia|replace (z =? z + k) with false by lia];
  cbn [negb andb]; rewrite in_map_iff; split.
  all: try (intros (u & <- & Hu); apply zrange_in in Hu).
  all: try (intros (u & Hu & ->)).
  - exists (z - u). split; [lia|]. f_equal; lia.
  - exists (z - u). split; [reflexivity|]. apply zrange_in. lia.
  - exists (y - u). split; [lia|]. f_equal; lia.
  - exists (y - u). split; [reflexivity|]. apply zrange_in. lia.
  - exists (x - u). split; [lia|]. f_equal; lia.
  - exists (x - u). split; [reflexivity|]. apply zrange_in. lia.
  - exists (u - x). split; [lia|]. f_equal; lia.
  - exists (x + u). split; [reflexivity|]. apply zrange_in. lia.
  - exists (u - y). split; [lia|]. f_equal; lia.
  - exists (y + u). split; [reflexivity|]. apply zrange_in. lia.
  - exists (u - z). split; [lia|]. f_equal; lia.
  - exists (z + u). split; [reflexivity|]. apply zrange_in. lia.
Qed.
Lemma bends_hd last p w : bends last p w -> exists a p' w', p = a :: p' /\ w = a :: w' /\ (w' <> [] -> p' <> []).
Proof.
  intros H. destruct H; [exists a, [], []; auto|]. eexists a, _, _. split; [reflexivity|]. split; [reflexivity|]. discriminate.
Qed.
Lemma path_points_in last p w : bends last p w -> (2 <= length w)%nat -> forall q, In q (path_points p) <-> In q w.
Proof.
  induction 1 as [last a|last d n a b r w Hd Hl Hb H IH]; intros L q; [cbn in L; lia|].
  rewrite last_run in Hb.
  change (path_points (a :: b :: r)) with (span_points a b ++ path_points (b :: r)).
  rewrite in_app_iff. subst b. rewrite (in_span a d n q Hd).
  assert (Hb : In (stepn a d (Z.of_nat (S n))) (a :: run a d (S n))).
  { apply in_run. exists (Z.of_nat (S n)). split; [lia|reflexivity]. }
  destruct w as [|c w].
  - assert (path_points (stepn a d (Z.of_nat (S n)) :: r) = []) as ->.
    { inversion H; subst; reflexivity. }
    change (a :: run a d (S n) ++ []) with ((a :: run a d (S n)) ++ []). rewrite in_app_iff. cbn [In]. tauto.
  - rewrite (IH ltac:(cbn; lia)). change (a :: run a d (S n) ++ c :: w) with ((a :: run a d (S n)) ++ c :: w).
    rewrite in_app_iff. cbn [In] in *. intuition (subst; auto).
Qed.

Section Flags.
Lemma fold_setSrc l : forall g, (forall p, In p l -> valid g p) ->
  fr g (fold_left setSrc l g) /\ gdst (fold_left setSrc l g) = gdst g /\
  (forall q, valid g q -> isSrc (fold_left setSrc l g) q = true <-> In q l \/ isSrc g q = true).
Proof.
  induction l as [|a l IH]; intros g V; cbn [fold_left].
  - split; [apply fr_refl|]. split; [reflexivity|]. cbn. tauto.
  - destruct (IH (setSrc g a)) as (F & D & S).
    { intros p Hp. apply (fr_valid g); [apply fr_setSrc|]. apply V. cbn. auto. }
    split; [eapply fr_trans; [apply fr_setSrc|exact F]|]. split; [rewrite D; reflexivity|].
    intros q Hq. rewrite S by (apply (fr_valid g); [apply fr_setSrc|assumption]).
    rewrite isSrc_setSrc by (auto; apply V; cbn; auto). rewrite orb_true_iff, mi_eq_spec. cbn. intuition.
Qed.
Lemma fold_resetSrc l : forall g, fr g (fold_left resetSrc l g) /\ gdst (fold_left resetSrc l g) = gdst g.
Proof.
  induction l as [|a l IH]; intros g; cbn [fold_left]; [split; [apply fr_refl|reflexivity]|].
  destruct (IH (resetSrc g a)) as (F & D). split; [eapply fr_trans; [apply fr_resetSrc|exact F]|rewrite D; reflexivity].
Qed.
Lemma isDst_eq g h p : fr g h -> gdst h = gdst g -> isDst h p = isDst g p.
Proof. intros F D. unfold isDst. rewrite D, (fr_idx g h p F). reflexivity. Qed.
Lemma isSrc_eq g h p : fr g h -> gsrc h = gsrc g -> isSrc h p = isSrc g p.
Proof. intros F D. unfold isSrc. rewrite D, (fr_idx g h p F). reflexivity. Qed.
Lemma drel_eq g h R : fr g h -> gdst h = gdst g -> drel g R -> drel h R.
Proof. intros F D H k Hk. rewrite (isDst_eq g h k F D). apply H. apply (fr_valid g h); assumption. Qed.
End Flags.

Section Prep.
Variable pins : list dpin.
Hypothesis pins_nodup : NoDup (map pid pins).
Lemma prep_aps p aps : In p pins -> forall g (unc : list dpin) m (rap : list midx) R, mrel m R -> drel g R -> rok pins R -> (forall a, In a aps -> valid g a) ->
  let '(g', unc', m', _) := fold_left (fun '(g, unc, m, rap) mi =>
      (setDst g mi, unc, pmap_upd m mi (pset_ins p), if preal p then mset_ins mi rap else rap)) aps (g, unc, m, rap) in
  let R' := fun k q => R k q \/ (In k aps /\ q = p) in
  unc' = unc /\ mrel m' R' /\ drel g' R' /\ fr g g' /\ gsrc g' = gsrc g.
Proof.
  intros Hp. induction aps as [|a l IH]; intros g unc m rap R M D K V.
  - cbn. split; [reflexivity|]. split; [eapply mrel_ext; [|exact M]; tauto|]. split; [eapply drel_ext; [|exact D]; tauto|]. split; [apply fr_refl|reflexivity].
  - cbn [fold_left]. set (R1 := fun k q => R k q \/ (k = a /\ q = p)).
    assert (Va : valid g a) by (apply V; cbn; auto).
    assert (M1 : mrel (pmap_upd m a (pset_ins p)) R1).
    { split.
      - intros k q. rewrite pmap_find_upd. destruct (mi_eq a k) eqn:E.
        + apply mi_eq_spec in E. subst k.
          set (s := match pmap_find m a with Some s => s | None => [] end).
          assert (Hs : forall q, In q s <-> R a q).
          { intros q'. unfold s. destruct (pmap_find m a) as [s'|] eqn:F; [apply (mrel_find m R a s' M F)|].
            cbn. split; [contradiction|apply (mrel_none m R a M F)]. }
          assert (Is : incl s pins) by (intros x Hx; apply Hs in Hx; eapply K; eassumption).
          split.
          * intros (s' & [= <-] & H). apply (in_pset_ins pins pins_nodup p s q Is Hp) in H as [->|H]; unfold R1; [tauto|]. left. apply Hs. assumption.
          * intros H. eexists. split; [reflexivity|]. apply (in_pset_ins pins pins_nodup p s q Is Hp). rewrite Hs. unfold R1 in H. tauto.
        + rewrite (proj1 M k q). unfold R1. split; [tauto|]. intros [H|[-> _]]; [assumption|]. rewrite mi_eq_refl in E. discriminate.
      - apply (pmap_upd_forall (fun s => s <> [])); [apply M|]. intros s _. destruct s as [|x r]; cbn; [discriminate|]. zcases; discriminate. }
    assert (D1 : drel (setDst g a) R1).
    { intros k Hk. rewrite (fr_valid g) in Hk by apply fr_setDst. rewrite isDst_setDst by assumption.
      rewrite orb_true_iff, mi_eq_spec, (D k Hk). unfold R1. split.
      - intros [->|(q & Hq)]; [exists p; auto|exists q; auto].
      - intros (q & [Hq|[-> _]]); [right; eauto|auto]. }
    specialize (IH (setDst g a) unc (pmap_upd m a (pset_ins p)) (if preal p then mset_ins a rap else rap) R1 M1 D1).
    specialize (IH ltac:(intros k q [H|[_ ->]]; [eapply K; eassumption|assumption])).
    specialize (IH ltac:(intros x Hx; apply (fr_valid g); [apply fr_setDst|apply V; cbn; auto])).
    destruct (fold_left _ l _) as [[[g' unc'] m'] rap']. destruct IH as (A & B & C & F & S).
    split; [assumption|]. split; [eapply mrel_ext; [|exact B]|].
    + intros k q. unfold R1. cbn. assert (a = k <-> k = a) by (split; congruence). tauto.
    + split; [eapply drel_ext; [|exact C]; intros k q; unfold R1; cbn; assert (a = k <-> k = a) by (split; congruence); tauto|].
      split; [eapply fr_trans; [apply fr_setDst|exact F]|rewrite S; reflexivity].
Qed.
Lemma pset_ins_len p s : (length (pset_ins p s) <= S (length s))%nat.
Proof. induction s as [|a r IH]; cbn; [lia|]. zcases; cbn; lia. Qed.
Lemma prep_spec ps : incl ps pins -> forall g unc m rap, incl unc pins ->
  mrel m (Runc unc) -> drel g (Runc unc) -> (forall p a, In p pins -> In a (paps p) -> valid g a) ->
  let '(g', unc', m', _) := fold_left prep_pin ps (g, unc, m, rap) in
  incl unc' pins /\ (forall q, In q unc' <-> In q unc \/ In q ps) /\ (length unc' <= length unc + length ps)%nat /\
  mrel m' (Runc unc') /\ drel g' (Runc unc') /\ fr g g' /\ gsrc g' = gsrc g.
Proof.
  induction ps as [|p l IH]; intros I g unc m rap Hu M D V; cbn [fold_left].
  - split; [assumption|]. split; [cbn; tauto|]. split; [cbn; lia|]. split; [assumption|]. split; [assumption|]. split; [apply fr_refl|reflexivity].
  - assert (Hp : In p pins) by (apply I; cbn; auto). unfold prep_pin at 2.
    pose proof (prep_aps p (paps p) Hp g (pset_ins p unc) m rap _ M D ltac:(intros k q [H _]; apply Hu; assumption) (fun a Ha => V p a Hp Ha)) as H.
    destruct (fold_left _ (paps p) _) as [[[g1 unc1] m1] rap1]. destruct H as (-> & M1 & D1 & F1 & S1).
    assert (E : forall k q, (Runc unc k q \/ (In k (paps p) /\ q = p)) <-> Runc (pset_ins p unc) k q).
    { intros k q. unfold Runc. rewrite (in_pset_ins pins pins_nodup p unc q Hu Hp). intuition (subst; auto). }
    apply (mrel_ext _ _ _ E) in M1. apply (drel_ext _ _ _ E) in D1.
    specialize (IH ltac:(intros x Hx; apply I; cbn; auto) g1 (pset_ins p unc) m1 rap1).
    assert (Hu1 : incl (pset_ins p unc) pins).
    { intros x Hx. apply (in_pset_ins pins pins_nodup p unc x Hu Hp) in Hx as [->|Hx]; auto. }
    specialize (IH Hu1 M1 D1 ltac:(intros x a Hx Ha; apply (fr_valid g g1 a F1); eauto)).
    destruct (fold_left prep_pin l _) as [[[g' unc'] m'] rap']. destruct IH as (A & B & L & C1 & C2 & C3 & C4).
    split; [assumption|]. split.
    + intros q. rewrite B, (in_pset_ins pins pins_nodup p unc q Hu Hp). cbn. intuition.
    + split; [pose proof (pset_ins_len p unc); cbn; lia|]. split; [assumption|]. split; [assumption|]. split; [eapply fr_trans; eassumption|congruence].
Qed.

(* ---- the first pin ---- *)
Lemma far_inner (d : midx -> Z) (p : dpin) aps : forall (cur : option dpin) best, (cur = None -> best = 0) -> (forall a, In a aps -> 0 <= d a) ->
  let r := fold_left (fun '(cur, best) mi => let d := d mi in if d >=? best then (Some p, d) else (cur, best)) aps (cur, best) in
  (fst r = cur \/ fst r = Some p) /\ (fst r = None -> snd r = 0 /\ aps = []).
Proof.
  induction aps as [|a l IH]; intros cur best H0 Hd; cbn [fold_left].
  - cbn. auto.
  - destruct (d a >=? best) eqn:E.
    + destruct (IH (Some p) (d a) ltac:(discriminate) ltac:(intros; apply Hd; cbn; auto)) as [A B]. cbn in *.
      split; [destruct A; auto|]. intros N. rewrite N in A. destruct A; discriminate.
    + destruct (IH cur best H0 ltac:(intros; apply Hd; cbn; auto)) as [A B]. cbn in *. split; [assumption|].
      intros N. exfalso. destruct A as [A|A]; [|congruence]. rewrite N in A. specialize (H0 (eq_sym A)).
      pose proof (Hd a (or_introl eq_refl)). lia.
Qed.
Lemma far_pin_spec (sd : list dpin -> midx -> Z) unc : (forall l a, 0 <= sd l a) ->
  (forall p, In p unc -> paps p <> []) -> unc <> [] -> exists p, far_pin sd unc = Some p /\ In p unc.
Proof.
  intros Hd Ha Hn. unfold far_pin. set (u := unc) at 1 2. clearbody u.
  assert (G : forall l acc, (fst acc = None -> snd acc = 0) -> (forall p, In p l -> paps p <> []) ->
    let r := fold_left (fun acc p => fold_left (fun '(cur, best) mi => let d := sd u mi in if d >=? best then (Some p, d) else (cur, best)) (paps p) acc) l acc in
    (fst r = fst acc \/ exists p, In p l /\ fst r = Some p) /\ (fst r = None -> l = [])).
  { induction l as [|p l IH]; intros acc H0 Hne; cbn [fold_left].
    - cbn. auto.
    - destruct acc as [cur best]. destruct (far_inner (sd u) p (paps p) cur best H0 ltac:(auto)) as [A B]. cbv zeta in A, B.
      set (acc1 := fold_left _ (paps p) (cur, best)) in *.
      destruct (IH acc1) as [C D]; [intros N; apply B; assumption|intros; apply Hne; cbn; auto|]. cbv zeta in C, D.
      assert (N1 : fst acc1 <> None). { intros N. apply B in N as [_ N]. apply (Hne p); cbn; auto. }
      split.
      + destruct C as [C|(p' & Hp & C)]; [|right; exists p'; cbn; auto]. rewrite C.
        destruct A as [A|A]; [left; assumption|right; exists p; cbn; auto].
      + intros N. exfalso. destruct C as [C|(p' & _ & C)]; congruence. }
  destruct (G unc (None, 0) ltac:(auto) Ha) as [A B]. cbv zeta in A, B.
  destruct A as [A|(p & Hp & A)]; [|exists p; auto]. cbn [fst] in A. apply B in A. contradiction.
Qed.
Lemma setSrc_steps p aps : In p pins -> forall g m cc c1 c2 R, mrel m R -> drel g R -> rok pins R ->
  (forall a, In a aps -> valid g a) ->
  (forall a, In a cc -> valid g a /\ isSrc g a = true) ->
  (forall a, In a aps -> R a p \/ In a cc) ->
  let '(g', m', cc', _, _) := fold_left (setSrc_step p) aps (g, m, cc, c1, c2) in
  let R' := fun k q => R k q /\ ~ (In k aps /\ q = p) in
  cc' = cc ++ aps /\ mrel m' R' /\ drel g' R' /\ fr g g' /\ (forall a, In a cc' -> valid g' a /\ isSrc g' a = true).
Proof.
  intros Hp. induction aps as [|a l IH]; intros g m cc c1 c2 R M D K V Hc Ha; cbn [fold_left].
  - cbv zeta. rewrite app_nil_r. split; [reflexivity|]. split; [eapply mrel_ext; [|exact M]; cbn; tauto|]. split; [eapply drel_ext; [|exact D]; cbn; tauto|].
    split; [apply fr_refl|assumption].
  - unfold setSrc_step at 2. destruct (take_off g m p a) as [[g1 m1] hit] eqn:T.
    assert (Va : valid g a) by (apply V; cbn; auto).
    apply (take_off_spec pins pins_nodup g m R p a) in T; try assumption. cbn zeta in T. destruct T as (M1 & D1 & Hh & F1 & S1).
    set (g2 := if hit then setSrc g1 a else g1).
    assert (F2 : fr g g2) by (unfold g2; destruct hit; [eapply fr_trans; [exact F1|apply fr_setSrc]|assumption]).
    assert (D2 : drel g2 (fun k q => R k q /\ ~ (k = a /\ q = p))).
    { unfold g2. destruct hit; [|assumption]. eapply drel_eq; [| |exact D1]; [apply fr_setSrc|reflexivity]. }
    assert (V2 : forall x, valid g x -> valid g2 x) by (intros x Hx; apply (fr_valid g g2 x F2); assumption).
    assert (C2 : forall x, In x (cc ++ [a]) -> valid g2 x /\ isSrc g2 x = true).
    { intros x Hx. apply in_app_iff in Hx. assert (Vx : valid g x) by (destruct Hx as [Hx|[<-|[]]]; [apply Hc; assumption|assumption]).
      split; [auto|]. assert (V1 : valid g1 x) by (apply (fr_valid g g1); assumption).
      assert (V1a : valid g1 a) by (apply (fr_valid g g1); assumption).
      assert (Old : In x cc -> isSrc g1 x = true) by (intros H; rewrite (isSrc_eq g g1 x F1 S1); apply Hc; assumption).
      unfold g2. destruct hit.
      - rewrite isSrc_setSrc by assumption. apply orb_true_iff. rewrite mi_eq_spec. destruct Hx as [Hx|[<-|[]]]; auto.
      - destruct Hx as [Hx|[<-|[]]]; [auto|]. apply Old. destruct (Ha a (or_introl eq_refl)) as [H|H]; [|assumption].
        apply Hh in H. discriminate. }
    specialize (IH g2 m1 (cc ++ [a]) (mi_min c1 a) (mi_max c2 a) _ M1 D2 (fun k q H => K k q (proj1 H)) ltac:(intros x Hx; apply V2, V; cbn; auto) C2).
    assert (Ha2 : forall x, In x l -> (R x p /\ ~ (x = a /\ p = p)) \/ In x (cc ++ [a])).
    { intros x Hx. destruct (Ha x (or_intror Hx)) as [H|H]; [|right; apply in_app_iff; auto].
      destruct (mi_dec x a) as [->|Hn]; [right; apply in_app_iff; cbn; auto|left; tauto]. }
    specialize (IH Ha2). destruct (fold_left (setSrc_step p) l _) as [[[[g' m'] cc'] c1'] c2'].
    destruct IH as (A & B & C & F & S). split; [rewrite A, <- app_assoc; reflexivity|].
    split; [eapply mrel_ext; [|exact B]|].
    + intros k q. cbn. assert (a = k <-> k = a) by (split; congruence). tauto.
    + split; [eapply drel_ext; [|exact C]; intros k q; cbn; assert (a = k <-> k = a) by (split; congruence); tauto|].
      split; [eapply fr_trans; eassumption|assumption].
Qed.
End Prep.
