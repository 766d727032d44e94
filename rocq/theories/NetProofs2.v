From Verif Require Import Base GeomModel GeomSpec GridModel GridSpec GridProofs GridProofs2 MazeModel MazeSpec MazeAbs MazeProofs NetModel NetSpec NetProofs.
From Coq Require Import Permutation.

Lemma mi_eq_spec a b : mi_eq a b = true <-> a = b.
Proof. destruct a, b; unfold mi_eq; cbn. split; [intros; f_equal; lia|intros H; injection H; lia]. Qed.
Lemma mi_eq_refl a : mi_eq a a = true.
Proof. apply mi_eq_spec. reflexivity. Qed.
Lemma mi_dec (a b : midx) : {a = b} + {a <> b}.
Proof. destruct (mi_eq a b) eqn:E; [left; apply mi_eq_spec; assumption|right; intros H; apply mi_eq_spec in H; congruence]. Qed.
Lemma mi_eq_neq a b : a <> b -> mi_eq a b = false.
Proof. intros H. destruct (mi_eq a b) eqn:E; [apply mi_eq_spec in E; contradiction|reflexivity]. Qed.

(* ---- frame: shape and words ---- *)
Definition fr (g h : gg) : Prop := same_shape g h /\ gbits g = gbits h.
Lemma fr_refl g : fr g g.
Proof. unfold fr, same_shape. auto 10. Qed.
Lemma fr_trans g h k : fr g h -> fr h k -> fr g k.
Proof. unfold fr, same_shape. intuition congruence. Qed.
Lemma fr_idx g h p : fr g h -> getIdx h p = getIdx g p.
Proof. intros [S _]. symmetry. apply getIdx_shape. assumption. Qed.
Lemma fr_valid g h p : fr g h -> valid h p <-> valid g p.
Proof. intros [S _]. symmetry. apply valid_shape. assumption. Qed.
Lemma fr_isValid g h p : fr g h -> isValid h p = isValid g p.
Proof. intros S. pose proof (fr_valid g h p S). rewrite <- !isValid_iff in H. destruct (isValid h p), (isValid g p); intuition congruence. Qed.
Lemma fr_edge g h p d : fr g h -> hasEdge h p d = hasEdge g p d.
Proof.
  intros S. unfold hasEdge. destruct (correct p d) as [p' d']. rewrite (fr_isValid g h p' S), (fr_idx g h p' S).
  destruct S as (_ & ->). reflexivity.
Qed.
Lemma fr_inside g h : fr g h -> edges_inside g -> edges_inside h.
Proof.
  intros F H p d Hd E. rewrite (fr_edge g h) in E by assumption. rewrite !(fr_valid g h) by assumption. auto.
Qed.
Lemma static_fr g h : static g h -> fr g h.
Proof. unfold static, fr. tauto. Qed.

Lemma upd_idx {A} g (f : Z -> A) p q v : valid g p -> valid g q ->
  upd f (getIdx g p) v (getIdx g q) = if mi_eq q p then v else f (getIdx g q).
Proof.
  intros Hp Hq. unfold upd. destruct (mi_eq q p) eqn:E.
  - apply mi_eq_spec in E. subst. rewrite Z.eqb_refl. reflexivity.
  - destruct (Z.eqb_spec (getIdx g q) (getIdx g p)) as [H|H]; [|reflexivity].
    apply getIdx_inj in H; try assumption. subst. rewrite mi_eq_refl in E. discriminate.
Qed.
Lemma isSrc_setSrc g p q : valid g p -> valid g q -> isSrc (setSrc g p) q = mi_eq q p || isSrc g q.
Proof. intros. unfold isSrc, setSrc. change (getIdx (with_src g _) q) with (getIdx g q). cbn [gsrc with_src]. rewrite upd_idx by assumption. destruct (mi_eq q p); reflexivity. Qed.
Lemma isSrc_resetSrc g p q : valid g p -> valid g q -> isSrc (resetSrc g p) q = negb (mi_eq q p) && isSrc g q.
Proof. intros. unfold isSrc, resetSrc. change (getIdx (with_src g _) q) with (getIdx g q). cbn [gsrc with_src]. rewrite upd_idx by assumption. destruct (mi_eq q p); reflexivity. Qed.
Lemma isDst_setDst g p q : valid g p -> valid g q -> isDst (setDst g p) q = mi_eq q p || isDst g q.
Proof. intros. unfold isDst, setDst. change (getIdx (with_dst g _) q) with (getIdx g q). cbn [gdst with_dst]. rewrite upd_idx by assumption. destruct (mi_eq q p); reflexivity. Qed.
Lemma isDst_resetDst g p q : valid g p -> valid g q -> isDst (resetDst g p) q = negb (mi_eq q p) && isDst g q.
Proof. intros. unfold isDst, resetDst. change (getIdx (with_dst g _) q) with (getIdx g q). cbn [gdst with_dst]. rewrite upd_idx by assumption. destruct (mi_eq q p); reflexivity. Qed.
(* each flag operation leaves the rest alone *)
Lemma fr_setSrc g p : fr g (setSrc g p). Proof. unfold fr, same_shape. auto 10. Qed.
Lemma fr_resetSrc g p : fr g (resetSrc g p). Proof. unfold fr, same_shape. auto 10. Qed.
Lemma fr_setDst g p : fr g (setDst g p). Proof. unfold fr, same_shape. auto 10. Qed.
Lemma fr_resetDst g p : fr g (resetDst g p). Proof. unfold fr, same_shape. auto 10. Qed.

(* ---- containers ---- *)
Lemma pmap_find_upd m k f k' : pmap_find (pmap_upd m k f) k' =
  if mi_eq k k' then Some (f (match pmap_find m k with Some s => s | None => [] end)) else pmap_find m k'.
Proof.
  induction m as [|[k0 s] r IH]; cbn.
  - reflexivity.
  - destruct (mi_eq k0 k) eqn:E; cbn.
    + apply mi_eq_spec in E. subst k0. destruct (mi_eq k k'); reflexivity.
    + rewrite IH. destruct (mi_eq k0 k') eqn:E2; [|reflexivity]. apply mi_eq_spec in E2. subst k0.
      destruct (mi_eq k k') eqn:E3; [|reflexivity]. apply mi_eq_spec in E3. subst. rewrite mi_eq_refl in E. discriminate.
Qed.
Lemma pmap_find_erase m k k' : pmap_find (pmap_erase m k) k' = if mi_eq k k' then None else pmap_find m k'.
Proof.
  unfold pmap_erase. induction m as [|[k0 s] r IH]; cbn.
  - destruct (mi_eq k k'); reflexivity.
  - destruct (mi_eq k0 k) eqn:E; cbn.
    + apply mi_eq_spec in E. subst k0. rewrite IH. destruct (mi_eq k k'); reflexivity.
    + rewrite IH. destruct (mi_eq k0 k') eqn:E2; [|reflexivity]. apply mi_eq_spec in E2. subst k0.
      destruct (mi_eq k k') eqn:E3; [|reflexivity]. apply mi_eq_spec in E3. subst. rewrite mi_eq_refl in E. discriminate.
Qed.
Lemma pmap_upd_forall (P : list dpin -> Prop) m k f : Forall (fun e => P (snd e)) m ->
  (forall s, (s = [] \/ In (k, s) m) -> P (f s)) -> Forall (fun e => P (snd e)) (pmap_upd m k f).
Proof.
  induction 1 as [|[k0 s] r Hs Hr IH]; cbn; intros Hf.
  - constructor; [apply Hf; auto|constructor].
  - destruct (mi_eq k0 k) eqn:E.
    + apply mi_eq_spec in E. subst. constructor; [apply Hf; cbn; auto|assumption].
    + constructor; [assumption|]. apply IH. intros s' [->|H]; apply Hf; cbn; auto.
Qed.
Lemma in_mset_ins p q s : In p (mset_ins q s) <-> p = q \/ In p s.
Proof.
  induction s as [|a r IH]; cbn; [intuition|].
  destruct (mi_lt q a); cbn; [intuition|]. destruct (mi_eq q a) eqn:E; cbn.
  - apply mi_eq_spec in E. subst. intuition congruence.
  - rewrite IH. intuition.
Qed.
Lemma in_mset_fold p l : forall s, In p (fold_left (fun s p => mset_ins p s) l s) <-> In p l \/ In p s.
Proof. induction l as [|a l IH]; cbn; intros s; [intuition|]. rewrite IH, in_mset_ins. intuition. Qed.

Section Pins.
Variable pins : list dpin.
Hypothesis pins_nodup : NoDup (map pid pins).
Lemma pid_inj p q : In p pins -> In q pins -> pid p = pid q -> p = q.
Proof.
  clear -pins_nodup. induction pins as [|a l IH]; cbn in *; [contradiction|].
  inversion pins_nodup as [|x y Hn Hd]; subst. intros [<-|Hp] [<-|Hq] E; auto.
  - destruct Hn. rewrite E. apply in_map. assumption.
  - destruct Hn. rewrite <- E. apply in_map. assumption.
Qed.
Lemma pin_is_spec p q : In p pins -> In q pins -> pin_is p q = true <-> p = q.
Proof. intros Hp Hq. unfold pin_is. split; [intros; apply pid_inj; auto; lia|intros ->; lia]. Qed.
Lemma pin_dec p q : In p pins -> In q pins -> p = q \/ p <> q.
Proof. intros Hp Hq. destruct (pin_is p q) eqn:E; [left; apply pin_is_spec; auto|right; intros ->; rewrite (proj2 (pin_is_spec q q Hq Hq) eq_refl) in E; discriminate]. Qed.
Lemma in_pset_ins p s q : incl s pins -> In p pins -> In q (pset_ins p s) <-> q = p \/ In q s.
Proof.
  intros Hs Hp. induction s as [|a r IH]; cbn; [intuition|].
  assert (Ha : In a pins) by (apply Hs; cbn; auto).
  destruct (pid p <? pid a); cbn; [intuition|]. destruct (Z.eqb_spec (pid p) (pid a)) as [E|E].
  - rewrite (pid_inj p a) by auto. cbn. intuition congruence.
  - cbn. rewrite IH by (intros x Hx; apply Hs; cbn; auto). intuition.
Qed.
Lemma in_pset_erase p s q : incl s pins -> In p pins -> In q (pset_erase p s) <-> In q s /\ q <> p.
Proof.
  intros Hs Hp. unfold pset_erase. rewrite filter_In. split.
  - intros [H1 H2]. split; [assumption|]. intros ->. unfold pin_is in H2. rewrite Z.eqb_refl in H2. discriminate.
  - intros [H1 H2]. split; [assumption|]. destruct (pin_is q p) eqn:E; [|reflexivity]. apply pin_is_spec in E; auto; contradiction.
Qed.

(* ---- the map of unconnected pins, as a relation ---- *)
Definition mrel (m : pmap) (R : midx -> dpin -> Prop) : Prop :=
  (forall k q, (exists s, pmap_find m k = Some s /\ In q s) <-> R k q) /\ Forall (fun e => snd e <> []) m.
Definition drel (g : gg) (R : midx -> dpin -> Prop) : Prop :=
  forall k, valid g k -> (isDst g k = true <-> exists q, R k q).
Definition rok (R : midx -> dpin -> Prop) : Prop := forall k q, R k q -> In q pins.

Lemma mrel_find m R k s : mrel m R -> pmap_find m k = Some s -> s <> [] /\ forall q, In q s <-> R k q.
Proof.
  intros [H1 H2] F. split.
  - clear H1. induction m as [|[k0 s0] r IH]; cbn in F; [discriminate|].
    inversion H2; subst. destruct (mi_eq k0 k); [injection F as <-; assumption|auto].
  - intros q. rewrite <- H1, F. split; [eauto|intros (s' & E & ?); congruence].
Qed.
Lemma mrel_none m R k : mrel m R -> pmap_find m k = None -> forall q, ~ R k q.
Proof. intros [H1 _] F q H. apply H1 in H as (s & E & _). congruence. Qed.

Lemma take_off_spec g m R p mi g' m' hit : mrel m R -> drel g R -> rok R -> In p pins -> valid g mi ->
  take_off g m p mi = (g', m', hit) ->
  let R' := fun k q => R k q /\ ~ (k = mi /\ q = p) in
  mrel m' R' /\ drel g' R' /\ (hit = true <-> R mi p) /\ fr g g' /\ gsrc g' = gsrc g.
Proof.
  intros M D K Hp Hv H R'. unfold take_off in H.
  destruct (pmap_find m mi) as [s|] eqn:F.
  2:{ injection H as <- <- <-. pose proof (mrel_none m R mi M F) as N.
      assert (Eq : forall k q, R' k q <-> R k q) by (unfold R'; intros k q; split; [tauto|intros Hr; split; [assumption|intros [-> ->]; exact (N p Hr)]]).
      split; [split; [intros; rewrite Eq; apply M|apply M]|].
      split; [intros k Hk; rewrite (D k Hk); split; intros (q & Hq); exists q; first [apply (proj1 (Eq k q)); assumption | apply (proj2 (Eq k q)); assumption]|].
      split; [split; [discriminate|intros Hr; exfalso; exact (N p Hr)]|]. split; [apply fr_refl|reflexivity]. }
  destruct (mrel_find m R mi s M F) as [Sn Sq].
  assert (Ss : incl s pins) by (intros q Hq; apply Sq in Hq; apply (K mi q Hq)).
  destruct (existsb (fun q => pin_is q p) s) eqn:Ex.
  - assert (Hr : R mi p). { apply existsb_exists in Ex as (q & Hq & E). apply pin_is_spec in E; auto. subst. apply Sq. assumption. }
    pose proof (fun q => in_pset_erase p s q Ss Hp) as Er.
    destruct (Nat.eqb_spec (length (pset_erase p s)) 0) as [L|L]; injection H as <- <- <-.
    + assert (E0 : pset_erase p s = []) by (destruct (pset_erase p s); [reflexivity|discriminate]).
      split; [|split; [|split; [tauto|split; [apply fr_resetDst|reflexivity]]]].
      * split.
        -- intros k q. rewrite pmap_find_erase. destruct (mi_eq mi k) eqn:E.
           ++ apply mi_eq_spec in E. subst k. split; [intros (s' & ? & _); discriminate|].
              intros [Hq Hn]. exfalso. apply Sq in Hq. assert (In q (pset_erase p s)) by (apply Er; split; [assumption|intros ->; tauto]). rewrite E0 in H. exact H.
           ++ unfold R'. rewrite (proj1 M k q). split; [intros; split; [assumption|intros [-> _]; rewrite mi_eq_refl in E; discriminate]|tauto].
        -- apply Forall_forall. intros e He. apply filter_In in He as [He _]. revert e He. apply Forall_forall. apply M.
      * intros k Hk. rewrite (fr_valid _ _ _ (fr_resetDst g mi)) in Hk. rewrite isDst_resetDst by assumption.
        destruct (mi_eq k mi) eqn:E; cbn.
        -- apply mi_eq_spec in E. subst k. split; [discriminate|]. intros (q & Hq & Hn). exfalso.
           apply Sq in Hq. assert (In q (pset_erase p s)) by (apply Er; split; [assumption|intros ->; tauto]). rewrite E0 in H. exact H.
        -- rewrite (D k Hk). split; intros (q & Hq); exists q; unfold R' in *; [|tauto].
           split; [assumption|]. intros [-> _]. rewrite mi_eq_refl in E. discriminate.
    + split; [|split; [|split; [tauto|split; [apply fr_refl|reflexivity]]]].
      * split.
        -- intros k q. rewrite pmap_find_upd, F. destruct (mi_eq mi k) eqn:E.
           ++ apply mi_eq_spec in E. subst k. split.
              ** intros (s' & Es & Hq). injection Es as <-. apply Er in Hq as [Hq Hn]. split; [apply Sq; assumption|tauto].
              ** intros [Hq Hn]. eexists. split; [reflexivity|]. apply Er. split; [apply Sq; assumption|intros ->; tauto].
           ++ unfold R'. rewrite (proj1 M k q). split; [intros; split; [assumption|intros [-> _]; rewrite mi_eq_refl in E; discriminate]|tauto].
        -- (* the entry found is the first with this key; later ones are not touched *)
           clear -M F L. destruct M as [_ M]. revert F. induction m as [|[k0 s0] r IH]; cbn; [discriminate|].
           inversion M; subst. destruct (mi_eq k0 mi) eqn:E.
           ++ intros [= ->]. constructor; [cbn; intros E0; rewrite E0 in L; contradiction|assumption].
           ++ intros Fr. constructor; [assumption|auto].
      * intros k Hk. rewrite (D k Hk). destruct (mi_dec k mi) as [->|Hn].
        -- split; [|intros (q & Hq & _); eauto]. intros _.
           destruct (pset_erase p s) as [|q r] eqn:E0; [contradiction|]. exists q.
           assert (Hq : In q (q :: r)) by (cbn; auto). apply Er in Hq as [Hq Hn]. split; [apply Sq; assumption|tauto].
        -- split; intros (q & Hq); exists q; unfold R' in *; tauto.
  - assert (N : ~ R mi p). { intros Hr. apply Sq in Hr. assert (existsb (fun q => pin_is q p) s = true); [|congruence]. apply existsb_exists. exists p. split; [assumption|apply pin_is_spec; auto]. }
    injection H as <- <- <-.
    assert (Eq : forall k q, R' k q <-> R k q) by (unfold R'; intros k q; split; [tauto|intros Hr; split; [assumption|intros [-> ->]; exact (N Hr)]]).
    split; [split; [intros; rewrite Eq; apply M|apply M]|].
    split; [intros k Hk; rewrite (D k Hk); split; intros (q & Hq); exists q; first [apply (proj1 (Eq k q)); assumption | apply (proj2 (Eq k q)); assumption]|].
    split; [split; [discriminate|tauto]|]. split; [apply fr_refl|reflexivity].
Qed.

Lemma mrel_ext m R R' : (forall k q, R k q <-> R' k q) -> mrel m R -> mrel m R'.
Proof. intros E [H1 H2]. split; [intros; rewrite <- E; apply H1|assumption]. Qed.
Lemma drel_ext g R R' : (forall k q, R k q <-> R' k q) -> drel g R -> drel g R'.
Proof. intros E H k Hk. rewrite (H k Hk). split; intros (q & Hq); exists q; apply E; assumption. Qed.

(* removing a pin from all its access points *)
Lemma drop_aps p aps : In p pins -> forall g m R, mrel m R -> drel g R -> rok R -> (forall a, In a aps -> valid g a) ->
  let '(g', m') := fold_left (fun '(g, m) mi => fst (take_off g m p mi)) aps (g, m) in
  let R' := fun k q => R k q /\ ~ (In k aps /\ q = p) in
  mrel m' R' /\ drel g' R' /\ fr g g' /\ gsrc g' = gsrc g.
Proof.
  intros Hp. induction aps as [|a l IH]; intros g m R M D K V.
  - cbn. split; [eapply mrel_ext; [|exact M]; tauto|]. split; [eapply drel_ext; [|exact D]; tauto|]. split; [apply fr_refl|reflexivity].
  - cbn [fold_left]. destruct (take_off g m p a) as [[g1 m1] hit] eqn:T. cbn [fst].
    apply (take_off_spec g m R p a) in T; try assumption; [|apply V; cbn; auto].
    cbn zeta in T. destruct T as (M1 & D1 & _ & F1 & S1).
    specialize (IH g1 m1 _ M1 D1 (fun k q H => K k q (proj1 H))).
    assert (V1 : forall x, In x l -> valid g1 x) by (intros x Hx; apply (fr_valid g g1 x F1), V; cbn; auto).
    specialize (IH V1). destruct (fold_left _ l (g1, m1)) as [g' m'].
    destruct IH as (M2 & D2 & F2 & S2).
    split; [eapply mrel_ext; [|exact M2]|]; [intros k q; cbn; assert (a = k <-> k = a) by (split; congruence); tauto|].
    split; [eapply drel_ext; [|exact D2]; intros k q; cbn; assert (a = k <-> k = a) by (split; congruence); tauto|].
    split; [eapply fr_trans; eassumption|congruence].
Qed.
Definition Runc (unc : list dpin) : midx -> dpin -> Prop := fun k q => In q unc /\ In k (paps q).
Lemma drop_pin_spec p g unc m : In p pins -> incl unc pins -> mrel m (Runc unc) -> drel g (Runc unc) ->
  (forall a, In a (paps p) -> valid g a) ->
  let '(g', unc', m') := drop_pin (g, unc, m) p in
  unc' = pset_erase p unc /\ mrel m' (Runc unc') /\ drel g' (Runc unc') /\ fr g g' /\ gsrc g' = gsrc g.
Proof.
  intros Hp Hu M D V. unfold drop_pin.
  pose proof (drop_aps p (paps p) Hp g m _ M D ltac:(intros k q [H _]; apply Hu; assumption) V) as H.
  destruct (fold_left _ (paps p) (g, m)) as [g' m'].
  destruct H as (M1 & D1 & F1 & S1). split; [reflexivity|].
  assert (E : forall k q, Runc unc k q /\ ~ (In k (paps p) /\ q = p) <-> Runc (pset_erase p unc) k q).
  { intros k q. unfold Runc. rewrite (in_pset_erase p unc q Hu Hp). intuition. subst. tauto. }
  split; [eapply mrel_ext; [exact E|exact M1]|]. split; [eapply drel_ext; [exact E|exact D1]|]. auto.
Qed.
Lemma incl_erase p unc : incl unc pins -> incl (pset_erase p unc) pins.
Proof. intros H q Hq. apply filter_In in Hq as [Hq _]. auto. Qed.
Lemma filter_lt {A} (f : A -> bool) l x : In x l -> f x = false -> (length (filter f l) < length l)%nat.
Proof.
  induction l as [|a l IH]; cbn; [contradiction|]. intros [->|H] E.
  - rewrite E. pose proof (filter_len f l). lia.
  - specialize (IH H E). destruct (f a); cbn; lia.
Qed.
Lemma erase_lt p unc : In p unc -> (length (pset_erase p unc) < length unc)%nat.
Proof. intros H. apply (filter_lt _ _ p H). unfold pin_is. rewrite Z.eqb_refl. reflexivity. Qed.
Lemma drop_pins_spec ps : incl ps pins -> forall g unc m, incl unc pins ->
  mrel m (Runc unc) -> drel g (Runc unc) -> (forall p a, In p pins -> In a (paps p) -> valid g a) ->
  let '(g', unc', m') := fold_left drop_pin ps (g, unc, m) in
  incl unc' pins /\ (forall q, In q unc' <-> In q unc /\ ~ In q ps) /\ (length unc' <= length unc)%nat /\
  ((exists q, In q ps /\ In q unc) -> (length unc' < length unc)%nat) /\
  mrel m' (Runc unc') /\ drel g' (Runc unc') /\ fr g g' /\ gsrc g' = gsrc g.
Proof.
  intros Hps. induction ps as [|p l IH]; intros g unc m Hu M D V.
  - cbn. split; [assumption|]. split; [intuition|]. split; [lia|]. split; [intros (q & [] & _)|]. split; [assumption|]. split; [assumption|]. split; [apply fr_refl|reflexivity].
  - cbn [fold_left].
    assert (Hp : In p pins) by (apply Hps; cbn; auto).
    pose proof (drop_pin_spec p g unc m Hp Hu M D (fun a Ha => V p a Hp Ha)) as H.
    destruct (drop_pin (g, unc, m) p) as [[g1 unc1] m1]. destruct H as (-> & M1 & D1 & F1 & S1).
    specialize (IH ltac:(intros x Hx; apply Hps; cbn; auto) g1 _ m1 (incl_erase p unc Hu) M1 D1
      ltac:(intros x a Hx Ha; apply (fr_valid g g1 a F1); eauto)).
    destruct (fold_left drop_pin l _) as [[g' unc'] m']. destruct IH as (A & B & L & L2 & C1 & C2 & C3 & C4).
    split; [assumption|]. split.
    + intros q. rewrite B, (in_pset_erase p unc q Hu Hp). cbn. intuition congruence.
    + assert (Le : (length (pset_erase p unc) <= length unc)%nat) by (unfold pset_erase; apply filter_len).
      split; [lia|]. split; [|split; [assumption|split; [assumption|split; [eapply fr_trans; eassumption|congruence]]]].
      intros (q & Hq & Hqu). destruct (pin_dec p q Hp (Hu q Hqu)) as [<-|Hn].
      * pose proof (erase_lt p unc Hqu). lia.
      * destruct Hq as [Hq|Hq]; [congruence|].
        enough (length unc' < length (pset_erase p unc))%nat by lia. apply L2. exists q. split; [assumption|].
        apply in_pset_erase; auto.
Qed.
End Pins.
