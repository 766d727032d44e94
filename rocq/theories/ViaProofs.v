(* Order of the vias and default vias. *)
From Verif Require Import Base GeomModel GcModel TwModel TwProofs ViaModel ViaSpec.
From Coq Require Import Sorted.

Lemma bbox_fold r : forall b, let B := fold_left (fun b g => bbox_join b (snd g)) r b in
  contains_box B b /\ (forall f, In f r -> contains_box B (snd f)) /\
  forall c, contains_box c b -> (forall f : Z * box, In f r -> contains_box c (snd f)) -> contains_box c B.
Proof.
  induction r as [|g r IH]; intros b; cbn [fold_left].
  - split; [unfold contains_box; lia|]. split; [intros f []|intros c H _; exact H].
  - cbn zeta in IH |- *. destruct (IH (bbox_join b (snd g))) as (A & B & C). set (K := fold_left _ r _) in *.
    assert (J : contains_box (bbox_join b (snd g)) b /\ contains_box (bbox_join b (snd g)) (snd g)) by (unfold contains_box, bbox_join, bleft, bright, bbottom, btop; cbn; lia).
    destruct J as [J1 J2]. assert (T : forall x y z, contains_box x y -> contains_box y z -> contains_box x z) by (clear; unfold contains_box; lia).
    split; [eapply T; eassumption|]. split.
    + intros f [<-|Hf]; [eapply T; eassumption|auto].
    + intros c Hc H. apply C; [|intros f Hf; apply H; now right]. assert (G := H g (or_introl eq_refl)). clear -Hc G. unfold contains_box, bbox_join, bleft, bright, bbottom, btop in *; cbn; lia.
Qed.
Lemma bbox_smallest figs : figs <> [] -> smallest_box (bbox_of figs) figs.
Proof.
  destruct figs as [|f r]; [contradiction|]. intros _. unfold bbox_of. destruct (bbox_fold r (snd f)) as (A & B & C). split.
  - intros g [<-|Hg]; auto.
  - intros c H. apply C; [apply H; now left|intros g Hg; apply H; now right].
Qed.
Lemma contains_anti b c : contains_box b c -> contains_box c b -> b = c.
Proof. destruct b as [[? ?] [? ?]], c as [[? ?] [? ?]]. unfold contains_box, bleft, bright, bbottom, btop; cbn. intros. f_equal; f_equal; lia. Qed.
Lemma bbox_upright figs : (forall f, In f figs -> upright (snd f)) -> upright (bbox_of figs).
Proof.
  destruct figs as [|f r]; [intros _; unfold upright, bbox_of, bleft, bright, bbottom, btop; cbn; lia|]. intros H. destruct (bbox_smallest (f :: r)) as [A _]; [discriminate|].
  specialize (A f (or_introl eq_refl)). specialize (H f (or_introl eq_refl)). unfold contains_box, upright in *. lia.
Qed.

(* the order of priorities *)
Lemma pl_irr a : prio_ltb a a = false.
Proof. induction a as [|x r IH]; cbn; [reflexivity|]. rewrite IH. replace (x <? x) with false by lia. apply andb_false_r. Qed.
Lemma pl_tr : forall a b c, prio_ltb a b = true -> prio_ltb b c = true -> prio_ltb a c = true.
Proof.
  induction a as [|x r IH]; intros [|y s] [|z t]; cbn; try discriminate; auto. rewrite !orb_true_iff, !andb_true_iff, !Z.ltb_lt, !Z.eqb_eq.
  intros [H|[-> H]] [K|[-> K]]; [left; lia|left; lia|left; lia|right; split; [reflexivity|eapply IH; eassumption]].
Qed.
Lemma pl_tot : forall a b, prio_ltb a b = false -> prio_ltb b a = false -> a = b.
Proof.
  induction a as [|x r IH]; intros [|y s]; cbn; try discriminate; auto. rewrite !orb_false_iff, !andb_false_iff, !Z.ltb_ge, !Z.eqb_neq.
  intros [H1 H2] [H3 H4]. assert (x = y) by lia. subst y. f_equal. apply IH; [destruct H2; [lia|assumption]|destruct H4; [lia|assumption]].
Qed.
Lemma prio_eqb_eq : forall a c, prio_eqb a c = true <-> a = c.
Proof. induction a as [|x r IH]; intros [|y s]; cbn; try (split; discriminate); [tauto|]. rewrite andb_true_iff, Z.eqb_eq, IH. split; [intros [-> ->]; reflexivity|intros H; injection H; auto]. Qed.

Lemma complete_shapes v : all_shapes v = true <-> complete v.
Proof. unfold all_shapes, complete, layer_of. destruct (v_l1 v), (v_l2 v); split; try discriminate; intuition congruence. Qed.
Section V.
Variable dir : Z -> ldir.
Notation raw := (raw_priority dir).
Lemma raw_complete v : complete v <-> exists p, raw v = Some p.
Proof.
  unfold complete, raw_priority, layer_of. destruct (v_l1 v), (v_l2 v); split; try (intros [A B]; eauto; congruence); try (intros [p H]; discriminate H); intros _; split; discriminate.
Qed.
Lemma align_across figs l r b : figs = (l, b) :: r -> (not_align dir figs l = true <-> across (dir l) figs).
Proof.
  intros _. unfold not_align, enc_horz, across. rewrite Z.gtb_ltb. destruct (dir l); cbn [is_dirH is_dirV]; rewrite ?andb_true_r, ?andb_false_r, ?orb_false_l, ?orb_false_r, ?negb_true_iff, ?Z.ltb_lt, ?Z.ltb_ge; [tauto|tauto|split; [discriminate|tauto]].
Qed.
Lemma b2z_before (a c : bool) P Q r q : (a = true <-> P) -> (c = true <-> Q) ->
  forall R : Prop, (prio_ltb r q = true <-> R) -> (prio_ltb (b2z a :: r) (b2z c :: q) = true <-> no_before P Q R).
Proof.
  intros A C R HR. cbn [prio_ltb]. unfold no_before. rewrite <- A, <- C, <- HR. destruct a, c; cbn [b2z]; cbn; destruct (prio_ltb r q); intuition congruence.
Qed.
Lemma z_then a c r q R : (prio_ltb r q = true <-> R) -> (prio_ltb (a :: r) (c :: q) = true <-> then_by a c R).
Proof. intros H. cbn [prio_ltb]. unfold then_by. rewrite <- H, orb_true_iff, andb_true_iff, Z.ltb_lt, Z.eqb_eq. tauto. Qed.
Lemma preferred_prio v w p q : raw v = Some p -> raw w = Some q -> (prio_ltb p q = true <-> preferred dir v w).
Proof.
  unfold raw_priority, layer_of. destruct (v_l1 v) as [|[a1 b1] r1] eqn:E1; [discriminate|]. destruct (v_l2 v) as [|[a2 b2] r2] eqn:E2; [discriminate|].
  destruct (v_l1 w) as [|[a3 b3] r3] eqn:E3; [discriminate|]. destruct (v_l2 w) as [|[a4 b4] r4] eqn:E4; [discriminate|]. cbn [fst].
  intros H K. injection H as <-. injection K as <-. unfold preferred, layer1, layer2. rewrite E1, E2, E3, E4.
  apply b2z_before; [apply negb_true_iff|apply negb_true_iff|].
  apply z_then, z_then. apply b2z_before; [eapply align_across; reflexivity|eapply align_across; reflexivity|].
  apply z_then, z_then. apply b2z_before; [eapply align_across; reflexivity|eapply align_across; reflexivity|].
  cbn. split; [discriminate|tauto].
Qed.

(* the list of a cut layer *)
Lemma via_of_spec c p v : via_of dir c p = Some v -> exists pre post, c = pre ++ v :: post /\ raw v = Some p /\ forall w, In w post -> raw w <> Some p.
Proof.
  unfold via_of. rewrite <- (rev_involutive c). rewrite <- fold_left_rev_right, rev_involutive. revert v. generalize (rev c). clear c. intros c. induction c as [|w r IH]; cbn [fold_right rev]; intros v H; [discriminate H|].
  destruct (raw w) as [q|] eqn:E.
  - destruct (prio_eqb q p) eqn:Q.
    + injection H as <-. apply prio_eqb_eq in Q. subst q. exists (rev r), []. split; [reflexivity|]. split; [exact E|intros ? []].
    + destruct (IH v H) as (pre & post & -> & A & B). exists pre, (post ++ [w]). rewrite <- app_assoc. split; [reflexivity|]. split; [exact A|]. intros u Hu. apply in_app_or in Hu as [Hu|[<-|[]]]; [auto|].
      rewrite E. intros Z. injection Z as ->. assert (prio_eqb p p = true) by (apply prio_eqb_eq; reflexivity). congruence.
  - destruct (IH v H) as (pre & post & -> & A & B). exists pre, (post ++ [w]). rewrite <- app_assoc. split; [reflexivity|]. split; [exact A|]. intros u Hu. apply in_app_or in Hu as [Hu|[<-|[]]]; [auto|congruence].
Qed.
Lemma via_of_some c p v : In v c -> raw v = Some p -> exists w, via_of dir c p = Some w.
Proof.
  unfold via_of. intros Hv E. assert (Q : forall l r, (r <> None \/ In v l) -> exists g, fold_left (fun r v => match raw v with Some q => if prio_eqb q p then Some v else r | None => r end) l r = Some g).
  { induction l as [|h r IH]; cbn; intros s Hs; [destruct Hs as [Hs|[]]; destruct s; [eauto|contradiction]|]. apply IH. destruct Hs as [Hs|[->|Hs]].
    - left. destruct (raw h) as [q|]; [|exact Hs]. destruct (prio_eqb q p); [discriminate|exact Hs].
    - left. rewrite E. replace (prio_eqb p p) with true by (symmetry; apply prio_eqb_eq; reflexivity). discriminate.
    - now right. }
  apply Q. now right.
Qed.
Lemma prios_in c p : In p (prios dir c) <-> exists v, In v c /\ raw v = Some p.
Proof.
  unfold prios. rewrite in_flat_map. split; intros (v & Hv & H); exists v; (split; [exact Hv|]).
  - destruct (raw v); [destruct H as [->|[]]; reflexivity|destruct H].
  - rewrite H. now left.
Qed.
Definition cands (vs : list vdef) (l n : Z) : list vdef := filter (fun v => num_cut v =? n) (layer_vias vs l).
Lemma cands_single vs l v : In v (cands vs l 1) <-> In v vs /\ single_cut l v.
Proof.
  unfold cands, layer_vias, num_cut, on_layer, single_cut. rewrite !filter_In. destruct (v_cut v) as [|[k b] [|g r]]; cbn [layer_of fst length].
  - split; [intros [[_ H] _]; discriminate H|intros [_ [b H]]; discriminate H].
  - rewrite Z.eqb_eq. split; [intros [[A ->] _]; eauto|intros [A [b' H]]; injection H as -> _; auto].
  - split; [intros [_ H]; exfalso; apply Z.eqb_eq in H; cbn [length] in H; lia|intros [_ [b' H]]; discriminate H].
Qed.
Lemma ranked_in vs l v : In v (ranked dir vs l 1) -> In v vs /\ single_cut l v /\ complete v.
Proof.
  unfold ranked. fold (cands vs l 1). intros H. apply in_flat_map in H as (p & _ & H). destruct (via_of dir (cands vs l 1) p) as [u|] eqn:E; [|destruct H]. destruct H as [->|[]].
  destruct (via_of_spec _ _ _ E) as (pre & post & A & B & _). assert (In v (cands vs l 1)) by (rewrite A; apply in_or_app; right; now left).
  apply cands_single in H as [H1 H2]. split; [exact H1|]. split; [exact H2|]. apply raw_complete. eauto.
Qed.
(* all candidates are represented, strictly ascending *)
Lemma ranked_sorted vs l : StronglySorted (preferred dir) (ranked dir vs l 1).
Proof.
  unfold ranked. fold (cands vs l 1). set (c := cands vs l 1). pose proof (kset_sorted _ pl_tr pl_tot (prios dir c)) as S. set (ks := kset prio_ltb (prios dir c)) in *. clearbody ks.
  induction S as [|p r S IH F]; cbn [flat_map]; [constructor|]. destruct (via_of dir c p) as [v|] eqn:E; cbn [app]; [|exact IH]. constructor; [exact IH|].
  apply Forall_forall. intros w Hw. apply in_flat_map in Hw as (q & Hq & Hw). destruct (via_of dir c q) as [u|] eqn:Eq; [|destruct Hw]. destruct Hw as [->|[]].
  destruct (via_of_spec _ _ _ E) as (_ & _ & _ & A & _). destruct (via_of_spec _ _ _ Eq) as (_ & _ & _ & B & _).
  apply (preferred_prio v w p q A B). rewrite Forall_forall in F. exact (F q Hq).
Qed.
Lemma ranked_all vs l w : In w vs -> single_cut l w -> complete w -> exists v, In v (ranked dir vs l 1) /\ raw v = raw w.
Proof.
  intros Hw Sw Cw. apply raw_complete in Cw as [p Ep]. assert (Hc : In w (cands vs l 1)) by (apply cands_single; auto).
  destruct (via_of_some _ p w Hc Ep) as [v Ev]. exists v. destruct (via_of_spec _ _ _ Ev) as (_ & _ & _ & B & _). split; [|congruence].
  unfold ranked. fold (cands vs l 1). apply in_flat_map. exists p. split; [|rewrite Ev; now left]. apply (proj2 (kset_in _ pl_tot _ _)). apply prios_in. eauto.
Qed.
Lemma filter_split {A} (f : A -> bool) l : forall pre v post, filter f l = pre ++ v :: post -> exists p q, l = p ++ v :: q /\ filter f q = post.
Proof.
  induction l as [|a r IH]; cbn; intros pre v post H; [destruct pre; discriminate H|]. destruct (f a) eqn:E.
  - destruct pre as [|b pre]; cbn in H; injection H as -> H.
    + exists [], r. auto.
    + destruct (IH _ _ _ H) as (p & q & -> & Q). exists (b :: p), q. auto.
  - destruct (IH _ _ _ H) as (p & q & -> & Q). exists (a :: p), q. auto.
Qed.
Lemma ranked_last vs l v : In v (ranked dir vs l 1) -> exists pre post, vs = pre ++ v :: post /\ forall w, In w post -> single_cut l w -> raw w <> raw v.
Proof.
  unfold ranked. fold (cands vs l 1). intros H. apply in_flat_map in H as (p & _ & H). destruct (via_of dir (cands vs l 1) p) as [u|] eqn:E; [|destruct H]. destruct H as [->|[]].
  destruct (via_of_spec _ _ _ E) as (pre & post & A & B & C). unfold cands in A. destruct (filter_split _ _ _ _ _ A) as (p1 & q1 & A1 & A2). unfold layer_vias in A1. destruct (filter_split _ _ _ _ _ A1) as (p2 & q2 & A3 & A4).
  exists p2, q2. split; [exact A3|]. intros w Hw Sw. rewrite B. apply C. rewrite <- A2. rewrite <- A4. apply (cands_single q2 l w). auto.
Qed.
Lemma raw_not_preferred v w : complete v -> complete w -> raw v = raw w -> ~ preferred dir v w.
Proof. intros C1 C2 E H. apply raw_complete in C1 as [p P1], C2 as [q P2]. apply (preferred_prio _ _ _ _ P1 P2) in H. rewrite P1, P2 in E. injection E as ->. rewrite pl_irr in H. discriminate H. Qed.
Lemma preferred_total v w : complete v -> complete w -> preferred dir v w \/ preferred dir w v \/ raw v = raw w.
Proof.
  intros C1 C2. apply raw_complete in C1 as [p P1], C2 as [q P2]. rewrite <- (preferred_prio _ _ _ _ P1 P2), <- (preferred_prio _ _ _ _ P2 P1), P1, P2.
  destruct (prio_ltb p q) eqn:A; [tauto|]. destruct (prio_ltb q p) eqn:B; [tauto|]. right. right. f_equal. apply pl_tot; assumption.
Qed.
Lemma preferred_asym v w : complete v -> complete w -> preferred dir v w -> ~ preferred dir w v.
Proof.
  intros C1 C2. apply raw_complete in C1 as [p P1], C2 as [q P2]. rewrite <- (preferred_prio _ _ _ _ P1 P2), <- (preferred_prio _ _ _ _ P2 P1). intros A B. pose proof (pl_tr _ _ _ A B). rewrite pl_irr in H. discriminate H.
Qed.
(* the first of the list is the best *)
Lemma ranked_head vs l v r : ranked dir vs l 1 = v :: r -> (forall w, In w vs -> single_cut l w -> complete w) ->
  In v vs /\ single_cut l v /\ complete v /\ (forall w, In w vs -> single_cut l w -> ~ preferred dir w v) /\
  exists pre post, vs = pre ++ v :: post /\ forall w, In w post -> single_cut l w -> preferred dir v w.
Proof.
  intros E Cm. assert (Hv : In v (ranked dir vs l 1)) by (rewrite E; now left). destruct (ranked_in _ _ _ Hv) as (A & B & C).
  assert (Best : forall w, In w vs -> single_cut l w -> preferred dir v w \/ raw v = raw w).
  { intros w Hw Sw. destruct (ranked_all _ _ _ Hw Sw (Cm w Hw Sw)) as (u & Hu & Eu). rewrite E in Hu. destruct Hu as [->|Hu]; [right; exact Eu|left].
    pose proof (ranked_sorted vs l) as S. rewrite E in S. inversion S as [|? ? ? F]; subst. rewrite Forall_forall in F. specialize (F u Hu).
    assert (Cu : complete u) by (apply (ranked_in vs l u); rewrite E; now right). destruct (proj1 (raw_complete v) C) as [p P1]. destruct (proj1 (raw_complete u) Cu) as [q P2].
    apply (preferred_prio _ _ p q P1); [congruence|]. apply (preferred_prio _ _ p q P1 P2), F. }
  split; [exact A|]. split; [exact B|]. split; [exact C|]. split.
  - intros w Hw Sw K. destruct (Best w Hw Sw) as [H|H]; [apply (preferred_asym v w C (Cm w Hw Sw) H K)|apply (raw_not_preferred w v (Cm w Hw Sw) C (eq_sym H) K)].
  - destruct (ranked_last _ _ _ Hv) as (pre & post & E1 & H). exists pre, post. split; [exact E1|]. intros w Hw Sw. assert (Iw : In w vs) by (rewrite E1; apply in_or_app; right; now right).
    destruct (Best w Iw Sw) as [K|K]; [exact K|]. exfalso. apply (H w Hw Sw). symmetry. exact K.
Qed.
End V.
