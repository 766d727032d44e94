(* The second phase of genGuides_merge: connecting guides that touch side by side. *)
From Verif Require Import Base Stl GeomModel GCellModel GCellProofs ConnModel GuideModel GuideSpec GuideProofs1.

Lemma cat_opt_in {A B} (f : A -> option (list B)) : forall l r, cat_opt f l = Some r ->
  forall y, In y r <-> exists a x, In a l /\ f a = Some x /\ In y x.
Proof.
  induction l as [|a l IH]; cbn [cat_opt]; intros r E y.
  - injection E as <-. split; [easy|]. intros (a & x & [] & _).
  - destruct (f a) as [x|] eqn:Ea; [|discriminate]. destruct (cat_opt f l) as [r'|]; [|discriminate]. injection E as <-. rewrite in_app_iff, (IH r' eq_refl). split.
    + intros [H|(a' & x' & Ha & E & H)]; [exists a, x|exists a', x']; cbn; auto.
    + intros (a' & x' & [<-|Ha] & E & H); [left; congruence|right; eauto].
Qed.
Lemma cat_opt_all {A B} (f : A -> option (list B)) : forall l r, cat_opt f l = Some r -> forall a, In a l -> exists x, f a = Some x.
Proof.
  induction l as [|a l IH]; cbn [cat_opt]; intros r E a' Ha; [destruct Ha|].
  destruct (f a) as [x|] eqn:Ea; [|discriminate]. destruct (cat_opt f l) as [r'|]; [|discriminate]. destruct Ha as [<-|Ha]; [eauto|]. eapply IH; eauto.
Qed.
Lemma cat_opt_some {A B} (f : A -> option (list B)) : forall l, (forall a, In a l -> f a <> None) -> cat_opt f l <> None.
Proof.
  induction l as [|a l IH]; cbn [cat_opt]; intros H; [discriminate|].
  pose proof (H a (or_introl eq_refl)). destruct (f a); [|congruence]. specialize (IH (fun a' Ha => H a' (or_intror Ha))). destruct (cat_opt f l); congruence.
Qed.

Section Touch.
Variables xg yg : gpat.
Variable nlay : Z.
Variable horz : Z -> bool.

Definition opt_list {A} (o : option A) : list A := match o with Some a => [a] | None => [] end.
Lemma touch_tracks_in v l : forall m prev gs, sorted_lt (map fst (opt_list prev ++ m)) -> touch_tracks nlay v l prev m = Some gs ->
  (forall g, In g gs <-> exists t s ps i x, In (t, s) m /\ In (t - 1, ps) (opt_list prev ++ m) /\ In i (is_inter s ps) /\ touch_piece nlay v l t i = Some x /\ In g x) /\
  (forall t s ps i, In (t, s) m -> In (t - 1, ps) (opt_list prev ++ m) -> In i (is_inter s ps) -> exists x, touch_piece nlay v l t i = Some x).
Proof.
  induction m as [|[t s] m IH]; intros prev gs So E; cbn [touch_tracks] in E.
  - injection E as <-. split; [intros g; split; [easy|intros (t & s & ps & i & x & [] & _)]|intros t s ps i []].
  - set (here := match prev with Some (p, ps) => if t =? p + 1 then cat_opt (touch_piece nlay v l t) (is_inter s ps) else Some [] | None => Some [] end) in *.
    destruct here as [hx|] eqn:Eh; [|discriminate]. destruct (touch_tracks nlay v l (Some (t, s)) m) as [gr|] eqn:Er; [|discriminate]. injection E as <-.
    assert (So2 : sorted_lt (map fst ((t, s) :: m))).
    { destruct prev as [[p ps]|]; cbn [opt_list app map] in So; [eapply sorted_lt_tail; eauto|assumption]. }
    destruct (IH (Some (t, s)) gr So2 Er) as [I1 I2]. cbn [opt_list app] in I1, I2.
    assert (Key : forall t' s' ps, In (t', s') ((t, s) :: m) -> In (t' - 1, ps) (opt_list prev ++ (t, s) :: m) ->
      (t' = t /\ s' = s /\ prev = Some (t - 1, ps)) \/ (In (t', s') m /\ In (t' - 1, ps) ((t, s) :: m))).
    { intros t' s' ps [H1|H1] H2.
      - injection H1 as <- <-. left. split; [reflexivity|]. split; [reflexivity|]. apply in_app_iff in H2 as [H2|[H2|H2]].
        + destruct prev as [[p pp]|]; [|destruct H2]. destruct H2 as [H2|[]]. congruence.
        + injection H2 as H2 _. lia.
        + pose proof (sorted_lt_head _ _ _ So2 (in_map fst _ _ H2)). cbn in H. lia.
      - right. split; [assumption|]. apply in_app_iff in H2 as [H2|H2]; [|assumption]. exfalso.
        destruct prev as [[p pp]|]; [|destruct H2]. destruct H2 as [H2|[]]. injection H2 as -> ->. cbn [opt_list app map fst] in So.
        pose proof (sorted_lt_head _ _ t So (or_introl eq_refl)). pose proof (sorted_lt_head _ _ _ So2 (in_map fst _ _ H1)). cbn in *. lia. }
    assert (Hh : forall ps, prev = Some (t - 1, ps) -> cat_opt (touch_piece nlay v l t) (is_inter s ps) = Some hx).
    { intros ps ->. unfold here in Eh. replace (t =? t - 1 + 1) with true in Eh by lia. assumption. }
    split.
    + intros g. rewrite in_app_iff, I1. split.
      * intros [H|(t' & s' & ps & i & x & H1 & H2 & H3)].
        -- unfold here in Eh. destruct prev as [[p ps]|]; [|injection Eh as <-; destruct H]. destruct (t =? p + 1) eqn:Et; [|injection Eh as <-; destruct H].
           apply (proj1 (cat_opt_in _ _ _ Eh g)) in H as (i & x & Hi & Hx & Hg). exists t, s, ps, i, x. cbn. replace (t - 1) with p by lia. auto.
        -- exists t', s', ps, i, x. split; [cbn; auto|]. split; [apply in_app_iff; auto|assumption].
      * intros (t' & s' & ps & i & x & H1 & H2 & H3 & H4 & H5). destruct (Key t' s' ps H1 H2) as [(-> & -> & Ep)|[K1 K2]].
        -- left. rewrite (cat_opt_in _ _ _ (Hh ps Ep)). eauto.
        -- right. exists t', s', ps, i, x. auto.
    + intros t' s' ps i H1 H2 H3. destruct (Key t' s' ps H1 H2) as [(-> & -> & Ep)|[K1 K2]]; [|eauto].
      eapply cat_opt_all; [exact (Hh ps Ep)|assumption].
Qed.
Lemma touch_tracks_some v l : (0 <= l - 2 \/ l + 2 < nlay) -> forall m prev, touch_tracks nlay v l prev m <> None.
Proof.
  intros Hl. induction m as [|[t s] m IH]; intros prev; cbn [touch_tracks]; [discriminate|].
  set (here := match prev with Some (p, ps) => if t =? p + 1 then cat_opt (touch_piece nlay v l t) (is_inter s ps) else Some [] | None => Some [] end).
  assert (here <> None).
  { unfold here. destruct prev as [[p ps]|]; [|discriminate]. destruct (t =? p + 1); [|discriminate]. apply cat_opt_some. intros [b e] _. unfold touch_piece.
    destruct (haveLU nlay v l t b e); [discriminate|]. destruct (l + 2 <? nlay) eqn:E1; [discriminate|]. destruct (0 <=? l - 2) eqn:E2; [discriminate|lia]. }
  destruct here; [|congruence]. specialize (IH (Some (t, s))). destruct (touch_tracks nlay v l (Some (t, s)) m); congruence.
Qed.
Lemma crossing_iff v l' t b e : crossing v l' t b e = true <-> exists c, b <= c <= e /\ exists s, In (c, s) (v l') /\ has s t /\ has s (t - 1).
Proof.
  unfold crossing. rewrite existsb_exists. split.
  - intros ((c & s) & Hi & H). cbn [fst snd] in H. apply andb_prop in H as [H H2]. apply andb_prop in H as [H H1]. exists c. split; [lia|]. exists s. rewrite <- !is_has_iff. auto.
  - intros (c & Hc & s & Hi & H1 & H2). exists (c, s). split; [assumption|]. cbn [fst snd]. apply is_has_iff in H1, H2. rewrite H1, H2. lia.
Qed.
Definition nbr (l l' : Z) : Prop := (l' = l + 2 \/ l' = l - 2) /\ 0 <= l' < nlay.
Lemma haveLU_iff v l t b e : 0 <= l < nlay -> haveLU nlay v l t b e = true <-> exists l', nbr l l' /\ crossing v l' t b e = true.
Proof.
  intros Hl. unfold haveLU. rewrite orb_true_iff, !andb_true_iff. split.
  - intros [[H1 H2]|[H1 H2]]; [exists (l - 2)|exists (l + 2)]; (split; [|assumption]); unfold nbr; lia.
  - intros (l' & ([-> | ->] & H1) & H2); [right|left]; (split; [lia|assumption]).
Qed.
Lemma touch_piece_out v l t b e x : 0 <= l < nlay -> touch_piece nlay v l t (b, e) = Some x ->
  (x = [] /\ haveLU nlay v l t b e = true) \/ (exists l', nbr l l' /\ x = [(b, t - 1, t, l')] /\ haveLU nlay v l t b e = false /\ (l + 2 < nlay -> l' = l + 2)).
Proof.
  intros Hl. unfold touch_piece. destruct (haveLU nlay v l t b e); [intros E; injection E as <-; auto|]. right.
  destruct (l + 2 <? nlay) eqn:E1; [injection H as <-; exists (l + 2); unfold nbr; repeat split; auto; lia|].
  destruct (0 <=? l - 2) eqn:E2; [injection H as <-; exists (l - 2); unfold nbr; repeat split; auto; lia|discriminate].
Qed.

(* b is the first position of a longest run on which tracks t and t - 1 are both covered, and no guide of
   a neighbour layer crosses both tracks there *)
Definition side_by_side (v : intvs) (l t b : Z) : Prop :=
  exists e, b <= e /\ (forall x, b <= x <= e -> iv_has v l t x /\ iv_has v l (t - 1) x) /\
    ~ (iv_has v l t (b - 1) /\ iv_has v l (t - 1) (b - 1)) /\ ~ (iv_has v l t (e + 1) /\ iv_has v l (t - 1) (e + 1)) /\
    forall l' c, nbr l l' -> b <= c <= e -> ~ (iv_has v l' c t /\ iv_has v l' c (t - 1)).
Lemma sep_edge s b e : separate s -> In (b, e) s -> ~ has s (b - 1) /\ ~ has s (e + 1).
Proof.
  intros [H1 H2] Hi.
  assert (P : forall b' e', In (b', e') s -> (b', e') = (b, e) \/ e' + 1 < b \/ e + 1 < b').
  { intros b' e' Hi'. destruct (ForallOrdPairs_In H2 (b', e') (b, e) Hi' Hi) as [?|[?|?]]; cbn in *; auto. }
  rewrite Forall_forall in H1. pose proof (H1 _ Hi) as Hbe. cbn in Hbe.
  split; intros (b' & e' & Hi' & Hx); specialize (P b' e' Hi'); (destruct P as [P|P]; [injection P as -> ->|]; lia).
Qed.
Lemma key_unique v l t s s' : iv_ok v -> In (t, s) (v l) -> In (t, s') (v l) -> s = s'.
Proof.
  intros Hv H1 H2. destruct (Hv l) as [So _]. apply sorted_lt_NoDup in So. clear -H1 H2 So. induction (v l) as [|[k u] m IH]; [destruct H1|]. cbn in So. inversion So as [|? ? N1 N2]; subst.
  destruct H1 as [H1|H1], H2 as [H2|H2]; [congruence| | |auto].
  - injection H1 as -> ->. exfalso. apply N1. apply (in_map fst) in H2. assumption.
  - injection H2 as -> ->. exfalso. apply N1. apply (in_map fst) in H1. assumption.
Qed.
(* all touching guides *)
Lemma touch_guides_in v gs : iv_ok v -> touch_guides nlay v = Some gs ->
  (forall b t1 t l', In (b, t1, t, l') gs -> t1 = t - 1 /\ exists l, 0 <= l < nlay /\ nbr l l' /\ (l + 2 < nlay -> l' = l + 2) /\ side_by_side v l t b) /\
  (forall l t s ps i, 0 <= l < nlay -> In (t, s) (v l) -> In (t - 1, ps) (v l) -> In i (is_inter s ps) -> 
      haveLU nlay v l t (fst i) (snd i) = true \/ exists l', nbr l l' /\ In (fst i, t - 1, t, l') gs).
Proof.
  intros Hv E. unfold touch_guides in E.
  assert (K : forall l, 0 <= l < nlay -> exists x, touch_tracks nlay v l None (v l) = Some x /\ forall g, In g x -> In g gs).
  { intros l Hl. destruct (cat_opt_all _ _ _ E l) as (x & Hx); [apply zrange_in; lia|]. exists x. split; [assumption|]. intros g Hg. apply (cat_opt_in _ _ _ E). exists l, x. rewrite zrange_in. repeat split; auto; lia. }
  split.
  - intros b t1 t l' Hg. apply (cat_opt_in _ _ _ E) in Hg as (l & x & Hl & Hx & Hg). apply zrange_in in Hl.
    destruct (touch_tracks_in v l (v l) None x) as [I1 _]; [cbn; apply Hv|assumption|].
    apply I1 in Hg as (t' & s & ps & [b' e'] & y & H1 & H2 & H3 & H4 & H5). cbn [opt_list app] in H2.
    destruct (touch_piece_out v l t' b' e' y ltac:(lia) H4) as [[-> _]|(l2 & N & -> & Hh & Up)]; [destruct H5|]. destruct H5 as [H5|[]]. injection H5 as <- <- <- <-.
    split; [reflexivity|]. exists l. split; [lia|]. split; [assumption|]. split; [assumption|].
    apply is_inter_in in H3 as (b1 & e1 & b2 & e2 & Hi1 & Hi2 & E1 & E2 & Hbe).
    assert (Sep : forall u ps0, In (u, ps0) (v l) -> separate ps0).
    { intros u ps0 Hp. destruct (Hv l) as [_ Hs]. rewrite Forall_forall in Hs. exact (Hs _ Hp). }
    assert (HU : forall u s0 x0, In (u, s0) (v l) -> iv_has v l u x0 -> has s0 x0).
    { intros u s0 x0 Hu (s1 & Hs1 & Hx0). rewrite (key_unique v l u s0 s1 Hv Hu Hs1). assumption. }
    destruct (sep_edge s b1 e1 (Sep _ _ H1) Hi1) as [L1 R1]. destruct (sep_edge ps b2 e2 (Sep _ _ H2) Hi2) as [L2 R2].
    exists e'. split; [assumption|]. split.
    { intros x0 Hx0. split; [exists s; split; [assumption|exists b1, e1; split; [assumption|lia]]|exists ps; split; [assumption|exists b2, e2; split; [assumption|lia]]]. }
    split.
    { intros [Ha Hb]. apply (HU _ _ _ H1) in Ha. apply (HU _ _ _ H2) in Hb. assert (b' = b1 \/ b' = b2) as [-> | ->] by lia; contradiction. }
    split.
    { intros [Ha Hb]. apply (HU _ _ _ H1) in Ha. apply (HU _ _ _ H2) in Hb. assert (e' = e1 \/ e' = e2) as [-> | ->] by lia; contradiction. }
    intros l'' c N'' Hc ((s1 & Hs1 & Y1) & (s2 & Hs2 & Y2)). rewrite (key_unique v l'' c s2 s1 Hv Hs2 Hs1) in Y2.
    assert (haveLU nlay v l t' b' e' = true); [|congruence]. apply haveLU_iff; [lia|]. exists l''. split; [assumption|]. apply crossing_iff. exists c. split; [assumption|]. exists s1. auto.
  - intros l t s ps [b e] Hl H1 H2 H3. destruct (K l Hl) as (x & Hx & Hsub). destruct (touch_tracks_in v l (v l) None x) as [I1 I2]; [cbn; apply Hv|assumption|].
    destruct (I2 t s ps (b, e) H1 H2 H3) as (y & Hy). destruct (touch_piece_out v l t b e y ltac:(lia) Hy) as [[-> Hh]|(l2 & N & -> & Hh & _)]; [auto|]. right. exists l2. split; [assumption|]. apply Hsub, I1.
    exists t, s, ps, (b, e), [(b, t - 1, t, l2)]. cbn. auto 10.
Qed.
Lemma touch_guides_some v : 4 <= nlay -> touch_guides nlay v <> None.
Proof. intros H. apply cat_opt_some. intros l Hl. apply zrange_in in Hl. apply touch_tracks_some. lia. Qed.

Lemma add_touch_fold v gs : fold_left add_touch gs v = fold_left (fun v a => let '(l, t, lo, hi) := (fun g : Z * Z * Z * Z => let '(t, b, e, l) := g in (l, t, b, e)) a in iv_add l t lo hi v) gs v.
Proof. revert v. induction gs as [|[[[t b] e] l] gs IH]; intros v; cbn [fold_left]; [reflexivity|]. apply IH. Qed.
Lemma merge_ok rects v : genGuides_merge xg yg nlay horz rects = Some v -> iv_ok v.
Proof.
  unfold genGuides_merge. destruct (touch_guides nlay (push_rects xg yg horz rects)) as [gs|]; [|discriminate]. intros E. injection E as <-. rewrite add_touch_fold. apply iv_fold_ok, push_rects_ok.
Qed.
(* what is covered after the merge *)
Lemma merge_has rects v : genGuides_merge xg yg nlay horz rects = Some v -> let v0 := push_rects xg yg horz rects in
  (forall l t x, iv_has v0 l t x -> iv_has v l t x) /\
  (forall l' c x, iv_has v l' c x -> iv_has v0 l' c x \/ exists l t, 0 <= l < nlay /\ nbr l l' /\ side_by_side v0 l t c /\ t - 1 <= x <= t /\
     (l + 2 < nlay -> l' = l + 2) /\ iv_has v l' c t /\ iv_has v l' c (t - 1)) /\
  (forall l t c, 0 <= l < nlay -> iv_has v0 l t c -> iv_has v0 l (t - 1) c -> exists b e c' l', b <= c <= e /\ b <= c' <= e /\
     (forall x, b <= x <= e -> iv_has v0 l t x /\ iv_has v0 l (t - 1) x) /\ nbr l l' /\ iv_has v l' c' t /\ iv_has v l' c' (t - 1)).
Proof.
  unfold genGuides_merge. destruct (touch_guides nlay (push_rects xg yg horz rects)) as [gs|] eqn:Eg; [|discriminate]. intros E. injection E as <-. cbv zeta.
  set (v0 := push_rects xg yg horz rects) in *. pose proof (push_rects_ok xg yg horz rects) as Hv. fold v0 in Hv.
  destruct (touch_guides_in v0 gs Hv Eg) as [T1 T2].
  assert (A : forall l' c x, iv_has (fold_left add_touch gs v0) l' c x <-> (exists b e, In (c, b, e, l') gs /\ b <= x <= e) \/ iv_has v0 l' c x).
  { intros l' c x. rewrite add_touch_fold, iv_fold_has by assumption. split.
    - intros [([[[t b] e] l] & l0 & t0 & lo & hi & Hi & E & -> & -> & Hx)|?]; [|auto]. injection E as <- <- <- <-. left. eauto.
    - intros [(b & e & Hi & Hx)|?]; [|auto]. left. exists (c, b, e, l'), l', c, b, e. auto. }
  split; [intros l t x H; apply A; auto|]. split.
  - intros l' c x H. apply A in H as [(b & e & Hi & Hx)|?]; [|auto]. right. destruct (T1 _ _ _ _ Hi) as (-> & l & Hl & Hn & Up & H1). exists l, e. split; [assumption|]. split; [assumption|]. split; [assumption|]. split; [lia|]. split; [assumption|]. split; apply A; left; exists (e - 1), e; (split; [assumption|lia]).
  - intros l t c Hl (s & Hs & b1 & e1 & Hi1 & Hc1) (ps & Hps & b2 & e2 & Hi2 & Hc2).
    assert (Hi : In (Z.max b1 b2, Z.min e1 e2) (is_inter s ps)) by (apply is_inter_in; exists b1, e1, b2, e2; repeat split; auto; lia).
    assert (R : forall x, Z.max b1 b2 <= x <= Z.min e1 e2 -> iv_has v0 l t x /\ iv_has v0 l (t - 1) x).
    { intros x Hx. split; [exists s; split; [assumption|exists b1, e1; split; [assumption|lia]]|exists ps; split; [assumption|exists b2, e2; split; [assumption|lia]]]. }
    destruct (T2 l t s ps _ Hl Hs Hps Hi) as [Hh|(l' & N & Hg)]; cbn [fst snd] in *.
    + apply haveLU_iff in Hh as (l' & N & Hc); [|assumption]. apply crossing_iff in Hc as (c' & Hc' & s' & Hs' & X1 & X2).
      exists (Z.max b1 b2), (Z.min e1 e2), c', l'. split; [lia|]. split; [lia|]. split; [assumption|]. split; [assumption|]. split; apply A; right; exists s'; auto.
    + exists (Z.max b1 b2), (Z.min e1 e2), (Z.max b1 b2), l'. split; [lia|]. split; [lia|]. split; [assumption|]. split; [assumption|]. split; apply A; left; exists (t - 1), t; (split; [assumption|lia]).
Qed.
Lemma merge_some rects : 4 <= nlay -> genGuides_merge xg yg nlay horz rects <> None.
Proof. intros H. unfold genGuides_merge. pose proof (touch_guides_some (push_rects xg yg horz rects) H). destruct (touch_guides nlay (push_rects xg yg horz rects)); congruence. Qed.
Lemma tidy_ok v : iv_ok v -> tidy v.
Proof. intros H l. destruct (H l) as [H1 H2]. split; [apply sorted_lt_NoDup|]; assumption. Qed.
End Touch.
