(* Pins, adjacency, and the meaning of the search on a net. *)
From Verif Require Import Base GeomModel TreeModel TreeSpec TreeProofs ConnModel ConnSpec ConnProofs3 ConnProofs4.
From Coq Require Import Sorted.

(* ---- pins *)
Definition p2e_at (m : p2e) (id : Z) (k : loc) : Prop := exists s, In (id, s) m /\ In k s.
Lemma loc_ins_in k s k' : In k' (loc_ins k s) <-> k' = k \/ In k' s.
Proof.
  unfold loc_ins. destruct (existsb (loc_eqb k) s) eqn:E.
  - apply existsb_exists in E as (k0 & H & E). apply loc_eqb_iff in E as <-. split; [auto|]. intros [-> | ?]; assumption.
  - rewrite in_app_iff. cbn. intuition.
Qed.
Lemma p2e_ins_at id k m id' k' : p2e_at (p2e_ins id k m) id' k' <-> (id' = id /\ k' = k) \/ p2e_at m id' k'.
Proof.
  unfold p2e_at. induction m as [|[i s] m IH]; cbn [p2e_ins].
  - cbn. split; [intros (s & [E|[]] & Hk); injection E as <- <-; destruct Hk as [<-|[]]; auto|]. intros [[-> ->]|(s & [] & _)]. exists [k]. cbn. auto.
  - destruct (id <? i); [|destruct (Z.eqb_spec id i) as [->|]]; cbn [In].
    + split; [intros (s' & [E|H] & Hk); [injection E as <- <-; destruct Hk as [<-|[]]; auto|right; exists s'; auto]|].
      intros [[-> ->]|(s' & H & Hk)]; [exists [k]; cbn; auto|exists s'; auto].
    + split.
      * intros (s' & [E|H] & Hk); [injection E as <- <-; apply loc_ins_in in Hk as [->|]; [auto|right; exists s; auto]|right; exists s'; auto].
      * intros [[-> ->]|(s' & [E|H] & Hk)]; [exists (loc_ins k s); rewrite loc_ins_in; auto|injection E as <- <-; exists (loc_ins k s); rewrite loc_ins_in; auto|exists s'; auto].
    + split.
      * intros (s' & [E|H] & Hk); [injection E as <- <-; right; exists s; auto|]. destruct (proj1 IH (ex_intro _ s' (conj H Hk))) as [?|(s2 & ? & ?)]; [auto|right; exists s2; auto].
      * intros [H|(s' & [E|H] & Hk)]; [destruct (proj2 IH (or_introl H)) as (s2 & ? & ?); exists s2; auto|injection E as <- <-; exists s; auto|].
        destruct (proj2 IH (or_intror (ex_intro _ s' (conj H Hk)))) as (s2 & ? & ?). exists s2. auto.
Qed.
(* ascending ids, non-empty sets *)
Definition p2e_ok (m : p2e) : Prop := StronglySorted (fun a b => fst a < fst b) m /\ forall id s, In (id, s) m -> s <> [].
Lemma loc_ins_nonempty k s : loc_ins k s <> [].
Proof. unfold loc_ins. destruct (existsb (loc_eqb k) s) eqn:E; [destruct s; [discriminate|discriminate]|destruct s; discriminate]. Qed.
Lemma p2e_ins_ids id k m e : In e (p2e_ins id k m) -> fst e = id \/ exists e', In e' m /\ fst e' = fst e.
Proof.
  induction m as [|[i s] m IH]; cbn [p2e_ins].
  - intros [<-|[]]. auto.
  - destruct (id <? i); [|destruct (Z.eqb_spec id i) as [->|]]; cbn [In].
    + intros [<-|[<-|H]]; [auto|right; exists (i, s); auto|right; exists e; auto].
    + intros [<-|H]; [auto|right; exists e; auto].
    + intros [<-|H]; [right; exists (i, s); auto|]. destruct (IH H) as [?|(e' & ? & ?)]; [auto|right; exists e'; auto].
Qed.
Lemma p2e_ins_ok id k m : p2e_ok m -> p2e_ok (p2e_ins id k m).
Proof.
  intros [Hs Hn]. split.
  - clear Hn. induction m as [|[i s] m IH]; cbn [p2e_ins]; [repeat constructor|].
    inversion Hs as [|? ? H1 H2]; subst. destruct (Z.ltb_spec id i); [|destruct (Z.eqb_spec id i) as [->|]].
    + constructor; [assumption|]. constructor; [cbn; lia|]. eapply Forall_impl; [|exact H2]. cbn. lia.
    + constructor; assumption.
    + constructor; [apply IH; assumption|]. apply Forall_forall. intros e He. destruct (p2e_ins_ids id k m e He) as [->|(e' & H3 & <-)]; [cbn; lia|].
      rewrite Forall_forall in H2. apply H2. assumption.
  - clear Hs. induction m as [|[i s] m IH]; cbn [p2e_ins]; [intros id' s' [E|[]]; injection E as <- <-; discriminate|].
    destruct (id <? i); [|destruct (Z.eqb_spec id i) as [->|]]; cbn [In]; intros id' s'.
    + intros [E|H]; [injection E as <- <-; discriminate|]. apply (Hn id' s'). assumption.
    + intros [E|H]; [injection E as <- <-; apply loc_ins_nonempty|]. apply (Hn id' s'). cbn. auto.
    + intros [E|H]; [injection E as <- <-; apply (Hn i s); cbn; auto|]. apply IH with (id := id') (s := s'); [|assumption]. intros id2 s2 H2. apply (Hn id2 s2). cbn. auto.
Qed.

Section Pins.
Variable pins_at : point -> Z -> list Z.
Lemma helper_at p l m id k : p2e_at (pin2epMap_helper pins_at p l m) id k <-> p2e_at m id k \/ (k = (p, l) /\ In id (pins_at p l)).
Proof.
  unfold pin2epMap_helper. revert m. induction (pins_at p l) as [|a L IH]; intros m; cbn [fold_left]; [cbn; tauto|].
  rewrite IH, p2e_ins_at. cbn. intuition.
Qed.
Lemma helper_ok p l m : p2e_ok m -> p2e_ok (pin2epMap_helper pins_at p l m).
Proof. unfold pin2epMap_helper. revert m. induction (pins_at p l) as [|a L IH]; intros m H; cbn; auto using p2e_ins_ok. Qed.
Lemma seg_at st o id k : p2e_at (fst (pin2ep_seg pins_at st o)) id k <-> p2e_at (fst st) id k \/ (truncated_end o k /\ In id (pins_at (fst k) (snd k))).
Proof.
  destruct st as [m ext], o as [bp ep l tb te|]; cbn [pin2ep_seg truncated_end fst]; [|tauto].
  destruct tb, te; cbn [fst]; rewrite ?helper_at; split; intros H; intuition; subst; cbn in *; auto; discriminate.
Qed.
Lemma seg_ext st o k : In k (snd (pin2ep_seg pins_at st o)) <-> In k (snd st) \/ extended_end o k.
Proof.
  destruct st as [m ext], o as [bp ep l tb te|]; cbn [pin2ep_seg extended_end snd]; [|tauto].
  destruct tb, te; cbn [snd]; rewrite ?loc_ins_in; intuition discriminate.
Qed.
Lemma segs_at L : forall st id k, p2e_at (fst (fold_left (pin2ep_seg pins_at) L st)) id k <-> p2e_at (fst st) id k \/ ((exists o, In o L /\ truncated_end o k) /\ In id (pins_at (fst k) (snd k))).
Proof.
  induction L as [|o L IH]; intros st id k; cbn [fold_left].
  - split; [auto|]. intros [?|((o & [] & _) & _)]. assumption.
  - rewrite IH, seg_at. split.
    + intros [[?|[? ?]]|((o' & ? & ?) & ?)]; [auto|right; split; [exists o; cbn; auto|assumption]|right; split; [exists o'; cbn; auto|assumption]].
    + intros [?|((o' & [<-|?] & ?) & ?)]; [auto|auto|right; split; [exists o'; auto|assumption]].
Qed.
Lemma segs_ext L : forall st k, In k (snd (fold_left (pin2ep_seg pins_at) L st)) <-> In k (snd st) \/ exists o, In o L /\ extended_end o k.
Proof.
  induction L as [|o L IH]; intros st k; cbn [fold_left].
  - split; [auto|]. intros [?|(o & [] & _)]. assumption.
  - rewrite IH, seg_ext. split.
    + intros [[?|?]|(o' & ? & ?)]; [auto|right; exists o; cbn; auto|right; exists o'; cbn; auto].
    + intros [?|(o' & [<-|?] & ?)]; [auto|auto|right; exists o'; auto].
Qed.
Lemma segs_ok L : forall st, p2e_ok (fst st) -> p2e_ok (fst (fold_left (pin2ep_seg pins_at) L st)).
Proof.
  induction L as [|o L IH]; intros st H; cbn [fold_left]; [assumption|]. apply IH.
  destruct st as [m ext], o as [bp ep l tb te|]; cbn [pin2ep_seg]; [|assumption]. destruct tb, te; cbn [fst] in *; auto using helper_ok.
Qed.
Lemma existsb_loc k s : existsb (loc_eqb k) s = true <-> In k s.
Proof.
  rewrite existsb_exists. split; [intros (k' & H & E); apply loc_eqb_iff in E as <-; assumption|]. intros H. exists k. split; [assumption|apply loc_eqb_iff; reflexivity].
Qed.
Lemma vias_at ext L : forall m id k, p2e_at (fold_left (pin2ep_via pins_at ext) L m) id k <-> p2e_at m id k \/ ((exists o, In o L /\ via_end o k) /\ ~ In k ext /\ In id (pins_at (fst k) (snd k))).
Proof.
  induction L as [|o L IH]; intros m id k; cbn [fold_left].
  - split; [auto|]. intros [?|((o & [] & _) & _)]. assumption.
  - rewrite IH. clear IH. destruct o as [bp ep l tb te|p l1 l2]; cbn [pin2ep_via].
    + split; (intros [?|((o' & H & Hv) & ?)]; [auto|]); right; (split; [|assumption]); exists o'; cbn in *; [auto|]. destruct H as [<-|?]; [destruct Hv|auto].
    + assert (A : forall m0 l, p2e_at (if existsb (loc_eqb (p, l)) ext then m0 else pin2epMap_helper pins_at p l m0) id k <-> p2e_at m0 id k \/ (k = (p, l) /\ ~ In k ext /\ In id (pins_at (fst k) (snd k)))).
      { intros m0 l. pose proof (existsb_loc (p, l) ext) as E. destruct (existsb (loc_eqb (p, l)) ext).
        - split; [auto|]. intros [?|(-> & Hn & _)]; [assumption|]. exfalso. apply Hn, E. reflexivity.
        - rewrite helper_at. split; (intros [?|H]; [auto|right]); [destruct H as [-> H]; repeat split; auto; intros Hx; apply E in Hx; discriminate|destruct H as (-> & _ & H); auto]. }
      rewrite !A. split.
      * intros [[[?|(? & ? & ?)]|(? & ? & ?)]|((o' & ? & ?) & ?)]; [auto| | |]; right.
        -- split; [exists (RVia p l1 l2); cbn; auto|auto].
        -- split; [exists (RVia p l1 l2); cbn; auto|auto].
        -- split; [exists o'; cbn; auto|assumption].
      * intros [?|((o' & [<-|?] & Hv) & ?)]; [auto| |].
        -- cbn in Hv. destruct Hv; auto.
        -- right. split; [exists o'; auto|assumption].
Qed.
Lemma vias_ok ext L : forall m, p2e_ok m -> p2e_ok (fold_left (pin2ep_via pins_at ext) L m).
Proof.
  induction L as [|o L IH]; intros m H; cbn [fold_left]; [assumption|]. apply IH.
  destruct o as [|p l1 l2]; cbn [pin2ep_via]; [assumption|]. destruct (existsb (loc_eqb (p, l1)) ext), (existsb (loc_eqb (p, l2)) ext); auto using helper_ok.
Qed.
Lemma pins_touch objs id k : p2e_at (pin2epMap pins_at objs) id k <-> touches pins_at objs id k.
Proof.
  unfold pin2epMap, touches. pose proof (segs_at objs ([], []) id k) as A. pose proof (segs_ext objs ([], []) k) as B.
  destruct (fold_left (pin2ep_seg pins_at) objs ([], [])) as [m ext]. cbn [fst snd] in *. rewrite vias_at, A, B.
  assert (N : ~ p2e_at [] id k) by (intros (s & [] & _)). cbn [In]. tauto.
Qed.
Lemma pins_ok objs : p2e_ok (pin2epMap pins_at objs).
Proof.
  unfold pin2epMap. pose proof (segs_ok objs ([], [])) as A. destruct (fold_left (pin2ep_seg pins_at) objs ([], [])) as [m ext]. cbn [fst] in A.
  apply vias_ok, A. split; [constructor|]. intros ? ? [].
Qed.
End Pins.

Lemma nm_ins_fold_at n s : forall m k j, at_node (fold_left (fun m k => nm_ins k n m) s m) k j <-> at_node m k j \/ (j = n /\ In k s).
Proof. induction s as [|a s IH]; intros m k j; cbn [fold_left]; [cbn; tauto|]. rewrite IH, nm_ins_at. cbn. intuition. Qed.
Lemma nm_ins_fold_ok n s : forall m, nm_ok m -> nm_ok (fold_left (fun m k => nm_ins k n m) s m).
Proof. induction s as [|a s IH]; intros m H; cbn [fold_left]; auto using nm_ins_ok. Qed.
Lemma nm_pins_at pins : forall n m k j, at_node (nm_pins n pins m) k j <-> at_node m k j \/ exists q e, nth_error pins q = Some e /\ j = (n + q)%nat /\ In k (snd e).
Proof.
  induction pins as [|[id s] pins IH]; intros n m k j; cbn [nm_pins].
  - split; [auto|]. intros [?|([|q] & e & H & _)]; [assumption|discriminate|discriminate].
  - rewrite IH, nm_ins_fold_at. split.
    + intros [[?|[-> ?]]|(q & e & ? & -> & ?)]; [auto|right; exists 0%nat, (id, s); cbn; repeat split; auto; lia|right; exists (S q), e; cbn; repeat split; auto; lia].
    + intros [?|([|q] & e & H & -> & Hk)]; [auto|cbn in H; injection H as <-; left; right; split; [lia|assumption]|right; exists q, e; cbn in H; repeat split; auto; lia].
Qed.
Lemma nm_pins_ok pins : forall n m, nm_ok m -> nm_ok (nm_pins n pins m).
Proof. induction pins as [|[id s] pins IH]; intros n m H; cbn; auto using nm_ins_fold_ok. Qed.

(* ---- adjacency *)
Lemma pairs_in s x y : In (x, y) (pairs s) -> In x s /\ In y s.
Proof.
  induction s as [|a s IH]; cbn; [easy|]. rewrite in_app_iff, in_map_iff. intros [(j & E & H)|H]; [injection E as <- <-; auto|]. destruct (IH H). auto.
Qed.
Lemma in_pairs s x y : In x s -> In y s -> x <> y -> In (x, y) (pairs s) \/ In (y, x) (pairs s).
Proof.
  induction s as [|a s IH]; cbn; [easy|]. rewrite !in_app_iff, !in_map_iff. intros [->|Hx] [->|Hy] Hn; [congruence|left; left; eauto|right; left; eauto|]. destruct (IH Hx Hy Hn); auto.
Qed.
Lemma adjVec_iff m i j : nm_ok m -> i <> j -> In j (adjVec m i) <-> exists k, at_node m k i /\ at_node m k j.
Proof.
  intros Hm Hij. unfold adjVec. rewrite in_flat_map. split.
  - intros ((x & y) & H & Hj). apply in_flat_map in H as ((k & s) & Hs & Hp). apply pairs_in in Hp as [Hx Hy]. cbn in Hx, Hy. apply in_app_or in Hj. exists k.
    destruct (Nat.eqb_spec x i), (Nat.eqb_spec y i); cbn in Hj; destruct Hj as [Hj|Hj]; try destruct Hj as [Hj|[]]; try destruct Hj; subst; split; exists s; auto.
  - intros (k & (s & Hs & Hi) & (s' & Hs' & Hj)).
    assert (s' = s) as ->.
    { unfold nm_ok in Hm. clear -Hm Hs Hs'. induction m as [|[k0 s0] m IH]; [destruct Hs|]. cbn in Hm. inversion Hm as [|? ? Hn Hd]; subst.
      destruct Hs as [E|Hs], Hs' as [E'|Hs']; [congruence| | |auto].
      - injection E as -> ->. exfalso. apply Hn. apply (in_map fst) in Hs'. assumption.
      - injection E' as -> ->. exfalso. apply Hn. apply (in_map fst) in Hs. assumption. }
    destruct (in_pairs s i j Hi Hj Hij) as [H|H]; [exists (i, j)|exists (j, i)]; (split; [apply in_flat_map; exists (k, s); auto|]); rewrite in_app_iff, Nat.eqb_refl; cbn; auto.
Qed.
Lemma adjVec_range m i j : In j (adjVec m i) -> exists k, at_node m k j.
Proof.
  unfold adjVec. rewrite in_flat_map. intros ((x & y) & H & Hj). apply in_flat_map in H as ((k & s) & Hs & Hp). apply pairs_in in Hp as [Hx Hy]. cbn in Hx, Hy.
  exists k, s. split; [assumption|]. apply in_app_or in Hj. destruct (Nat.eqb x i), (Nat.eqb y i); cbn in Hj; destruct Hj as [Hj|Hj]; try destruct Hj as [Hj|[]]; try destruct Hj; subst; auto.
Qed.

Section Meaning.
Variable pins_at : point -> Z -> list Z.
Variable objs : list robj.
Hypothesis ok : Forall wire_ok objs.
Hypothesis apart : no_overlap objs.
Let pins := pin2epMap pins_at objs.
Let gCnt := length objs.
Let nCnt := (gCnt + length pins)%nat.
Let nm := nodeMap objs pins.
Let adj := adjVec nm.

Definition item_of (n : nat) : item :=
  if (n <? gCnt)%nat then Wire n else match nth_error pins (n - gCnt) with Some e => Pin (fst e) | None => Wire n end.
Lemma nm_is_ok : nm_ok nm.
Proof. unfold nm, nodeMap. apply nm_pins_ok, routeObjSplit_ok, routeObjEnd_ok. constructor. Qed.
Lemma touches_end id k : touches pins_at objs id k -> exists o, In o objs /\ is_end o k.
Proof.
  intros (_ & [(o & H & T)|((o & H & T) & _)]); exists o; (split; [assumption|]); destruct o; cbn in *; tauto.
Qed.
Lemma pins_unique q q' e e' : nth_error pins q = Some e -> nth_error pins q' = Some e' -> fst e = fst e' -> q = q'.
Proof.
  destruct (pins_ok pins_at objs) as [Hs _]. fold pins in Hs. revert q q'. induction Hs as [|a l H1 H2 H3]; intros [|q] [|q'] E E' F; cbn in *; try discriminate; auto.
  - injection E as <-. apply nth_error_In in E'. rewrite Forall_forall in H3. specialize (H3 _ E'). lia.
  - injection E' as <-. apply nth_error_In in E. rewrite Forall_forall in H3. specialize (H3 _ E). lia.
Qed.
Lemma pin_at q e k : nth_error pins q = Some e -> In k (snd e) <-> touches pins_at objs (fst e) k.
Proof.
  intros E. rewrite <- (pins_touch pins_at objs (fst e) k). fold pins. split.
  - intros H. exists (snd e). split; [|assumption]. rewrite <- surjective_pairing. eapply nth_error_In; eassumption.
  - intros (s & Hs & H). apply In_nth_error in Hs as (q' & E'). pose proof (pins_unique q q' e _ E E' eq_refl). subst q'. rewrite E in E'. injection E' as ->. assumption.
Qed.
Lemma node_at n k : at_node nm k n <-> (n < nCnt)%nat /\ (exists o, In o objs /\ is_end o k) /\ item_at pins_at objs (item_of n) k.
Proof.
  unfold nm, nodeMap. rewrite nm_pins_at, objs_at by assumption. unfold item_of. fold gCnt. split.
  - intros [(H & o & Ho & Hl)|(q & e & E & -> & Hk)].
    + assert (n < gCnt)%nat by (apply nth_error_Some; congruence). split; [unfold nCnt; lia|]. split; [assumption|]. replace (n <? gCnt)%nat with true by (symmetry; apply Nat.ltb_lt; assumption). exists o. auto.
    + assert (q < length pins)%nat by (apply nth_error_Some; congruence). split; [unfold nCnt; lia|].
      replace (gCnt + q <? gCnt)%nat with false by (symmetry; apply Nat.ltb_ge; lia). replace (gCnt + q - gCnt)%nat with q by lia. rewrite E.
      apply (pin_at q e k E) in Hk. split; [eapply touches_end; eassumption|assumption].
  - intros (Hn & He & Hi). destruct (Nat.ltb_spec n gCnt) as [L|L].
    + left. split; [assumption|]. exact Hi.
    + right. destruct (nth_error pins (n - gCnt)) as [e|] eqn:E.
      * exists (n - gCnt)%nat, e. split; [assumption|]. split; [lia|]. apply (pin_at _ _ _ E). exact Hi.
      * apply nth_error_None in E. unfold nCnt in Hn. lia.
Qed.
Lemma adj_range : in_range adj nCnt.
Proof. intros i j _ H. apply adjVec_range in H as (k & H). apply node_at in H. tauto. Qed.
Lemma adj_meet i j : (i < nCnt)%nat -> (j < nCnt)%nat -> i <> j -> In j (adj i) <-> exists k, meet pins_at objs (item_of i) (item_of j) k.
Proof.
  intros Hi Hj Hn. unfold adj. rewrite (adjVec_iff nm i j nm_is_ok Hn). split; intros (k & H); exists k.
  - rewrite !node_at in H. unfold meet. tauto.
  - rewrite !node_at. unfold meet in H. tauto.
Qed.
Lemma item_inj i j : (i < nCnt)%nat -> (j < nCnt)%nat -> item_of i = item_of j -> i = j.
Proof.
  unfold item_of, nCnt. intros Hi Hj. destruct (Nat.ltb_spec i gCnt), (Nat.ltb_spec j gCnt).
  - congruence.
  - destruct (nth_error pins (j - gCnt)) eqn:E; [discriminate|]. apply nth_error_None in E. lia.
  - destruct (nth_error pins (i - gCnt)) eqn:E; [discriminate|]. apply nth_error_None in E. lia.
  - destruct (nth_error pins (i - gCnt)) eqn:E; [|apply nth_error_None in E; lia]. destruct (nth_error pins (j - gCnt)) eqn:E'; [|apply nth_error_None in E'; lia].
    intros F. injection F as F. pose proof (pins_unique _ _ _ _ E E' F). lia.
Qed.
Lemma item_exists it k : item_at pins_at objs it k -> exists n, (n < nCnt)%nat /\ item_of n = it.
Proof.
  destruct it as [i|id]; cbn.
  - intros (o & Ho & _). assert (i < gCnt)%nat by (apply nth_error_Some; congruence). exists i. split; [unfold nCnt; lia|]. unfold item_of. replace (i <? gCnt)%nat with true by (symmetry; apply Nat.ltb_lt; assumption). reflexivity.
  - intros H. apply (pins_touch pins_at objs id k) in H as (s & Hs & _). fold pins in Hs. apply In_nth_error in Hs as (q & E). assert (q < length pins)%nat by (apply nth_error_Some; congruence).
    exists (gCnt + q)%nat. split; [unfold nCnt; lia|]. unfold item_of. replace (gCnt + q <? gCnt)%nat with false by (symmetry; apply Nat.ltb_ge; lia). replace (gCnt + q - gCnt)%nat with q by lia. rewrite E. reflexivity.
Qed.

(* chains of nodes are chains of items *)
Lemma within_linked (K : nat -> Prop) (S : item -> Prop) a b : (forall n, K n -> (n < nCnt)%nat /\ S (item_of n)) ->
  within adj K a b -> linked pins_at objs S (item_of a) (item_of b).
Proof.
  intros HK. induction 1 as [Ha|b c Hb IH Hc Kc]; [apply linked_refl; apply HK; assumption|].
  assert (Kb : K b) by (destruct Hb; assumption). destruct (HK b Kb) as [Lb _], (HK c Kc) as [Lc Sc].
  destruct (Nat.eq_dec b c) as [<-|Hn]; [assumption|]. apply (adj_meet b c Lb Lc Hn) in Hc as (k & Hk). eapply linked_step; eauto.
Qed.
Lemma linked_reachable (S : item -> Prop) a it : (a < nCnt)%nat -> linked pins_at objs S (item_of a) it -> exists n, (n < nCnt)%nat /\ item_of n = it /\ reachable adj a n.
Proof.
  intros La. induction 1 as [Ha|b c k Hb IH Hm Sc]; [exists a; repeat split; auto; constructor; exact I|].
  destruct IH as (n & Ln & <- & Hr). destruct (item_exists c k ltac:(apply Hm)) as (n' & Ln' & <-). exists n'. split; [assumption|]. split; [reflexivity|].
  destruct (Nat.eq_dec n n') as [<-|Hn]; [assumption|]. econstructor; [exact Hr|apply adj_meet; eauto|exact I].
Qed.
Lemma meet_sym a b k : meet pins_at objs a b k -> meet pins_at objs b a k.
Proof. unfold meet. tauto. Qed.
Lemma linked_in S a b : linked pins_at objs S a b -> S a /\ S b.
Proof. induction 1; tauto. Qed.
Lemma linked_trans S a b c : linked pins_at objs S a b -> linked pins_at objs S b c -> linked pins_at objs S a c.
Proof. intros H1. induction 1; [assumption|eapply linked_step; eauto]. Qed.
Lemma linked_sym S a b : linked pins_at objs S a b -> linked pins_at objs S b a.
Proof.
  induction 1 as [Ha|b c k Hb IH Hm Sc]; [apply linked_refl; assumption|].
  eapply linked_trans; [|exact IH]. eapply linked_step; [apply linked_refl; assumption|apply meet_sym; exact Hm|]. apply (linked_in _ _ _ Hb).
Qed.
Lemma pin_node q e : nth_error pins q = Some e -> item_of (gCnt + q) = Pin (fst e) /\ (gCnt + q < nCnt)%nat.
Proof.
  intros E. assert (q < length pins)%nat by (apply nth_error_Some; congruence). split; [|unfold nCnt; lia].
  unfold item_of. replace (gCnt + q <? gCnt)%nat with false by (symmetry; apply Nat.ltb_ge; lia). replace (gCnt + q - gCnt)%nat with q by lia. rewrite E. reflexivity.
Qed.
Lemma touched_node id : touched pins_at objs id <-> exists q e, nth_error pins q = Some e /\ fst e = id.
Proof.
  split.
  - intros (k & H). apply (pins_touch pins_at objs id k) in H as (s & Hs & _). fold pins in Hs. apply In_nth_error in Hs as (q & E). exists q, (id, s). auto.
  - intros (q & e & E & <-). destruct (pins_ok pins_at objs) as [_ Hn]. fold pins in Hn. destruct e as [id s]. specialize (Hn id s (nth_error_In _ _ E)).
    destruct s as [|k s]; [congruence|]. exists k. apply (pin_at q (id, k :: s) k E). cbn. auto.
Qed.

Lemma within_last (K : nat -> Prop) a n : within adj K a n -> n <> a -> exists b, K b /\ b <> n /\ In n (adj b).
Proof.
  induction 1 as [|b c Hb IH Hc Kc]; [congruence|]. intros Hn. destruct (Nat.eq_dec b c) as [->|Hbc]; [auto|]. exists b. split; [destruct Hb; assumption|auto].
Qed.
(* the items kept by the search *)
Definition kept_by (K : nat -> bool) (it : item) : Prop := exists n, K n = true /\ item_of n = it.
Theorem conn_astar_spec : exists n0, forall pick fuel, (n0 <= fuel)%nat ->
  exists okb K, conn_astar pick fuel nm gCnt nCnt = Some (okb, K) /\
  (forall n, K n = true -> (n < nCnt)%nat) /\
  ((length pins <= 1)%nat -> (forall n, K n = false) /\ (okb = true <-> pins = [])) /\
  ((2 <= length pins)%nat ->
    (okb = true -> forall p q, touched pins_at objs p -> touched pins_at objs q -> linked pins_at objs (kept_by K) (Pin p) (Pin q)) /\
    ((forall p q, touched pins_at objs p -> touched pins_at objs q -> linked pins_at objs (fun _ => True) (Pin p) (Pin q)) -> okb = true)) /\
  (okb = true -> forall q, (q < length pins)%nat -> K (gCnt + q)%nat = true) /\
  (forall u, K u = true -> (u < gCnt)%nat -> exists a k, kept_by K a /\ a <> Wire u /\ meet pins_at objs (Wire u) a k) /\
  (pick_min pick -> forall u, K u = true -> (u < gCnt)%nat -> exists a b ka kb, kept_by K a /\ kept_by K b /\ ka <> kb /\ a <> Wire u /\ b <> Wire u /\
     meet pins_at objs (Wire u) a ka /\ meet pins_at objs (Wire u) b kb).
Proof.
  exists (turns adj nCnt). intros pick fuel Hf. unfold conn_astar. fold adj.
  destruct (tree_search_spec adj gCnt nCnt (fun i => if (gCnt <=? i)%nat then 5 else 0) pick adj_range fuel Hf) as (K & prev & -> & S1 & S2 & S3 & S4 & S5).
  exists (all_pins gCnt nCnt K), K. split; [reflexivity|]. split; [assumption|].
  assert (AP : all_pins gCnt nCnt K = true <-> forall q, (q < length pins)%nat -> K (gCnt + q)%nat = true).
  { unfold all_pins. rewrite forallb_forall. split.
    - intros H q Hq. apply H. apply in_seq. unfold nCnt. lia.
    - intros H n Hn. apply in_seq in Hn. replace n with (gCnt + (n - gCnt))%nat by lia. apply H. unfold nCnt in Hn. lia. }
  split; [|split; [|split; [|split]]].
  - intros Hl. assert (KF : forall n, K n = false) by (apply S5; unfold nCnt; lia). split; [assumption|]. rewrite AP. split.
    + intros H. destruct pins as [|e r]; [reflexivity|]. specialize (H 0%nat ltac:(cbn; lia)). rewrite KF in H. discriminate.
    + intros -> q Hq. cbn in Hq. lia.
  - intros Hl. split.
    + intros HA.
      assert (Hall : forall p, touched pins_at objs p -> linked pins_at objs (kept_by K) (item_of gCnt) (Pin p)).
      { intros p Hp. apply touched_node in Hp as (q & e & E & <-). destruct (pin_node q e E) as [Ei Li]. rewrite <- Ei.
        apply (within_linked (fun m => K m = true) (kept_by K)); [intros n Hn; split; [auto|exists n; auto]|]. apply S2. apply (proj1 AP HA). apply nth_error_Some. congruence. }
      intros p q Hp Hq. eapply linked_trans; [apply linked_sym; apply Hall; assumption|apply Hall; assumption].
    + intros HL. destruct S4 as [?|(t & Ht & Hr)]; [unfold nCnt; lia|assumption|]. exfalso. apply Hr.
      destruct (nth_error pins 0) as [e0|] eqn:E0; [|apply nth_error_None in E0; lia].
      destruct (nth_error pins (t - gCnt)) as [et|] eqn:Et; [|apply nth_error_None in Et; unfold nCnt in Ht; lia].
      destruct (pin_node _ _ E0) as [I0 L0]. destruct (pin_node _ _ Et) as [It Lt]. rewrite Nat.add_0_r in I0, L0. replace (gCnt + (t - gCnt))%nat with t in It, Lt by lia.
      specialize (HL (fst e0) (fst et) ltac:(apply touched_node; eauto) ltac:(apply touched_node; eauto)). rewrite <- I0 in HL.
      destruct (linked_reachable _ gCnt _ L0 HL) as (n & Ln & En & Hn). rewrite <- It in En. apply item_inj in En; [|assumption|assumption]. subst n. assumption.
  - intros HA. apply AP. assumption.
  - intros u Ku Lu. destruct (within_last (fun m => K m = true) gCnt u (S2 u Ku) ltac:(lia)) as (b & Kb & Hbu & Hb).
    assert (Iu : item_of u = Wire u) by (unfold item_of; replace (u <? gCnt)%nat with true by (symmetry; apply Nat.ltb_lt; assumption); reflexivity).
    apply (adj_meet b u (S1 b Kb) (S1 u Ku) Hbu) in Hb as (k & Hk). exists (item_of b), k. split; [exists b; auto|]. split; [|rewrite <- Iu; apply meet_sym; assumption].
    rewrite <- Iu. intros E. apply item_inj in E; auto.
  - intros Hp u Ku Lu. destruct (S3 Hp u Ku Lu) as (a & b & Ka & Kb & Hab & Hau & Hub & Hnab).
    assert (La := S1 a Ka). assert (Lb := S1 b Kb). assert (Lu' := S1 u Ku).
    assert (Iu : item_of u = Wire u) by (unfold item_of; replace (u <? gCnt)%nat with true by (symmetry; apply Nat.ltb_lt; assumption); reflexivity).
    assert (a <> u) by (intros ->; contradiction).
    assert (b <> u) by (intros ->; contradiction).
    apply (adj_meet a u La Lu') in Hau as (ka & Hka); [|assumption]. apply (adj_meet u b Lu' Lb) in Hub as (kb & Hkb); [|auto].
    exists (item_of a), (item_of b), ka, kb. rewrite Iu in *. split; [exists a; auto|]. split; [exists b; auto|]. split; [|split; [|split; [|split; [apply meet_sym; assumption|assumption]]]].
    + intros <-. apply Hnab. apply adj_meet; auto. exists ka. unfold meet in *. tauto.
    + rewrite <- Iu. intros E. apply item_inj in E; auto.
    + rewrite <- Iu. intros E. apply item_inj in E; auto.
Qed.
End Meaning.
