(* The node map of a clip and the sub-nets it gives. *)
From Verif Require Import Base GeomModel TreeModel TreeSpec TreeProofs ConnModel ConnSpec ConnProofs3 ConnProofs4 ConnProofs5 SubnetModel SubnetSpec SubnetProofs1.
From Coq Require Import Sorted Permutation.

Lemma in_clip_iff b p : box_contains_pt b p true = true <-> in_clip b p.
Proof. unfold box_contains_pt, in_clip, bleft, bright, bbottom, btop. lia. Qed.

(* ---- pins *)
Section P.
Variable pins_at : point -> Z -> list Z.
Variable routeBox : box.
Definition pin_end (d : dfig) (k : loc) : Prop :=
  match d with DFig o => truncated_end o k \/ via_end o k | DPatch _ _ => False end.
Lemma sub_pin_at m d id k : p2e_at (sub_pin pins_at routeBox m d) id k <->
  p2e_at m id k \/ (In id (pins_at (fst k) (snd k)) /\ in_clip routeBox (fst k) /\ pin_end d k).
Proof.
  assert (H : forall p l (c : bool) m, p2e_at (if c && box_contains_pt routeBox p true then pin2epMap_helper pins_at p l m else m) id k <->
     p2e_at m id k \/ (In id (pins_at (fst k) (snd k)) /\ in_clip routeBox (fst k) /\ c = true /\ k = (p, l))).
  { intros p l c m0. pose proof (in_clip_iff routeBox p) as B. destruct c; cbn [andb].
    - destruct (box_contains_pt routeBox p true).
      + rewrite helper_at. split; (intros [?|H]; [auto|right]).
        * destruct H as [-> H]. cbn. tauto.
        * destruct H as (H1 & _ & _ & ->). cbn in *. auto.
      + split; [auto|]. intros [?|(_ & H2 & _ & ->)]; [assumption|]. cbn in H2. apply B in H2. discriminate.
    - split; [auto|]. intros [?|(_ & _ & ? & _)]; [assumption|discriminate]. }
  destruct d as [[bp ep l tb te|p l1 l2]|p l]; cbn [sub_pin pin_end truncated_end via_end is_end].
  - rewrite !H. tauto.
  - assert (E : forall a b : p2e, (if box_contains_pt routeBox p true then a else b) = (if true && box_contains_pt routeBox p true then a else b)) by reflexivity.
    pose proof (in_clip_iff routeBox p) as B. destruct (box_contains_pt routeBox p true).
    + rewrite !helper_at. split.
      * intros [[?|[-> ?]]|[-> ?]]; [auto| |]; right; cbn; tauto.
      * intros [?|(H1 & H2 & [[]|[-> | ->]])]; cbn in *; auto.
    + split; [auto|]. intros [?|(H1 & H2 & [[]|[-> | ->]])]; [assumption| |]; cbn in H2; apply B in H2; discriminate.
  - tauto.
Qed.
Lemma sub_pins_at objs : forall m id k, p2e_at (fold_left (sub_pin pins_at routeBox) objs m) id k <->
  p2e_at m id k \/ (In id (pins_at (fst k) (snd k)) /\ in_clip routeBox (fst k) /\ exists d, In d objs /\ pin_end d k).
Proof.
  induction objs as [|d objs IH]; intros m id k; cbn [fold_left].
  - split; [auto|]. intros [?|(_ & _ & d & [] & _)]. assumption.
  - rewrite IH, sub_pin_at. split.
    + intros [[?|(? & ? & ?)]|(? & ? & d' & ? & ?)]; [auto|right; split; [assumption|]; split; [assumption|]; exists d; cbn; auto|right; split; [assumption|]; split; [assumption|]; exists d'; cbn; auto].
    + intros [?|(? & ? & d' & [<-|?] & ?)]; [auto|auto|right; split; [assumption|]; split; [assumption|]; exists d'; auto].
Qed.
Lemma sub_found objs id k : p2e_at (sub_pin2ep pins_at routeBox objs) id k <-> found pins_at routeBox objs id k.
Proof.
  unfold sub_pin2ep, found. rewrite sub_pins_at. assert (N : ~ p2e_at [] id k) by (intros (s & [] & _)). split.
  - intros [?|(H1 & H2 & [o|p l] & Hd & He)]; [contradiction| |destruct He]. split; [assumption|]. split; [assumption|]. exists o. auto.
  - intros (H1 & H2 & o & Ho & He). right. split; [assumption|]. split; [assumption|]. exists (DFig o). auto.
Qed.
Lemma sub_pin_ok m d : p2e_ok m -> p2e_ok (sub_pin pins_at routeBox m d).
Proof.
  intros H. destruct d as [[bp ep l tb te|p l1 l2]|p l]; cbn [sub_pin]; [| |assumption];
  repeat match goal with |- context [if ?c then _ else _] => destruct c end; auto using helper_ok.
Qed.
Lemma sub_pins_ok objs : p2e_ok (sub_pin2ep pins_at routeBox objs).
Proof.
  unfold sub_pin2ep. assert (H : p2e_ok []) by (split; [constructor|intros ? ? []]). revert H. generalize (@nil (Z * list loc)).
  induction objs as [|d objs IH]; intros m H; cbn; auto using sub_pin_ok.
Qed.
End P.

(* ---- objects *)
Definition dend (d : dfig) (k : loc) : Prop := match d with DFig o => is_end o k | DPatch p l => k = (p, l) end.
Lemma sub_end_at m x k j : at_node (sub_end m x) k j <-> at_node m k j \/ (j = fst x /\ dend (snd x) k).
Proof. destruct x as [i [[bp ep l tb te|p l1 l2]|p l]]; cbn; rewrite !nm_ins_at; intuition. Qed.
Lemma sub_objEnd_at objs m k j : at_node (sub_objEnd objs m) k j <-> at_node m k j \/ exists d, nth_error objs j = Some d /\ dend d k.
Proof.
  unfold sub_objEnd. setoid_rewrite <- in_numbered. revert m. induction (numbered objs) as [|[i d] L IH]; intros m; cbn [fold_left].
  - split; [auto|]. intros [?|(d & [] & _)]. assumption.
  - rewrite IH, sub_end_at. cbn [fst snd]. split.
    + intros [[?|[-> ?]]|(d' & ? & ?)]; [auto|right; exists d; cbn; auto|right; exists d'; cbn; auto].
    + intros [?|(d' & [E|H] & ?)]; [auto|injection E as -> ->; auto|right; exists d'; auto].
Qed.
Lemma sub_end_ok m x : nm_ok m -> nm_ok (sub_end m x).
Proof. intros H. destruct x as [i [[bp ep l tb te|p l1 l2]|p l]]; cbn; auto using nm_ins_ok. Qed.
Lemma sub_objEnd_ok objs m : nm_ok m -> nm_ok (sub_objEnd objs m).
Proof. unfold sub_objEnd. revert m. induction (numbered objs) as [|x L IH]; intros m H; cbn; auto using sub_end_ok. Qed.
Lemma sub_split_ok hz vt m d : nm_ok m -> nm_ok (sub_split hz vt m d).
Proof. intros H. destruct d as [[bp ep l tb te|p l1 l2]|p l]; cbn; [destruct (px bp =? px ep)| |]; auto 10 using split_helper_ok. Qed.
Lemma sub_objSplit_ok objs m : nm_ok m -> nm_ok (sub_objSplit objs m).
Proof.
  unfold sub_objSplit. destruct (fold_left sub_fill (numbered objs) ([], [])) as [hz vt]. revert m. induction objs as [|d objs IH]; intros m H; cbn; auto using sub_split_ok.
Qed.
Lemma sub_nodeMap_ok objs pins : nm_ok (sub_nodeMap objs pins).
Proof. unfold sub_nodeMap. apply nm_pins_ok, sub_objSplit_ok, sub_objEnd_ok. constructor. Qed.

(* a patch seen as an object without an interior *)
Definition rd (d : dfig) : robj := match d with DFig o => o | DPatch p l => RVia p l l end.
Definition figs (objs : list dfig) : list robj := flat_map (fun d => match d with DFig o => [o] | DPatch _ _ => [] end) objs.
Lemma in_figs objs o : In o (figs objs) <-> In (DFig o) objs.
Proof.
  unfold figs. rewrite in_flat_map. split; [intros ([o'|p l] & H & E); [destruct E as [<-|[]]; assumption|destruct E]|]. intros H. exists (DFig o). cbn. auto.
Qed.
Lemma numbered_map {A B} (f : A -> B) l : numbered (map f l) = map (fun x => (fst x, f (snd x))) (numbered l).
Proof.
  unfold numbered. rewrite map_length. generalize 0%nat. induction l as [|a l IH]; intros n; cbn; [reflexivity|]. f_equal. apply IH.
Qed.
Lemma fill_rd objs : fold_left sub_fill (numbered objs) ([], []) = fold_left mh_fill (numbered (map rd objs)) ([], []).
Proof.
  rewrite numbered_map. generalize (@nil ((Z * Z * Z) * (Z * nat)), @nil ((Z * Z * Z) * (Z * nat))). induction (numbered objs) as [|[i d] L IH]; intros st; cbn [map fold_left]; [reflexivity|].
  rewrite IH. f_equal. destruct st as [hz vt], d as [[bp ep l tb te|p l1 l2]|p l]; reflexivity.
Qed.
Lemma split_figs hz vt objs : forall m, fold_left (sub_split hz vt) objs m = fold_left (nm_split hz vt) (figs objs) m.
Proof.
  unfold figs. induction objs as [|d objs IH]; intros m; cbn [fold_left flat_map]; [reflexivity|]. rewrite IH. destruct d as [[bp ep l tb te|p l1 l2]|p l]; reflexivity.
Qed.

Section O.
Variable objs : list dfig.
Hypothesis ok : wires_ok objs.
Lemma rd_ok : Forall wire_ok (map rd objs).
Proof. apply Forall_forall. intros o H. apply in_map_iff in H as ([o'|p l] & <- & H); [apply ok; assumption|exact I]. Qed.
Lemma rd_apart : no_overlap (map rd objs).
Proof.
  intros i j a b Hn Ha Hb O. rewrite nth_error_map in Ha, Hb.
  destruct (nth_error objs i) as [[a'|p l]|] eqn:Ea; [|injection Ha as <-; destruct O|discriminate]. injection Ha as <-.
  destruct (nth_error objs j) as [[b'|p l]|] eqn:Eb; [|injection Hb as <-; destruct a'; destruct O|discriminate]. injection Hb as <-.
  exact (proj2 ok i j a' b' Hn Ea Eb O).
Qed.
Definition at_obj (j : nat) (k : loc) : Prop :=
  match nth_error objs j with
  | Some (DFig o) => lies_on o k /\ fig_ends objs k
  | Some (DPatch p l) => k = (p, l)
  | None => False
  end.
Lemma sub_objs_at k j : at_node (sub_objSplit objs (sub_objEnd objs [])) k j <-> at_obj j k.
Proof.
  unfold sub_objSplit. rewrite fill_rd.
  pose proof (fill_spec (map rd objs) rd_ok rd_apart (numbered (map rd objs)) ltac:(intros i o; apply in_numbered) ltac:(rewrite numbered_fst; apply seq_NoDup)) as [Hh Hv]. cbv zeta in *.
  destruct (fold_left mh_fill (numbered (map rd objs)) ([], [])) as [hz vt]. cbn [fst snd] in *. setoid_rewrite in_numbered in Hh. setoid_rewrite in_numbered in Hv.
  rewrite split_figs. assert (Fo : Forall wire_ok (figs objs)) by (apply Forall_forall; intros o Ho; apply in_figs in Ho; apply ok; assumption).
  rewrite (fold_split_at (map rd objs) rd_ok rd_apart hz vt Hh Hv _ _ _ _ Fo), sub_objEnd_at. unfold at_obj. split.
  - intros [[(s & [] & _)|(d & Hd & He)]|(o & Ho & He & o' & Ho' & Hi)].
    + rewrite Hd. destruct d as [o|p l]; [|assumption]. cbn in He. assert (In (DFig o) objs) by (eapply nth_error_In; eassumption).
      split; [apply end_lies; [apply ok|]; assumption|exists o; auto].
    + apply in_figs in Ho. rewrite nth_error_map in Ho'. destruct (nth_error objs j) as [[o''|p l]|] eqn:E; [|injection Ho' as <-; cbn in Hi; tauto|discriminate].
      injection Ho' as <-. cbn [rd] in Hi. split; [|exists o; auto]. apply inside_lies; [apply ok; eapply nth_error_In; eassumption|tauto].
  - destruct (nth_error objs j) as [[o'|p l]|] eqn:Ho'; [|intros ->; left; right; eexists; split; [reflexivity|reflexivity]|intros []].
    intros (Hl & o & Ho & He). assert (Ho2 := Ho). apply In_nth_error in Ho as (i & Ho).
    assert (W : wire_ok o) by (apply ok; assumption). assert (W' : wire_ok o') by (apply ok; eapply nth_error_In; eassumption).
    assert (D : is_end o' k \/ inside_h o' k \/ inside_v o' k).
    { destruct o' as [bp ep l tb te|]; cbn in *; [|auto]. destruct k as [[x y] lk], bp as [bx by_], ep as [ex ey]. cbn in *. destruct Hl as (-> & H1 & H2).
      destruct (Z.eq_dec bx ex).
      - destruct (Z.eq_dec y by_); [left; left; repeat f_equal; lia|]. destruct (Z.eq_dec y ey); [left; right; repeat f_equal; lia|]. right; right. lia.
      - destruct (Z.eq_dec x bx); [left; left; repeat f_equal; lia|]. destruct (Z.eq_dec x ex); [left; right; repeat f_equal; lia|]. right; left. lia. }
    destruct D as [D|D]; [left; right; eexists; split; [reflexivity|exact D]|].
    destruct (Nat.eq_dec i j) as [->|Hne].
    { assert (o' = o) as -> by congruence. left. right. eexists; split; [reflexivity|exact He]. }
    pose proof (proj2 ok i j o o' Hne Ho Ho') as A.
    right. exists o. split; [apply in_figs; assumption|]. split; [assumption|]. exists o'. split; [rewrite nth_error_map, Ho'; reflexivity|].
    destruct o as [bp ep l tb te|p l1 l2]; [|cbn; tauto]. destruct o' as [bp' ep' l' tb' te'|]; [|destruct D; contradiction].
    cbn in *. destruct k as [[x y] lk]. cbn in *. 
    destruct (Z.eq_dec (px bp) (px ep)) as [Ev|Ev].
    + left. split; [assumption|]. destruct D as [D|D]; [assumption|]. exfalso. apply A. destruct D as (D1 & -> & D3 & D4).
      destruct He as [He|He]; injection He as He1 ->; subst; cbn in *; (split; [reflexivity|]); left; lia.
    + right. split; [assumption|]. destruct D as [D|D]; [|assumption]. exfalso. apply A. destruct D as (D1 & -> & D3 & D4).
      destruct He as [He|He]; injection He as He1 ->; subst; cbn in *; (split; [reflexivity|]); right; lia.
Qed.

Variable pins_at : point -> Z -> list Z.
Variable routeBox : box.
Let pins := sub_pin2ep pins_at routeBox objs.
Let gCnt := length objs.
Let nCnt := (length pins + gCnt)%nat.
Let nm := sub_nodeMap objs pins.
Let adj := adjVec nm.
Definition sub_item (n : nat) : item :=
  if (n <? gCnt)%nat then Wire n else match nth_error pins (n - gCnt) with Some e => Pin (fst e) | None => Wire n end.
Lemma sub_pins_unique q q' e e' : nth_error pins q = Some e -> nth_error pins q' = Some e' -> fst e = fst e' -> q = q'.
Proof.
  destruct (sub_pins_ok pins_at routeBox objs) as [Hs _]. fold pins in Hs. revert q q'. induction Hs as [|a l H1 H2 H3]; intros [|q] [|q'] E E' F; cbn in *; try discriminate; auto.
  - injection E as <-. apply nth_error_In in E'. rewrite Forall_forall in H3. specialize (H3 _ E'). lia.
  - injection E' as <-. apply nth_error_In in E. rewrite Forall_forall in H3. specialize (H3 _ E). lia.
Qed.
Lemma sub_pin_here q e k : nth_error pins q = Some e -> In k (snd e) <-> found pins_at routeBox objs (fst e) k.
Proof.
  intros E. rewrite <- (sub_found pins_at routeBox objs (fst e) k). fold pins. split.
  - intros H. exists (snd e). split; [|assumption]. rewrite <- surjective_pairing. eapply nth_error_In; eassumption.
  - intros (s & Hs & H). apply In_nth_error in Hs as (q' & E'). pose proof (sub_pins_unique q q' e _ E E' eq_refl). subst q'. rewrite E in E'. injection E' as ->. assumption.
Qed.
Lemma sub_node_at n k : at_node nm k n <-> (n < nCnt)%nat /\ joint pins_at routeBox objs (sub_item n) k.
Proof.
  unfold nm, sub_nodeMap. rewrite nm_pins_at, sub_objs_at by assumption. unfold sub_item. fold gCnt. split.
  - intros [H|(q & e & E & -> & Hk)].
    + assert (n < gCnt)%nat by (apply nth_error_Some; unfold at_obj in H; destruct (nth_error objs n); [discriminate|contradiction]). split; [unfold nCnt; lia|].
      replace (n <? gCnt)%nat with true by (symmetry; apply Nat.ltb_lt; assumption). exact H.
    + assert (q < length pins)%nat by (apply nth_error_Some; congruence). split; [unfold nCnt; lia|].
      replace (gCnt + q <? gCnt)%nat with false by (symmetry; apply Nat.ltb_ge; lia). replace (gCnt + q - gCnt)%nat with q by lia. rewrite E.
      apply (sub_pin_here q e k E) in Hk. exact Hk.
  - intros (Hn & Hi). destruct (Nat.ltb_spec n gCnt) as [L|L].
    + left. exact Hi.
    + right. destruct (nth_error pins (n - gCnt)) as [e|] eqn:E.
      * exists (n - gCnt)%nat, e. split; [assumption|]. split; [lia|]. apply (sub_pin_here _ _ _ E). exact Hi.
      * apply nth_error_None in E. unfold nCnt in Hn. lia.
Qed.
Lemma sub_range : in_range adj nCnt.
Proof. intros i j _ H. apply adjVec_range in H as (k & H). apply sub_node_at in H. tauto. Qed.
Lemma sub_sym i j : In j (adj i) -> In i (adj j).
Proof.
  intros H. destruct (Nat.eq_dec i j) as [->|Hn]; [assumption|]. apply (adjVec_iff nm i j (sub_nodeMap_ok _ _) Hn) in H as (k & ? & ?).
  apply (adjVec_iff nm j i (sub_nodeMap_ok _ _)); [congruence|]. exists k. auto.
Qed.
Lemma sub_item_inj i j : (i < nCnt)%nat -> (j < nCnt)%nat -> sub_item i = sub_item j -> i = j.
Proof.
  unfold sub_item, nCnt. intros Hi Hj. destruct (Nat.ltb_spec i gCnt), (Nat.ltb_spec j gCnt).
  - congruence.
  - destruct (nth_error pins (j - gCnt)) eqn:E; [discriminate|]. apply nth_error_None in E. lia.
  - destruct (nth_error pins (i - gCnt)) eqn:E; [discriminate|]. apply nth_error_None in E. lia.
  - destruct (nth_error pins (i - gCnt)) eqn:E; [|apply nth_error_None in E; lia]. destruct (nth_error pins (j - gCnt)) eqn:E'; [|apply nth_error_None in E'; lia].
    intros F. injection F as F. pose proof (sub_pins_unique _ _ _ _ E E' F). lia.
Qed.
Lemma sub_item_exists it k : joint pins_at routeBox objs it k -> exists n, (n < nCnt)%nat /\ sub_item n = it.
Proof.
  destruct it as [i|id]; cbn.
  - intros H. assert (i < gCnt)%nat by (apply nth_error_Some; destruct (nth_error objs i); [discriminate|contradiction]). exists i. split; [unfold nCnt; lia|]. unfold sub_item. replace (i <? gCnt)%nat with true by (symmetry; apply Nat.ltb_lt; assumption). reflexivity.
  - intros H. apply (sub_found pins_at routeBox objs id k) in H as (s & Hs & _). fold pins in Hs. apply In_nth_error in Hs as (q & E). assert (q < length pins)%nat by (apply nth_error_Some; congruence).
    exists (gCnt + q)%nat. split; [unfold nCnt; lia|]. unfold sub_item. replace (gCnt + q <? gCnt)%nat with false by (symmetry; apply Nat.ltb_ge; lia). replace (gCnt + q - gCnt)%nat with q by lia. rewrite E. reflexivity.
Qed.
Lemma reach_chained a b : (a < nCnt)%nat -> reachable adj a b -> chained pins_at routeBox objs (sub_item a) (sub_item b).
Proof.
  intros La. induction 1 as [_|b c Hb IH Hc _]; [apply chained_refl|].
  destruct (Nat.eq_dec b c) as [<-|Hn]; [assumption|]. apply (adjVec_iff nm b c (sub_nodeMap_ok _ _) Hn) in Hc as (k & H1 & H2).
  apply sub_node_at in H1 as [_ H1]. apply sub_node_at in H2 as [_ H2]. eapply chained_step; eauto.
Qed.
Lemma chained_reach a it : (a < nCnt)%nat -> chained pins_at routeBox objs (sub_item a) it -> exists n, (n < nCnt)%nat /\ sub_item n = it /\ reachable adj a n.
Proof.
  intros La. induction 1 as [|b c k Hb IH H1 H2]; [exists a; repeat split; auto; constructor; exact I|].
  destruct IH as (n & Ln & <- & Hr). destruct (sub_item_exists c k H2) as (n' & Ln' & <-). exists n'. split; [assumption|]. split; [reflexivity|].
  destruct (Nat.eq_dec n n') as [<-|Hn]; [assumption|]. econstructor; [exact Hr|apply (adjVec_iff nm n n' (sub_nodeMap_ok _ _) Hn); exists k; rewrite !sub_node_at; auto|exact I].
Qed.
Lemma reach_iff a b : (a < nCnt)%nat -> (b < nCnt)%nat -> reachable adj a b <-> chained pins_at routeBox objs (sub_item a) (sub_item b).
Proof.
  intros La Lb. split; [apply reach_chained; assumption|]. intros H. destruct (chained_reach a _ La H) as (n & Ln & E & Hr). apply sub_item_inj in E; [|assumption|assumption]. subst n. assumption.
Qed.
Lemma sub_item_obj i : (i < gCnt)%nat -> sub_item i = Wire i.
Proof. intros H. unfold sub_item. replace (i <? gCnt)%nat with true by (symmetry; apply Nat.ltb_lt; assumption). reflexivity. Qed.
Lemma sub_item_pin q e : nth_error pins q = Some e -> sub_item (gCnt + q) = Pin (fst e) /\ (gCnt + q < nCnt)%nat.
Proof.
  intros E. assert (q < length pins)%nat by (apply nth_error_Some; congruence). split; [|unfold nCnt; lia].
  unfold sub_item. replace (gCnt + q <? gCnt)%nat with false by (symmetry; apply Nat.ltb_ge; lia). replace (gCnt + q - gCnt)%nat with q by lia. rewrite E. reflexivity.
Qed.
End O.
