(* C25 - C29, C31, C55 - C56: the final connectivity check and the clean-up of a net.
   All statements hold for every region query [pins_at] and, unless said otherwise, for every queue order
   [pick] of the search. *)
From Verif Require Import Base GeomModel TreeModel TreeSpec ConnModel ConnSpec ConnProofs3 ConnProofs4 ConnProofs5 ConnProofs6.

Definition cleaned (r : conn_result) : list robj := conn_final (cr_objs r) (cr_pins r) (cr_kept r).

(* C29 *)
Theorem C29_merge_preserves_metal net : Forall wire_ok net ->
  (forall l x y, metal (merge_net net) l x y <-> metal net l x y) /\
  no_overlap (merge_net net) /\
  Forall wire_ok (merge_net net) /\
  (length (merge_net net) <= length net)%nat.
Proof.
  intros ok. split; [intros l x y; apply merge_metal; assumption|]. split; [apply merge_no_overlap; assumption|]. split; [apply merge_wires_ok; assumption|apply merge_length; assumption].
Qed.
Print Assumptions C29_merge_preserves_metal.
Theorem C29_merge_touches_only_overlapping net : Forall wire_ok net ->
  (forall i o, nth_error net i = Some o -> (forall j o', j <> i -> nth_error net j = Some o' -> ~ overlap o o') -> In o (merge_net net)) /\
  filter is_via (merge_net net) = filter is_via net.
Proof. intros ok. split; [intros i o; apply merge_untouched; assumption|apply merge_vias; assumption]. Qed.
Print Assumptions C29_merge_touches_only_overlapping.

(* C31 *)
Theorem C31_crossing_points pins_at net : Forall wire_ok net ->
  let objs := merge_net net in
  forall k i j, i <> j ->
    (exists s, In (k, s) (nodeMap objs (pin2epMap pins_at objs)) /\ In i s /\ In j s /\ (i < length objs)%nat /\ (j < length objs)%nat) <->
    (exists a b, nth_error objs i = Some a /\ nth_error objs j = Some b /\ lies_on a k /\ lies_on b k /\ exists o, In o objs /\ is_end o k).
Proof.
  intros ok objs k i j Hij.
  pose proof (merge_wires_ok net ok) as ok'. pose proof (merge_no_overlap net ok) as ap'. fold objs in ok', ap'.
  assert (I : forall n, (n < length objs)%nat -> item_of pins_at objs n = Wire n) by (intros n Hn; unfold item_of; apply Nat.ltb_lt in Hn; rewrite Hn; reflexivity).
  split.
  - intros (s & Hs & Hi & Hj & Li & Lj). assert (Ai : at_node (nodeMap objs (pin2epMap pins_at objs)) k i) by (exists s; auto). assert (Aj : at_node (nodeMap objs (pin2epMap pins_at objs)) k j) by (exists s; auto).
    apply (node_at pins_at objs ok' ap') in Ai as (_ & He & Hi'). apply (node_at pins_at objs ok' ap') in Aj as (_ & _ & Hj'). rewrite I in Hi', Hj' by assumption.
    destruct Hi' as (a & Ea & La), Hj' as (b & Eb & Lb). exists a, b. auto 10.
  - intros (a & b & Ea & Eb & La & Lb & He).
    assert (Li : (i < length objs)%nat) by (apply nth_error_Some; congruence). assert (Lj : (j < length objs)%nat) by (apply nth_error_Some; congruence).
    assert (Ai : at_node (nodeMap objs (pin2epMap pins_at objs)) k i) by (apply (node_at pins_at objs ok' ap'); split; [lia|]; split; [assumption|]; rewrite I by assumption; exists a; auto).
    assert (Aj : at_node (nodeMap objs (pin2epMap pins_at objs)) k j) by (apply (node_at pins_at objs ok' ap'); split; [lia|]; split; [assumption|]; rewrite I by assumption; exists b; auto).
    assert (X : exists k0, at_node (nodeMap objs (pin2epMap pins_at objs)) k0 i /\ at_node (nodeMap objs (pin2epMap pins_at objs)) k0 j) by eauto.
    destruct Ai as (s & Hs & Hi), Aj as (s' & Hs' & Hj). exists s. assert (s' = s) as ->; [|auto 10].
    pose proof (nm_is_ok pins_at objs) as Hm. unfold nm_ok in Hm. clear -Hm Hs Hs'. induction (nodeMap objs (pin2epMap pins_at objs)) as [|[k0 s0] r IH]; [destruct Hs|]. cbn in Hm. inversion Hm as [|? ? Hn Hd]; subst.
    destruct Hs as [E|Hs], Hs' as [E'|Hs']; [congruence| | |auto].
    + injection E as -> ->. exfalso. apply Hn. apply (in_map fst) in Hs'. assumption.
    + injection E' as -> ->. exfalso. apply Hn. apply (in_map fst) in Hs. assumption.
Qed.
Print Assumptions C31_crossing_points.

(* what checkConnectivity returns *)
Lemma check_returns pins_at net : Forall wire_ok net -> exists n0, forall pick fuel, (n0 <= fuel)%nat -> exists r,
  checkConnectivity pins_at pick fuel net = Some r /\ cr_objs r = merge_net net /\ cr_pins r = pin2epMap pins_at (merge_net net) /\
  (forall n, cr_kept r n = true -> (n < length (cr_objs r) + length (cr_pins r))%nat) /\
  ((length (cr_pins r) <= 1)%nat -> (forall n, cr_kept r n = false) /\ (cr_ok r = true <-> cr_pins r = [])) /\
  ((2 <= length (cr_pins r))%nat ->
    (cr_ok r = true -> forall p q, touched pins_at (cr_objs r) p -> touched pins_at (cr_objs r) q -> linked pins_at (cr_objs r) (kept_by pins_at (cr_objs r) (cr_kept r)) (Pin p) (Pin q)) /\
    ((forall p q, touched pins_at (cr_objs r) p -> touched pins_at (cr_objs r) q -> linked pins_at (cr_objs r) (fun _ => True) (Pin p) (Pin q)) -> cr_ok r = true)) /\
  (cr_ok r = true -> forall q, (q < length (cr_pins r))%nat -> cr_kept r (length (cr_objs r) + q)%nat = true) /\
  (forall u, cr_kept r u = true -> (u < length (cr_objs r))%nat -> exists a k, kept_by pins_at (cr_objs r) (cr_kept r) a /\ a <> Wire u /\ meet pins_at (cr_objs r) (Wire u) a k) /\
  (pick_min pick -> forall u, cr_kept r u = true -> (u < length (cr_objs r))%nat -> exists a b ka kb, kept_by pins_at (cr_objs r) (cr_kept r) a /\ kept_by pins_at (cr_objs r) (cr_kept r) b /\ ka <> kb /\ a <> Wire u /\ b <> Wire u /\
     meet pins_at (cr_objs r) (Wire u) a ka /\ meet pins_at (cr_objs r) (Wire u) b kb).
Proof.
  intros ok. destruct (conn_astar_spec pins_at (merge_net net) (merge_wires_ok net ok) (merge_no_overlap net ok)) as (n0 & H).
  exists n0. intros pick fuel Hf. destruct (H pick fuel Hf) as (okb & K & E & H'). exists (mkCR (merge_net net) (pin2epMap pins_at (merge_net net)) okb K).
  split; [unfold checkConnectivity; rewrite E; reflexivity|]. split; [reflexivity|]. split; [reflexivity|]. exact H'.
Qed.
Lemma two_pins pins_at objs a b : a <> b -> touched pins_at objs a -> touched pins_at objs b -> (2 <= length (pin2epMap pins_at objs))%nat.
Proof.
  intros Hn Ha Hb. apply touched_node in Ha as (q & e & E & Ea). apply touched_node in Hb as (q' & e' & E' & Eb).
  destruct (pin2epMap pins_at objs) as [|x [|y r]]; cbn; [destruct q; discriminate| |lia].
  destruct q as [|[|q]], q' as [|[|q']]; cbn in *; try discriminate. congruence.
Qed.
Lemma linked_mono pins_at objs (S T : item -> Prop) a b : (forall x, S x -> T x) -> linked pins_at objs S a b -> linked pins_at objs T a b.
Proof. intros H. induction 1; [apply linked_refl; auto|eapply linked_step; eauto]. Qed.

(* C25 *)
Theorem C25_check_exact pins_at net : Forall wire_ok net ->
  exists n0, forall pick fuel, (n0 <= fuel)%nat -> exists r, checkConnectivity pins_at pick fuel net = Some r /\
    cr_objs r = merge_net net /\
    forall a b, a <> b -> touched pins_at (merge_net net) a -> touched pins_at (merge_net net) b ->
    (cr_ok r = true <-> forall p q, touched pins_at (merge_net net) p -> touched pins_at (merge_net net) q ->
                          linked pins_at (merge_net net) (fun _ => True) (Pin p) (Pin q)).
Proof.
  intros ok. destruct (check_returns pins_at net ok) as (n0 & H). exists n0. intros pick fuel Hf. destruct (H pick fuel Hf) as (r & E & Eo & Ep & _ & _ & H2 & _).
  exists r. split; [assumption|]. split; [assumption|]. intros a b Hn Ha Hb. rewrite <- Eo in *. destruct H2 as [H2 H3]; [rewrite Ep; eapply two_pins; eauto|].
  split; [|assumption]. intros Hok p q Hp Hq. eapply linked_mono; [|apply H2; assumption]. auto.
Qed.
Print Assumptions C25_check_exact.

(* C26: after the whole clean-up (deletion, splitting at pins, shrinking) the pins are still joined *)
Theorem C26_cleanup_keeps_connected pins_at net : Forall wire_ok net ->
  exists n0, forall pick fuel, (n0 <= fuel)%nat -> exists r, checkConnectivity pins_at pick fuel net = Some r /\
    (cr_ok r = true -> forall p q, touched pins_at (cr_objs r) p -> touched pins_at (cr_objs r) q ->
       joined pins_at (cleaned r) (Term p) (Term q)).
Proof.
  intros ok. destruct (check_returns pins_at net ok) as (n0 & H). exists n0. intros pick fuel Hf. destruct (H pick fuel Hf) as (r & E & Eo & Ep & H0 & H1 & H2 & _).
  exists r. split; [assumption|]. intros Hok p q Hp Hq. unfold cleaned. rewrite Eo, Ep in *.
  apply (final_connected pins_at (merge_net net) (merge_wires_ok net ok) (merge_no_overlap net ok) (cr_kept r) H0).
  apply H2; auto. destruct (Nat.lt_ge_cases 1 (length (pin2epMap pins_at (merge_net net)))) as [L|L]; [assumption|].
  destruct (H1 L) as [_ [He _]]. apply touched_node in Hp as (x & e & Ex & _). rewrite (He Hok) in Ex. destruct x; discriminate.
Qed.
Print Assumptions C26_cleanup_keeps_connected.
(* the clean-up only removes metal; it moves no via and keeps every via it needs *)
Theorem C26_cleanup_adds_no_metal pins_at net : Forall wire_ok net ->
  exists n0, forall pick fuel, (n0 <= fuel)%nat -> exists r, checkConnectivity pins_at pick fuel net = Some r /\
    (forall l x y, metal (cleaned r) l x y -> metal net l x y) /\
    (forall p l1 l2, In (RVia p l1 l2) (cleaned r) -> In (RVia p l1 l2) net).
Proof.
  intros ok. destruct (check_returns pins_at net ok) as (n0 & H). exists n0. intros pick fuel Hf. destruct (H pick fuel Hf) as (r & E & Eo & Ep & H0 & H1 & H2 & _).
  exists r. split; [assumption|]. unfold cleaned. rewrite Eo, Ep in *.
  pose proof (final_part pins_at (merge_net net) (merge_wires_ok net ok) (merge_no_overlap net ok) (cr_kept r) H0) as FP. split.
  - intros l x y (o & Ho & Hc). apply (merge_metal net ok). destruct (FP o Ho) as (i & o0 & E0 & _ & P & _). exists o0. split; [eapply nth_error_In; eassumption|].
    destruct o, o0; cbn [part_of covers] in *; try contradiction. lia.
  - intros p l1 l2 Ho. destruct (FP _ Ho) as (i & o0 & E0 & _ & P & _). destruct o0; cbn in P; [contradiction|]. rewrite P. apply nth_error_In in E0.
    assert (F : In (RVia o l0 l3) (filter is_via (merge_net net))) by (apply filter_In; auto). rewrite (merge_vias net ok) in F. apply filter_In in F. apply F.
Qed.
Print Assumptions C26_cleanup_adds_no_metal.

(* C27: every end of every remaining wire is at a pin or on another remaining object *)
Theorem C27_no_dangling_end pins_at net : Forall wire_ok net ->
  exists n0, forall pick fuel, (n0 <= fuel)%nat -> exists r, checkConnectivity pins_at pick fuel net = Some r /\
    forall b bp ep l tb te k, nth_error (cleaned r) b = Some (RSeg bp ep l tb te) -> k = (bp, l) \/ k = (ep, l) ->
      (exists id, In id (pins_at (fst k) (snd k))) \/
      exists b' o', b' <> b /\ nth_error (cleaned r) b' = Some o' /\ lies_on o' k.
Proof.
  intros ok. destruct (check_returns pins_at net ok) as (n0 & H). exists n0. intros pick fuel Hf. destruct (H pick fuel Hf) as (r & E & Eo & Ep & H0 & H1 & H2 & _ & H4 & _).
  exists r. split; [assumption|]. intros b bp ep l tb te k Hb Hk. unfold cleaned in *. rewrite Eo, Ep in *.
  eapply (final_ends pins_at (merge_net net) (merge_wires_ok net ok) (merge_no_overlap net ok) (cr_kept r) H0); [|exact Hb|exact Hk].
  intros n Kn Ln. destruct (H4 n Kn Ln) as (a & k0 & (na & Ka & <-) & Hne & (He & M1 & M2)).
  assert (In k0 (rev_at (nm_erase (cr_kept r) (nodeMap (merge_net net) (pin2epMap pins_at (merge_net net)))) n)) as X; [|intros Z; rewrite Z in X; destruct X].
  assert (In_ : item_of pins_at (merge_net net) n = Wire n) by (unfold item_of; apply Nat.ltb_lt in Ln; rewrite Ln; reflexivity).
  apply (R0_shared pins_at (merge_net net) (cr_kept r) n na); auto.
  - intros <-. congruence.
  - apply (node_at pins_at (merge_net net) (merge_wires_ok net ok) (merge_no_overlap net ok)). rewrite In_. auto.
  - apply (node_at pins_at (merge_net net) (merge_wires_ok net ok) (merge_no_overlap net ok)). auto.
Qed.
Print Assumptions C27_no_dangling_end.
(* the search keeps a wire or via only if it meets kept neighbours at two different places *)
Theorem C27_kept_meets_two_places pins_at net : Forall wire_ok net ->
  exists n0, forall pick fuel, (n0 <= fuel)%nat -> pick_min pick -> exists r, checkConnectivity pins_at pick fuel net = Some r /\
    forall u, cr_kept r u = true -> (u < length (cr_objs r))%nat ->
    exists a b ka kb, ka <> kb /\ a <> Wire u /\ b <> Wire u /\
      meet pins_at (cr_objs r) (Wire u) a ka /\ meet pins_at (cr_objs r) (Wire u) b kb /\
      (forall i, a = Wire i \/ b = Wire i -> cr_kept r i = true).
Proof.
  intros ok. destruct (check_returns pins_at net ok) as (n0 & H). exists n0. intros pick fuel Hf Hp. destruct (H pick fuel Hf) as (r & E & Eo & Ep & H0 & H1 & H2 & _ & _ & H5).
  exists r. split; [assumption|]. intros u Ku Lu. destruct (H5 Hp u Ku Lu) as (a & b & ka & kb & (na & Ka & Ea) & (nb & Kb & Eb) & Hk & Ha & Hb & Ma & Mb).
  exists a, b, ka, kb. split; [assumption|]. split; [assumption|]. split; [assumption|]. split; [assumption|]. split; [assumption|].
  rewrite Eo, Ep in *. intros i [Ei|Ei]; [rewrite Ei in Ea; destruct (item_wire pins_at (merge_net net) na i Ea (H0 _ Ka)) as [<- _]; assumption|rewrite Ei in Eb; destruct (item_wire pins_at (merge_net net) nb i Eb (H0 _ Kb)) as [<- _]; assumption].
Qed.
Print Assumptions C27_kept_meets_two_places.

(* C28: refuted.  A net none of whose pins is touched passes, a net with exactly one touched pin is
   always reported as broken. *)
Theorem C28_single_pin_partial pins_at net : Forall wire_ok net ->
  exists n0, forall pick fuel, (n0 <= fuel)%nat -> exists r, checkConnectivity pins_at pick fuel net = Some r /\
    ((forall a, ~ touched pins_at (merge_net net) a) -> cr_ok r = true) /\
    (forall a, touched pins_at (merge_net net) a -> (forall b, touched pins_at (merge_net net) b -> b = a) -> cr_ok r = false).
Proof.
  intros ok. destruct (check_returns pins_at net ok) as (n0 & H). exists n0. intros pick fuel Hf. destruct (H pick fuel Hf) as (r & E & Eo & Ep & _ & H1 & _).
  exists r. split; [assumption|]. rewrite Ep in *. split.
  - intros Hn. destruct (pin2epMap pins_at (merge_net net)) as [|e p] eqn:Em; [apply H1; [cbn; lia|reflexivity]|].
    exfalso. apply (Hn (fst e)). apply touched_node. exists 0%nat, e. rewrite Em. auto.
  - intros a Ha Hu. assert (L : (length (pin2epMap pins_at (merge_net net)) <= 1)%nat).
    { destruct (Nat.lt_ge_cases 1 (length (pin2epMap pins_at (merge_net net)))) as [L|L]; [|assumption]. exfalso.
      destruct (pin2epMap pins_at (merge_net net)) as [|x [|y p]] eqn:Em; cbn in L; try lia.
      assert (Hx : touched pins_at (merge_net net) (fst x)) by (apply touched_node; exists 0%nat, x; rewrite Em; auto).
      assert (Hy : touched pins_at (merge_net net) (fst y)) by (apply touched_node; exists 1%nat, y; rewrite Em; auto).
      apply Hu in Hx. apply Hu in Hy. pose proof (pins_unique pins_at (merge_net net) 0 1 x y) as U. rewrite Em in U. specialize (U eq_refl eq_refl ltac:(congruence)). discriminate. }
    destruct (H1 L) as [_ H2]. destruct (cr_ok r) eqn:Er; [|reflexivity]. apply touched_node in Ha as (q & e & Eq & _). rewrite (proj1 H2 eq_refl) in Eq. destruct q; discriminate.
Qed.
Print Assumptions C28_single_pin_partial.

(* ---- concrete cases *)
(* a queue order that fulfils the contract of std::priority_queue *)
Fixpoint best (q : list wf) (i : nat) (b : wf) (bi : nat) {struct q} : nat :=
  match q with [] => bi | e :: r => if wf_lt b e then best r (S i) e i else best r (S i) b bi end.
Definition min_pick (_ : nat) (q : list wf) : nat := match q with [] => O | e :: r => best r 1 e 0 end.
Lemma best_spec q : forall pre b bi, nth_error pre bi = Some b -> (forall e, In e pre -> wf_lt b e = false) ->
  exists t, nth_error (pre ++ q) (best q (length pre) b bi) = Some t /\ forall e, In e (pre ++ q) -> wf_lt t e = false.
Proof.
  induction q as [|e q IH]; intros pre b bi Hb Hp; cbn [best].
  - rewrite app_nil_r. eauto.
  - replace (pre ++ e :: q) with ((pre ++ [e]) ++ q) by (rewrite <- app_assoc; reflexivity).
    destruct (wf_lt b e) eqn:E.
    + specialize (IH (pre ++ [e]) e (length pre)). rewrite app_length in IH. cbn [length] in IH. rewrite Nat.add_1_r in IH. apply IH.
      * rewrite nth_error_app2, Nat.sub_diag by lia. reflexivity.
      * intros x Hx. apply in_app_or in Hx as [Hx|[<-|[]]].
        -- specialize (Hp x Hx). unfold wf_lt in *. destruct (wc b =? wc e) eqn:?, (wc b =? wc x) eqn:?, (wc e =? wc x) eqn:?; lia.
        -- unfold wf_lt. rewrite Z.eqb_refl. lia.
    + specialize (IH (pre ++ [e]) b bi). rewrite app_length in IH. cbn [length] in IH. rewrite Nat.add_1_r in IH. apply IH.
      * rewrite nth_error_app1; [assumption|]. apply nth_error_Some. congruence.
      * intros x Hx. apply in_app_or in Hx as [Hx|[<-|[]]]; auto.
Qed.
Lemma min_pick_ok : pick_min min_pick.
Proof.
  intros k [|e q] Hq; [congruence|]. cbn [min_pick].
  destruct (best_spec q [e] e 0 eq_refl) as (t & Ht & Hm).
  { intros x [<-|[]]. unfold wf_lt. rewrite Z.eqb_refl. lia. }
  cbn [length app] in Ht, Hm. split; [change (S (length q)) with (length (e :: q)); apply nth_error_Some; congruence|].
  intros x Hx. rewrite (nth_error_nth _ _ _ Ht). apply Hm. assumption.
Qed.

(* two overlapping wires on layer 2, a via, a wire on layer 4, a dangling wire; pins 1 and 2 *)
Definition ex_pins (p : point) (l : Z) : list Z :=
  if pt_eq p (mkPt 0 0) && (l =? 2) then [1] else if pt_eq p (mkPt 10 10) && (l =? 4) then [2] else
  if pt_eq p (mkPt 50 50) && (l =? 2) then [3] else [].
Definition ex_net : list robj :=
  [RSeg (mkPt 0 0) (mkPt 6 0) 2 true false; RSeg (mkPt 4 0) (mkPt 15 0) 2 false false; RSeg (mkPt 3 0) (mkPt 3 7) 2 false false;
   RSeg (mkPt 10 0) (mkPt 10 10) 4 false true; RVia (mkPt 10 0) 2 4].
Lemma ex_net_ok : Forall wire_ok ex_net.
Proof. repeat constructor; cbn; lia. Qed.
Example ex_merge : merge_net ex_net =
  [RSeg (mkPt 0 0) (mkPt 15 0) 2 true false; RSeg (mkPt 3 0) (mkPt 3 7) 2 false false; RSeg (mkPt 10 0) (mkPt 10 10) 4 false true; RVia (mkPt 10 0) 2 4].
Proof. vm_compute. reflexivity. Qed.
Example ex_touched : touched ex_pins (merge_net ex_net) 1 /\ touched ex_pins (merge_net ex_net) 2.
Proof.
  rewrite ex_merge. split.
  - exists (mkPt 0 0, 2). split; [vm_compute; auto|]. left. eexists. split; [left; reflexivity|]. cbn. auto.
  - exists (mkPt 10 10, 4). split; [vm_compute; auto|]. left. eexists. split; [right; right; left; reflexivity|]. cbn. auto.
Qed.
Example ex_check : exists r, checkConnectivity ex_pins min_pick 100 ex_net = Some r /\ cr_ok r = true /\ map fst (cr_pins r) = [1; 2] /\
  cleaned r = [RSeg (mkPt 0 0) (mkPt 10 0) 2 true false; RSeg (mkPt 10 0) (mkPt 10 10) 4 false true; RVia (mkPt 10 0) 2 4].
Proof. eexists. split; [vm_compute; reflexivity|]. vm_compute. auto. Qed.
(* without the via the check fails *)
Example ex_check_open : exists r, checkConnectivity ex_pins min_pick 100 (firstn 4 ex_net) = Some r /\ cr_ok r = false.
Proof. eexists. split; vm_compute; reflexivity. Qed.

(* C28 *)
Theorem C28_single_pin_refuted : exists pins_at net, Forall wire_ok net /\ (exists a, touched pins_at (merge_net net) a /\ forall b, touched pins_at (merge_net net) b -> b = a) /\
  exists n0, forall pick fuel, (n0 <= fuel)%nat -> exists r, checkConnectivity pins_at pick fuel net = Some r /\ cr_ok r = false.
Proof.
  exists ex_pins, (firstn 2 ex_net). assert (W : Forall wire_ok (firstn 2 ex_net)) by (repeat constructor; cbn; lia). split; [assumption|].
  assert (T : touched ex_pins (merge_net (firstn 2 ex_net)) 1 /\ forall b, touched ex_pins (merge_net (firstn 2 ex_net)) b -> b = 1).
  { split; [apply touched_node; exists 0%nat; eexists; split; vm_compute; reflexivity|]. intros b Hb. apply touched_node in Hb as (q & e & E & <-). vm_compute in E.
    destruct q as [|[|q]]; try discriminate. injection E as <-. reflexivity. }
  destruct T as [T1 T2]. split; [exists 1; auto|].
  destruct (C28_single_pin_partial ex_pins (firstn 2 ex_net) W) as (n0 & H). exists n0. intros pick fuel Hf. destruct (H pick fuel Hf) as (r & E & _ & H3). exists r. split; [assumption|]. apply (H3 1); assumption.
Qed.
Print Assumptions C28_single_pin_refuted.

(* C55: refuted.  A pin that no wire end or via touches is not noticed *)
Theorem C55_unrouted_pin_noticed_refuted : exists pins_at net pick fuel r p q, Forall wire_ok net /\ pick_min pick /\
  checkConnectivity pins_at pick fuel net = Some r /\ cr_ok r = true /\
  (exists k, In p (pins_at (fst k) (snd k))) /\ (exists k, In q (pins_at (fst k) (snd k))) /\ ~ joined pins_at net (Term p) (Term q).
Proof.
  destruct ex_check as (r & E & O & _). exists ex_pins, ex_net, min_pick, 100%nat, r, 1, 3.
  split; [exact ex_net_ok|]. split; [exact min_pick_ok|]. split; [assumption|]. split; [assumption|].
  split; [exists (mkPt 0 0, 2); vm_compute; auto|]. split; [exists (mkPt 50 50, 2); vm_compute; auto|].
  intros J. assert (A : forall t, joined ex_pins ex_net (Term 1) t -> match t with Term 3 => False | Obj o => In o ex_net | _ => True end).
  { clear J. intros t. induction 1 as [|b c k Hb IH Tb Tc P]; [exact I|]. destruct c as [o|id]; [exact P|].
    destruct (Z.eq_dec id 3) as [->|Hn]; [|destruct id as [|[[?|?|]|?|]|?]; try exact I; congruence].
    cbn in Tc. unfold ex_pins in Tc. destruct k as [kp kl]. cbn [fst snd] in Tc.
    destruct (pt_eq kp (mkPt 0 0) && (kl =? 2)) eqn:E1; [destruct Tc as [?|[]]; discriminate|]. destruct (pt_eq kp (mkPt 10 10) && (kl =? 4)) eqn:E2; [destruct Tc as [?|[]]; discriminate|].
    destruct (pt_eq kp (mkPt 50 50) && (kl =? 2)) eqn:E3; [|destruct Tc]. apply andb_true_iff in E3 as [E3 E4]. apply pt_eq_iff in E3. apply Z.eqb_eq in E4. subst kp kl.
    destruct b as [o|id]; [|destruct (Z.eq_dec id 3) as [->|Hid]; [exact IH|]; vm_compute in Tb; destruct Tb as [Tb|[]]; congruence].
    cbn in IH. destruct IH as [<-|[<-|[<-|[<-|[<-|[]]]]]]; cbn in Tb; try lia. destruct Tb as [Tb|Tb]; discriminate. }
  exact (A _ J).
Qed.
Print Assumptions C55_unrouted_pin_noticed_refuted.

(* C56: refuted.  Splitting at a pin and shrinking can leave a wire of length zero *)
Theorem C56_no_zero_length_wire_refuted : exists pins_at net pick fuel r p l tb te, Forall wire_ok net /\ pick_min pick /\
  checkConnectivity pins_at pick fuel net = Some r /\ cr_ok r = true /\ In (RSeg p p l tb te) (cleaned r).
Proof.
  exists (fun p l => if pt_eq p (mkPt 0 0) && (l =? 2) then [1] else if pt_eq p (mkPt 10 0) && (l =? 2) then [2] else []).
  exists [RSeg (mkPt 0 0) (mkPt 20 0) 2 true false; RVia (mkPt 10 0) 2 4], min_pick, 100%nat.
  eexists. exists (mkPt 10 0), 2, true, false. split; [repeat constructor; cbn; lia|]. split; [exact min_pick_ok|]. split; [vm_compute; reflexivity|]. split; [reflexivity|]. vm_compute. auto.
Qed.
Print Assumptions C56_no_zero_length_wire_refuted.
(* the part that holds: remaining wires are axis-parallel and run from lower left to upper right, possibly with length zero *)
Theorem C56_no_zero_length_wire_partial pins_at net : Forall wire_ok net ->
  exists n0, forall pick fuel, (n0 <= fuel)%nat -> exists r, checkConnectivity pins_at pick fuel net = Some r /\
    forall bp ep l tb te, In (RSeg bp ep l tb te) (cleaned r) -> (px bp = px ep /\ py bp <= py ep) \/ (py bp = py ep /\ px bp <= px ep).
Proof.
  intros ok. destruct (check_returns pins_at net ok) as (n0 & H). exists n0. intros pick fuel Hf. destruct (H pick fuel Hf) as (r & E & Eo & Ep & H0 & _).
  exists r. split; [assumption|]. unfold cleaned. rewrite Eo, Ep in *. intros bp ep l tb te Ho.
  destruct (final_part pins_at (merge_net net) (merge_wires_ok net ok) (merge_no_overlap net ok) (cr_kept r) H0 _ Ho) as (_ & _ & _ & _ & _ & S). exact S.
Qed.
Print Assumptions C56_no_zero_length_wire_partial.

(* C55, the part that holds: if every pin is touched by a wire end or via, passing means connected *)
Theorem C55_unrouted_pin_noticed_partial pins_at net pins : Forall wire_ok net ->
  (forall p, In p pins -> touched pins_at (merge_net net) p) ->
  exists n0, forall pick fuel, (n0 <= fuel)%nat -> exists r, checkConnectivity pins_at pick fuel net = Some r /\
    (cr_ok r = true -> forall p q, In p pins -> In q pins -> joined pins_at (cleaned r) (Term p) (Term q)).
Proof.
  intros ok Hp. destruct (C26_cleanup_keeps_connected pins_at net ok) as (n0 & H). destruct (check_returns pins_at net ok) as (n1 & H').
  exists (Nat.max n0 n1). intros pick fuel Hf. destruct (H pick fuel ltac:(lia)) as (r & E & Hr). destruct (H' pick fuel ltac:(lia)) as (r' & E' & Eo & _). rewrite E in E'. injection E' as <-.
  exists r. split; [assumption|]. intros Ho p q H1 H2. apply Hr; auto; rewrite Eo; auto.
Qed.
Print Assumptions C55_unrouted_pin_noticed_partial.
