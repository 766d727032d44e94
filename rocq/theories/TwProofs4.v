(* Wires written share at most a point, do not cross; vias; metal. *)
From Verif Require Import Base GeomModel ClipModel ClipSpec TwModel TwSpec TwProofs TwProofs2 TwProofs3.

Definition R2 (u v : wire) : Prop := w_key u = w_key v -> apart u v.
Lemma fop_app {A} (R : A -> A -> Prop) l m : ForallOrdPairs R l -> ForallOrdPairs R m -> (forall a b, In a l -> In b m -> R a b) -> ForallOrdPairs R (l ++ m).
Proof.
  intros L M H. induction L as [|a r F P IH]; cbn; [exact M|]. constructor; [apply Forall_app; split; [exact F|apply Forall_forall; intros b Hb; apply H; [now left|exact Hb]]|].
  apply IH. intros; apply H; [now right|assumption].
Qed.
Lemma TI_pairs e m : TI e m -> ForallOrdPairs R2 (flat_map snd m).
Proof.
  intros [N F]. induction m as [|[k A] r IH]; cbn [flat_map snd]; [constructor|]. inversion_clear N as [|? ? N1 N2]. inversion_clear F as [|? ? [F1 F2] Fr]. cbn [fst snd] in *.
  apply fop_app; [|apply IH; assumption|].
  - clear - F2. induction F2 as [|a s H P IH]; constructor; [|exact IH]. eapply Forall_impl; [|exact H]. intros v Hv _. exact Hv.
  - intros a b Ha Hb E. exfalso. apply in_flat_map in Hb as ([k' B] & Hk & Hb). rewrite Forall_forall in F1, Fr. destruct (F1 a Ha) as ((Ka & _) & _).
    destruct (Fr _ Hk) as [G1 _]. cbn in G1. rewrite Forall_forall in G1. destruct (G1 b Hb) as ((Kb & _) & _). apply N1. apply in_map_iff. exists (k', B). split; [cbn; congruence|exact Hk].
Qed.
Lemma fop_nth {A} (R : A -> A -> Prop) l : ForallOrdPairs R l -> forall i j a b, (i < j)%nat -> nth_error l i = Some a -> nth_error l j = Some b -> R a b.
Proof.
  induction 1 as [|c r F P IH]; intros [|i] [|j] a b L Ha Hb; cbn in *; try discriminate; try lia.
  - injection Ha as ->. rewrite Forall_forall in F. apply F. eapply nth_error_In, Hb.
  - apply (IH i j); [lia|assumption|assumption].
Qed.

Section X.
Variable lw : Z -> Z.
Lemma cross_one_full a hs : forall a' na h' nc, cross_one lw a hs = Some (a', na, (h', nc)) ->
  exists p c q c', hs = p ++ c :: q /\ cross_pair lw a c = Some (a', na, (c', nc)) /\ h' = p ++ c' :: q.
Proof.
  induction hs as [|c r IH]; cbn [cross_one]; intros a' na h' nc H; [discriminate H|]. destruct (cross_pair lw a c) as [[[a1 na1] [c1 nc1]]|] eqn:P.
  - injection H as <- <- <- <-. exists [], c, r, c1. auto.
  - destruct (cross_one lw a r) as [[[a1 na1] [r1 nc1]]|]; [|discriminate H]. injection H as <- <- <- <-. destruct (IH _ _ _ _ eq_refl) as (p & c0 & q & c' & -> & Q & ->). exists (c :: p), c0, q, c'. auto.
Qed.
Lemma cross_full hs vs : forall a na h, cross lw vs hs = Some (a, na, h) ->
  exists p v q v' p' c q' c' nc, vs = p ++ v :: q /\ hs = p' ++ c :: q' /\ cross_pair lw v c = Some (v', na, (c', nc)) /\ a = p ++ v' :: q /\ h = (p' ++ c' :: q') ++ nc.
Proof.
  induction vs as [|v r IH]; cbn [cross]; intros a na h H; [discriminate H|]. destruct (cross_one lw v hs) as [[[a1 na1] [h1 nc1]]|] eqn:P.
  - injection H as <- <- <-. destruct (cross_one_full _ _ _ _ _ _ P) as (p' & c & q' & c' & -> & Q & ->). exists [], v, r, a1, p', c, q', c', nc1. auto.
  - destruct (cross lw r hs) as [[[r1 na1] h1]|]; [|discriminate H]. injection H as <- <- <-. destruct (IH _ _ _ eq_refl) as (p & v0 & q & v' & p' & c & q' & c' & nc & -> & E & Q & -> & ->).
    exists (v :: p), v0, q, v', p', c, q', c', nc. auto.
Qed.
Lemma cross_none hs vs : cross lw vs hs = None -> forall a c, In a vs -> In c hs -> cross_pair lw a c = None.
Proof.
  induction vs as [|v r IH]; cbn [cross]; intros H a c Ha Hc; [destruct Ha|]. destruct (cross_one lw v hs) as [[[a1 na1] [h1 nc1]]|] eqn:P; [discriminate H|].
  destruct (cross lw r hs) as [[[r1 na1] h1]|]; [discriminate H|]. destruct Ha as [<-|Ha]; [|apply IH; auto]. clear - P Hc. induction hs as [|d s IH]; cbn in *; [destruct Hc|].
  destruct (cross_pair lw v d) as [[[? ?] [? ?]]|] eqn:Q; [discriminate P|]. destruct (cross_one lw v s) as [[[? ?] [? ?]]|]; [discriminate P|]. destruct Hc as [<-|Hc]; [exact Q|auto].
Qed.
Definition spans (w : wire) (t : Z) : Prop := w_lo w < t < w_hi w.
Lemma not_span p w q n t : ForallOrdPairs apart (p ++ w :: q) -> spans w t -> forall w1 n1, w_hi w1 = t -> w_lo w1 < t -> (forall x, In x n1 -> w_lo x = t) -> n = n1 ->
  forall u, In u ((p ++ w1 :: q) ++ n) -> ~ spans u t.
Proof.
  intros P S w1 n1 H1 H2 H3 -> u Hu. apply (fop_mid apart p w q apart_sym) in P as [_ P]. rewrite Forall_forall in P. unfold spans in *.
  apply in_app_or in Hu as [Hu|Hu]; [|specialize (H3 u Hu); lia]. apply in_app_or in Hu as [Hu|[<-|Hu]]; [|lia|]; (assert (Q : apart w u) by (apply P, in_or_app; auto)); unfold apart in Q; lia.
Qed.
Lemma cross_noX e l t1 t2 vs hs a na h : Forall (ok e (l, false, t1)) vs -> Forall (ok e (l, true, t2)) hs -> ForallOrdPairs apart vs -> ForallOrdPairs apart hs -> cross lw vs hs = Some (a, na, h) ->
  forall u c, In u (a ++ na) -> In c h -> ~ (spans u t2 /\ spans c t1).
Proof.
  intros Fv Fh Av Ah H u c Hu Hc [S1 S2]. destruct (cross_full _ _ _ _ _ H) as (p & v & q & v' & p' & d & q' & d' & nc & -> & -> & P & -> & ->).
  assert (Gv : good (l, false, t1) v). { rewrite Forall_forall in Fv. apply (Fv v). apply in_or_app. right. now left. }
  assert (Gd : good (l, true, t2) d). { rewrite Forall_forall in Fh. apply (Fh d). apply in_or_app. right. now left. }
  pose proof (good_wb _ _ Gv) as Wa. pose proof (good_wb _ _ Gd) as Wc. destruct Gv as (Kv & _ & Ea), Gd as (Kd & _ & Ec). cbn [fst snd tpt] in *.
  unfold cross_pair in P. rewrite Wa, Wc, Ea, Ec in P. cbn [px py] in P.
  destruct ((t2 >? w_lo v) && (t2 <? w_hi v)) eqn:Sa.
  - cbn [orb] in P. injection P as <- <- _. revert S1. eapply not_span; [exact Av|unfold spans; lia| | | |reflexivity|exact Hu].
    + unfold w_hi, is_h. cbn. rewrite Z.eqb_refl. reflexivity.
    + unfold w_lo at 1, is_h. cbn. rewrite Z.eqb_refl. cbn. lia.
    + intros x [<-|[]]. unfold w_lo, is_h. cbn. rewrite Z.eqb_refl. reflexivity.
  - destruct ((t1 >? w_lo d) && (t1 <? w_hi d)) eqn:Sc; [|discriminate P]. cbn [orb] in P. injection P as <- <- <- <-. revert S2. eapply not_span; [exact Ah|unfold spans; lia| | | |reflexivity|exact Hc].
    + unfold w_hi, is_h. cbn. replace (w_lo d =? t1) with false by lia. reflexivity.
    + unfold w_lo at 1, is_h. cbn. replace (w_lo d =? t1) with false by lia. cbn. lia.
    + intros x [<-|[]]. unfold w_lo, is_h. cbn. replace (t1 =? w_hi d) with false by lia. reflexivity.
Qed.
Variable e : Z -> option Z.
Hypothesis He : forall l, match e l with None => True | Some x => x = default_ext lw l end.
Definition noX (m : tracks) (v h : tkey) : Prop := forall A B a c, In (v, A) m -> In (h, B) m -> In a A -> In c B -> ~ (spans a (snd h) /\ spans c (snd v)).
Lemma resplit_sub k A B b : resplit lw k A B -> Forall (ok e k) A -> In b B -> exists a, In a A /\ w_lo a <= w_lo b /\ w_hi b <= w_hi a.
Proof.
  intros [->|(p & w & q & s & -> & L & ->)] F Hb; [exists b; split; [exact Hb|lia]|]. assert (Fw : ok e k w) by (rewrite Forall_forall in F; apply F, in_or_app; right; now left).
  destruct (pieces lw e He k w s Fw L) as ((_ & P2 & P3) & (_ & Q2 & Q3)). apply in_app_or in Hb as [Hb|[<-|[]]]; [apply in_app_or in Hb as [Hb|[<-|Hb]]|].
  - exists b. split; [apply in_or_app; now left|lia].
  - exists w. split; [apply in_or_app; right; now left|lia].
  - exists b. split; [apply in_or_app; right; now right|lia].
  - exists w. split; [apply in_or_app; right; now left|lia].
Qed.
Lemma rel_in m m' k B : rel lw m m' -> In (k, B) m' -> exists A, In (k, A) m /\ resplit lw k A B.
Proof.
  intros R. induction R as [|[k0 A] [k' B'] m m' [E Q] R IH]; intros H; [destruct H|]. cbn [fst snd] in *. subst k'. destruct H as [H|H].
  - injection H as <- <-. exists A. split; [now left|exact Q].
  - destruct (IH H) as (A1 & I1 & R1). exists A1. split; [now right|exact R1].
Qed.
Lemma rel_noX m m' v h : rel lw m m' -> TI e m -> noX m v h -> noX m' v h.
Proof.
  intros R [_ F] N A B a c HA HB Ha Hc [S1 S2]. destruct (rel_in m m' v A R HA) as (A0 & IA & RA). destruct (rel_in m m' h B R HB) as (B0 & IB & RB). rewrite Forall_forall in F.
  destruct (resplit_sub v A0 A a RA (proj1 (F _ IA)) Ha) as (a0 & Ia & L1). destruct (resplit_sub h B0 B c RB (proj1 (F _ IB)) Hc) as (c0 & Ic & L2).
  apply (N A0 B0 a0 c0 IA IB Ia Ic). unfold spans in *. lia.
Qed.
Lemma in_set k v k' A m : In (k', A) (tk_set k v m) -> (k' = k /\ A = v) \/ (k' <> k /\ In (k', A) m).
Proof.
  unfold tk_set. intros H. apply in_map_iff in H as ([k1 A1] & E & H). cbn [fst snd] in E. destruct (key_eqb k1 k) eqn:Q.
  - apply key_eqb_eq in Q. injection E as <- <-. now left.
  - injection E as <- <-. right. split; [|exact H]. intros ->. assert (key_eqb k k = true) by (apply key_eqb_eq; reflexivity). congruence.
Qed.
Lemma cross_tracks_noX m l t1 t2 : TI e m -> noX (cross_tracks lw m ((l, false, t1), (l, true, t2))) (l, false, t1) (l, true, t2).
Proof.
  intros T. unfold cross_tracks. cbn [fst snd]. intros A B a c HA HB Ha Hc [S1 S2]. cbn [snd] in S1, S2.
  assert (G : forall k A, In (k, A) m -> Forall (ok e k) A /\ ForallOrdPairs apart A /\ tk_get m k = A).
  { intros k A' H. destruct T as [N F]. rewrite Forall_forall in F. destruct (F _ H) as [F1 F2]. split; [exact F1|]. split; [exact F2|]. apply tk_get_in; assumption. }
  destruct (cross lw _ _) as [[[x nx0] h0]|] eqn:E.
  - apply in_set in HB as [[_ ->]|[Q _]]; [|congruence]. apply in_set in HA as [[Q _]|[_ HA]]; [discriminate Q|]. apply in_set in HA as [[_ ->]|[Q _]]; [|congruence].
    assert (TG : forall k, Forall (ok e k) (tk_get m k) /\ ForallOrdPairs apart (tk_get m k)).
    { intros k. destruct (tk_get m k) as [|w r] eqn:Eg; [split; constructor|]. assert (Hk : exists A', In (k, A') m).
      { clear - Eg. induction m as [|[k1 A1] s IH]; cbn in Eg; [discriminate Eg|]. destruct (key_eqb k1 k) eqn:Q; [apply key_eqb_eq in Q; subst; exists A1; now left|]. destruct (IH Eg) as [A' H]. exists A'. now right. }
      destruct Hk as [A' Hk]. destruct (G k A' Hk) as (G1 & G2 & G3). rewrite <- Eg, G3. auto. }
    destruct (TG (l, false, t1)) as [V1 V2]. destruct (TG (l, true, t2)) as [H1 H2].
    exact (cross_noX e l t1 t2 _ _ x nx0 h0 V1 H1 V2 H2 E a c Ha Hc (conj S1 S2)).
  - destruct (G _ _ HA) as (VA & _ & EA). destruct (G _ _ HB) as (VB & _ & EB). rewrite EA, EB in E. pose proof (cross_none B A E a c Ha Hc) as P.
    rewrite Forall_forall in VA, VB. destruct (VA a Ha) as (Ga & _). destruct (VB c Hc) as (Gc & _).
    pose proof (good_wb _ _ Ga) as Wa. pose proof (good_wb _ _ Gc) as Wc. destruct Ga as (_ & _ & Ea), Gc as (_ & _ & Ec). cbn [fst snd tpt] in *.
    unfold cross_pair in P. rewrite Wa, Wc, Ea, Ec in P. cbn [px py] in P. unfold spans in *. replace ((t2 >? w_lo a) && (t2 <? w_hi a)) with true in P by lia. discriminate P.
Qed.
Lemma crossings_noX m : TI e m -> forall l t1 t2, In (l, false, t1) (map fst m) -> In (l, true, t2) (map fst m) -> noX (split_crossings lw m) (l, false, t1) (l, true, t2).
Proof.
  intros T l t1 t2 I1 I2. unfold split_crossings.
  assert (P : forall vh, In vh (pairs_of (map fst m)) -> exists l t1 t2, vh = ((l, false, t1), (l, true, t2))).
  { intros vh H. unfold pairs_of in H. apply in_flat_map in H as ([[l1 h1] u1] & _ & H). apply in_flat_map in H as ([[l2 h2] u2] & _ & H).
    destruct (Z.eqb_spec l1 l2); [|destruct H]. destruct h1; [destruct H|]. destruct h2; [|destruct H]. destruct H as [<-|[]]. subst. eauto. }
  assert (I : In ((l, false, t1), (l, true, t2)) (pairs_of (map fst m))).
  { unfold pairs_of. apply in_flat_map. exists (l, false, t1). split; [exact I1|]. apply in_flat_map. exists (l, true, t2). split; [exact I2|]. rewrite Z.eqb_refl. now left. }
  assert (K : noX m (l, false, t1) (l, true, t2) \/ In ((l, false, t1), (l, true, t2)) (pairs_of (map fst m))) by now right. clear I I1 I2.
  revert P K. generalize (pairs_of (map fst m)) as ps. intros ps. revert m T.
  induction ps as [|vh r IH]; cbn [fold_left]; intros m T P K; [destruct K as [K|[]]; exact K|].
  destruct (P vh (or_introl eq_refl)) as (l0 & u1 & u2 & ->). destruct (cross_tracks_rel lw e He m _ T (P _ (or_introl eq_refl))) as (m1 & Q1 & T1 & Q2). destruct (rel_TI lw e He _ _ Q2 T1) as [T2 _].
  apply IH; [exact T2|intros vh H; apply P; now right|]. destruct K as [K|[K|K]].
  - left. eapply rel_noX; [exact Q2|exact T1|]. eapply rel_noX; [exact Q1|exact T|exact K].
  - left. inversion K; subst. apply cross_tracks_noX, T.
  - now right.
Qed.
Lemma rel_keys m m' : rel lw m m' -> map fst m' = map fst m.
Proof. intros R. induction R as [|? ? ? ? [E _] _ IH]; cbn; congruence. Qed.
Lemma crossings_keys m : TI e m -> map fst (split_crossings lw m) = map fst m.
Proof.
  intros T. unfold split_crossings.
  assert (P : forall vh, In vh (pairs_of (map fst m)) -> exists l t1 t2, vh = ((l, false, t1), (l, true, t2))).
  { intros vh H. unfold pairs_of in H. apply in_flat_map in H as ([[l1 h1] u1] & _ & H). apply in_flat_map in H as ([[l2 h2] u2] & _ & H).
    destruct (Z.eqb_spec l1 l2); [|destruct H]. destruct h1; [destruct H|]. destruct h2; [|destruct H]. destruct H as [<-|[]]. subst. eauto. }
  revert P. generalize (pairs_of (map fst m)) as ps. intros ps. revert m T. induction ps as [|vh r IH]; cbn [fold_left]; intros m T P; [reflexivity|].
  destruct (cross_tracks_rel lw e He m _ T (P _ (or_introl eq_refl))) as (m1 & Q1 & T1 & Q2). destruct (rel_TI lw e He _ _ Q2 T1) as [T2 _].
  rewrite IH; [|exact T2|intros; apply P; now right]. rewrite (rel_keys _ _ Q2). apply rel_keys, Q1.
Qed.
End X.
