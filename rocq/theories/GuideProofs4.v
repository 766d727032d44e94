(* genGuides_final: trimming keeps every connection of the tree that was found. *)
From Verif Require Import Base Stl GeomModel GCellModel MazeModel TreeModel TreeSpec TreeProofs TreeProofs2 ConnModel ConnProofs3 ConnProofs4 ConnProofs5 GuideModel GuideSpec GuideProofs3.

Lemma nth_set_nth {A} (l : list A) : forall i x j, nth_error (set_nth l i x) j = if Nat.eqb j i then (match nth_error l i with Some _ => Some x | None => None end) else nth_error l j.
Proof.
  induction l as [|a l IH]; intros [|i] x [|j]; cbn; try reflexivity; try (destruct (Nat.eqb _ _); reflexivity). apply IH.
Qed.
Lemma length_set_nth {A} (l : list A) : forall i x, length (set_nth l i x) = length l.
Proof. induction l as [|a l IH]; intros [|i] x; cbn; auto. Qed.
Lemma pt_eq_iff a b : pt_eq a b = true <-> a = b.
Proof. unfold pt_eq. destruct a as [x y], b as [x' y']. cbn [px py]. rewrite andb_true_iff, !Z.eqb_eq. split; [intros [-> ->]; reflexivity|intros E; injection E; auto]. Qed.

Section Final.
Variable rects : list (Z * box).
Variable pins : list (list loc).
Variable va : Z.
Variable allowFT force : bool.
Variable K : nat -> bool.
Variable prev : nat -> option nat.
Notation gCnt := (length rects).
Notation nCnt := (length rects + length pins)%nat.
Notation nm := (buildNodeMap rects pins).
Notation adj := (guide_adj va allowFT nm gCnt force).
Hypothesis Krange : forall n, K n = true -> (n < nCnt)%nat.
Hypothesis Ktrace : forall n, K n = true -> trace adj gCnt K prev n.
Hypothesis Kroot : prev gCnt = None.
Notation recs := (pin_recs pins rects K prev).
Notation fm := (final_map recs rects K).

Lemma trace_kept n : trace adj gCnt K prev n -> K n = true.
Proof. destruct 1; assumption. Qed.
Lemma final_at k j : at_node fm k j <-> (exists q, In (q, k) recs /\ j = (gCnt + q)%nat) \/ (exists g, nth_error rects j = Some g /\ K j = true /\ g_end g k).
Proof.
  unfold final_map.
  assert (A : forall L m, at_node (fold_left (fun m x => if K (fst x) then guide_ends m x else m) L m) k j <-> at_node m k j \/ exists g, In (j, g) L /\ K j = true /\ g_end g k).
  { induction L as [|[i g] L IH]; intros m; cbn [fold_left].
    - split; [auto|]. intros [?|(g & [] & _)]; assumption.
    - rewrite IH. cbn [fst]. destruct (K i) eqn:Ek.
      + rewrite guide_ends_at. cbn [fst snd]. split.
        * intros [[?|[-> ?]]|(g' & ? & ?)]; [auto|right; exists g; cbn; auto|right; exists g'; cbn; auto].
        * intros [?|(g' & [E|H] & ?)]; [auto|injection E as -> ->; tauto|right; exists g'; auto].
      + split.
        * intros [?|(g' & ? & ?)]; [auto|right; exists g'; cbn; auto].
        * intros [?|(g' & [E|H] & ? & ?)]; [auto|injection E as -> ->; congruence|right; exists g'; auto]. }
  assert (B : forall L m, at_node (fold_left (fun m x => nm_ins (snd x) (gCnt + fst x)%nat m) L m) k j <-> at_node m k j \/ exists q, In (q, k) L /\ j = (gCnt + q)%nat).
  { induction L as [|[q k0] L IH]; intros m; cbn [fold_left].
    - split; [auto|]. intros [?|(q & [] & _)]; assumption.
    - rewrite IH, nm_ins_at. cbn [fst snd]. split.
      + intros [[[-> ->]|?]|(q' & ? & ?)]; [right; exists q; cbn; auto|auto|right; exists q'; cbn; auto].
      + intros [?|(q' & [E|H] & ?)]; [auto|injection E as -> ->; auto|right; exists q'; auto]. }
  rewrite A, B. setoid_rewrite in_numbered. split; [intros [[H|?]|?]; [destruct (no_node _ _ H)|auto|auto]|intros [?|?]; auto].
Qed.
Lemma final_ok : nm_ok fm.
Proof.
  unfold final_map.
  assert (A : forall L m, nm_ok m -> nm_ok (fold_left (fun m x => if K (fst x) then guide_ends m x else m) L m)).
  { induction L as [|x L IH]; intros m H; cbn [fold_left]; [assumption|]. destruct (K (fst x)); auto using guide_ends_ok. }
  assert (B : forall L m, nm_ok m -> nm_ok (fold_left (fun m x => nm_ins (snd x) (gCnt + fst x)%nat m) L m)).
  { induction L as [|x L IH]; intros m H; cbn [fold_left]; auto using nm_ins_ok. }
  apply A, B. constructor.
Qed.
(* the recorded pin cells *)
Lemma pin_end_in g q q' k : In (q', k) (pin_end pins rects g q) -> q' = q /\ exists r, nth_error rects g = Some r /\ g_end r k /\ pin_cells pins q k.
Proof.
  unfold pin_end. destruct (nth_error rects g) as [[l b]|] eqn:Eg; [|easy]. destruct (nth_error pins q) as [s|] eqn:Eq; [|easy].
  destruct (existsb (loc_eqb (ll b, l)) s) eqn:E1.
  - intros [E|[]]. injection E as <- <-. split; [reflexivity|]. exists (l, b). split; [reflexivity|]. split; [split; cbn; auto|]. apply existsb_exists in E1 as (k' & H & E). apply loc_eqb_iff in E as <-. exists s. auto.
  - destruct (existsb (loc_eqb (ur b, l)) s) eqn:E2; [|easy]. intros [E|[]]. injection E as <- <-. split; [reflexivity|]. exists (l, b). split; [reflexivity|]. split; [split; cbn; auto|]. apply existsb_exists in E2 as (k' & H & E). apply loc_eqb_iff in E as <-. exists s. auto.
Qed.
Lemma pin_end_some g q r k : nth_error rects g = Some r -> g_end r k -> pin_cells pins q k -> exists k', In (q, k') (pin_end pins rects g q).
Proof.
  intros Eg He (s & Es & Hk). unfold pin_end. rewrite Eg, Es. destruct r as [l b], k as [p kl], He as [E1 E2]. cbn in E1, E2. subst kl.
  destruct (existsb (loc_eqb (ll b, l)) s) eqn:X1; [eexists; cbn; auto|]. destruct (existsb (loc_eqb (ur b, l)) s) eqn:X2; [eexists; cbn; auto|]. exfalso.
  destruct E2 as [-> | ->].
  - assert (existsb (loc_eqb (ll b, l)) s = true) by (apply existsb_exists; exists (ll b, l); split; [assumption|apply loc_eqb_iff; reflexivity]). congruence.
  - assert (existsb (loc_eqb (ur b, l)) s = true) by (apply existsb_exists; exists (ur b, l); split; [assumption|apply loc_eqb_iff; reflexivity]). congruence.
Qed.
Lemma rec_in q k : In (q, k) recs <-> exists i, K i = true /\ In (q, k) (pin_rec pins rects K prev i).
Proof.
  unfold pin_recs. rewrite in_flat_map. split.
  - intros (i & _ & H). exists i. split; [|assumption]. unfold pin_rec in H. destruct (K i); [reflexivity|destruct H].
  - intros (i & Hk & H). exists i. split; [apply in_seq; specialize (Krange i Hk); lia|assumption].
Qed.
Lemma rec_sound q k : In (q, k) recs -> pin_cells pins q k /\ exists g r, nth_error rects g = Some r /\ K g = true /\ g_end r k /\ (q < length pins)%nat.
Proof.
  intros H. apply rec_in in H as (i & Hk & H).
  assert (C : forall g q0, In (q, k) (pin_end pins rects g q0) -> K g = true -> pin_cells pins q k /\ exists g r, nth_error rects g = Some r /\ K g = true /\ g_end r k /\ (q < length pins)%nat).
  { intros g q0 Hp Kg. apply pin_end_in in Hp as (-> & r & E & He & Hc). split; [assumption|]. exists g, r. repeat split; auto; try apply He. destruct Hc as (s & Es & _). apply nth_error_Some. congruence. }
  unfold pin_rec in H. rewrite Hk in H. cbn [negb] in H. destruct (prev i) as [p|] eqn:Ep; [|destruct H].
  destruct ((i <? gCnt) && (gCnt <=? p))%nat eqn:E1; [eapply C; eauto|]. destruct ((gCnt <=? i) && (p <? gCnt))%nat eqn:E2; [|destruct H].
  eapply C; [exact H|]. destruct (Ktrace i Hk) as [Hr|n m Hn Hp Ha T]; [congruence|]. assert (m = p) as -> by congruence. apply trace_kept in T. assumption.
Qed.
Lemma rec_guide_of_pin n m : K n = true -> prev n = Some m -> In n (adj m) -> (n < gCnt)%nat -> (gCnt <= m)%nat ->
  exists k r, In ((m - gCnt)%nat, k) recs /\ nth_error rects n = Some r /\ g_end r k.
Proof.
  intros Kn Ep Ha Hn Hm. apply adj_edge, edge_joined in Ha as (_ & _ & J & _).
  destruct (item_guide rects n Hn) as (r & Er & E). rewrite E, (item_pin rects m Hm) in J. destruct J as (k & He & Hc).
  destruct (pin_end_some n (m - gCnt) r k Er He Hc) as (k' & H'). exists k', r. split.
  - apply rec_in. exists n. split; [assumption|]. unfold pin_rec. rewrite Kn, Ep. cbn [negb]. replace ((n <? gCnt) && (gCnt <=? m))%nat with true by lia. assumption.
  - split; [assumption|]. apply pin_end_in in H' as (_ & r' & Er' & He' & _). congruence.
Qed.
Lemma rec_pin_of_guide n m : K n = true -> prev n = Some m -> In n (adj m) -> (gCnt <= n)%nat -> (m < gCnt)%nat ->
  exists k r, In ((n - gCnt)%nat, k) recs /\ nth_error rects m = Some r /\ g_end r k.
Proof.
  intros Kn Ep Ha Hn Hm. apply adj_edge, edge_joined in Ha as (_ & _ & J & _).
  destruct (item_guide rects m Hm) as (r & Er & E). rewrite E, (item_pin rects n Hn) in J. destruct J as (k & He & Hc).
  destruct (pin_end_some m (n - gCnt) r k Er He Hc) as (k' & H'). exists k', r. split.
  - apply rec_in. exists n. split; [assumption|]. unfold pin_rec. rewrite Kn, Ep. cbn [negb]. replace ((n <? gCnt) && (gCnt <=? m))%nat with false by lia. replace ((gCnt <=? n) && (m <? gCnt))%nat with true by lia. assumption.
  - split; [assumption|]. apply pin_end_in in H' as (_ & r' & Er' & He' & _). congruence.
Qed.

(* ---- trimming *)
Definition busy (k : loc) (i : nat) : Prop :=
  (exists j, j <> i /\ at_node fm k j) \/ (exists j, at_node fm (fst k, snd k + 2) j) \/ (exists j, at_node fm (fst k, snd k - 2) j).
Definition trimmed (rs : list (Z * box)) : Prop :=
  length rs = gCnt /\
  forall i g, nth_error rects i = Some g -> exists g', nth_error rs i = Some g' /\ fst g' = fst g /\
    (snd g' = snd g \/ snd g' = mkBox (ll (snd g)) (ll (snd g)) \/ snd g' = mkBox (ur (snd g)) (ur (snd g))) /\
    forall k, g_end g k -> busy k i -> g_end g' k.
Lemma trimmed_0 : trimmed rects.
Proof. split; [reflexivity|]. intros i g E. exists g. auto. Qed.
Lemma nm_has_iff m k : nm_has m k = true <-> exists s, In (k, s) m.
Proof.
  unfold nm_has. rewrite existsb_exists. split.
  - intros ([k' s] & H & E). apply loc_eqb_iff in E. cbn in E. subst. eauto.
  - intros (s & H). exists (k, s). split; [assumption|]. apply loc_eqb_iff. reflexivity.
Qed.
Lemma final_entries (P : list nat -> Prop) : (forall i, P [i]) -> (forall i s, P s -> P (nset_ins i s)) -> forall k s, In (k, s) fm -> P s.
Proof.
  intros P1 P2. unfold final_map.
  assert (I : forall k0 i m, (forall k s, In (k, s) m -> P s) -> forall k s, In (k, s) (nm_ins k0 i m) -> P s).
  { intros k0 i. induction m as [|[k1 s1] m IH]; cbn [nm_ins]; intros H k' s' Hi.
    - destruct Hi as [E|[]]. injection E as <- <-. apply P1.
    - destruct (loc_eqb k0 k1).
      + destruct Hi as [E|Hi]; [|apply (H k' s'); cbn; auto]. injection E as <- <-. apply P2, (H k1). cbn; auto.
      + destruct Hi as [E|Hi]; [apply (H k' s'); cbn; auto|]. eapply IH; [|exact Hi]. intros k2 s2 H2. apply (H k2 s2). cbn; auto. }
  assert (A : forall L m, (forall k s, In (k, s) m -> P s) -> forall k s, In (k, s) (fold_left (fun m x => if K (fst x) then guide_ends m x else m) L m) -> P s).
  { induction L as [|x L IH]; intros m H; cbn [fold_left]; [assumption|]. apply IH. destruct (K (fst x)); [|assumption]. unfold guide_ends. apply I, I, H. }
  assert (B : forall L m, (forall k s, In (k, s) m -> P s) -> forall k s, In (k, s) (fold_left (fun m x => nm_ins (snd x) (gCnt + fst x)%nat m) L m) -> P s).
  { induction L as [|x L IH]; intros m H; cbn [fold_left]; [assumption|]. apply IH, I, H. }
  apply A, B. intros ? ? [].
Qed.
Lemma entry_nonempty k s : In (k, s) fm -> s <> [].
Proof.
  apply (final_entries (fun s => s <> [])); [discriminate|]. intros i s0 _ E. assert (H0 : In i (nset_ins i s0)) by (apply nset_ins_in; auto). rewrite E in H0. destruct H0.
Qed.
Lemma entry_nodup k s : In (k, s) fm -> NoDup s.
Proof.
  intros H. set (asc := fix asc (s : list nat) := match s with [] => True | a :: r => (forall x, In x r -> (a < x)%nat) /\ asc r end). enough (S : forall s, asc s -> NoDup s).
  { apply S. revert k s H. apply (final_entries asc); [cbn; split; [easy|exact I]|].
    intros i. induction s as [|a s IH]; intros Hs; cbn [nset_ins]; [split; [easy|exact I]|]. destruct Hs as [H1 H2].
    destruct (i <? a)%nat eqn:E1; [split; [intros x [<-|Hx]; [lia|specialize (H1 x Hx); lia]|split; assumption]|].
    destruct (i =? a)%nat eqn:E2; [split; assumption|]. split; [|apply IH, H2]. intros x Hx. apply nset_ins_in in Hx as [->|Hx]; [lia|auto]. }
  clear. induction s as [|a s IH]; intros H; constructor; destruct H as [H1 H2]; [|auto]. intros Hi. specialize (H1 a Hi). lia.
Qed.
Lemma not_busy k i : In (k, [i]) fm -> nm_has fm (fst k, snd k + 2) = false -> nm_has fm (fst k, snd k - 2) = false -> ~ busy k i.
Proof.
  intros H H1 H2 [(j & Hn & s & Hs & Hj)|[(j & s & Hs & Hj)|(j & s & Hs & Hj)]].
  - rewrite (nm_unique fm k [i] s final_ok H Hs) in Hj. destruct Hj as [?|[]]. congruence.
  - rewrite (proj2 (nm_has_iff _ _) (ex_intro _ s Hs)) in H1. discriminate.
  - rewrite (proj2 (nm_has_iff _ _) (ex_intro _ s Hs)) in H2. discriminate.
Qed.
Lemma is_busy k i : at_node fm k i -> ~ (In (k, [i]) fm /\ nm_has fm (fst k, snd k + 2) = false /\ nm_has fm (fst k, snd k - 2) = false) -> busy k i.
Proof.
  intros (s & Hs & Hi) N. destruct (nm_has fm (fst k, snd k + 2)) eqn:H1.
  { apply nm_has_iff in H1 as (s1 & Hs1). right. left. pose proof (entry_nonempty _ _ Hs1). destruct s1 as [|j s1]; [congruence|]. exists j, (j :: s1). cbn. auto. }
  destruct (nm_has fm (fst k, snd k - 2)) eqn:H2.
  { apply nm_has_iff in H2 as (s1 & Hs1). right. right. pose proof (entry_nonempty _ _ Hs1). destruct s1 as [|j s1]; [congruence|]. exists j, (j :: s1). cbn. auto. }
  left. destruct s as [|a [|b s]]; [destruct Hi| |].
  - exfalso. apply N. destruct Hi as [->|[]]. auto.
  - destruct (Nat.eq_dec a i) as [->|Ha]; [|exists a; split; [assumption|]; exists (a :: b :: s); cbn; auto].
    exists b. split; [|exists (i :: b :: s); cbn; auto]. intros ->.
    pose proof (entry_nodup _ _ Hs) as ND. inversion ND; subst. cbn in *. tauto.
Qed.

Lemma lone_pin k i : In (k, [i]) fm -> (i < gCnt)%nat.
Proof.
  intros H. destruct (le_lt_dec gCnt i) as [Hi|Hi]; [|assumption]. exfalso.
  assert (A : at_node fm k i) by (exists [i]; cbn; auto). apply final_at in A as [(q & Hq & ->)|(g & E & _)].
  - apply rec_sound in Hq as (_ & g & r & Eg & Kg & He & _). assert (A : at_node fm k g) by (apply final_at; eauto 10). destruct A as (s & Hs & Hg). rewrite (nm_unique fm k _ s final_ok H Hs) in Hg.
    destruct Hg as [Hg|[]]. assert (g < gCnt)%nat by (apply nth_error_Some; congruence). lia.
  - apply nth_error_None in Hi. congruence.
Qed.
Lemma trim_step rs e : trimmed rs -> In e fm -> exists rs', trim fm gCnt (Some rs) e = Some rs' /\ trimmed rs' /\
  (forall i g, nth_error rs i = Some g -> ll (snd g) = ur (snd g) -> exists g', nth_error rs' i = Some g' /\ ll (snd g') = ur (snd g')) /\
  (forall k i, e = (k, [i]) -> nm_has fm (fst k, snd k + 2) = false -> nm_has fm (fst k, snd k - 2) = false -> exists g', nth_error rs' i = Some g' /\ ll (snd g') = ur (snd g')).
Proof.
  intros [Tl T] He. destruct e as [[p l] s]. unfold trim. cbn [fst snd].
  assert (Triv : s = s -> (forall i, s = [i] -> nm_has fm (p, l + 2) = false -> nm_has fm (p, l - 2) = false -> False) -> exists rs', Some rs = Some rs' /\ trimmed rs' /\
    (forall i g, nth_error rs i = Some g -> ll (snd g) = ur (snd g) -> exists g', nth_error rs' i = Some g' /\ ll (snd g') = ur (snd g')) /\
    (forall k i, ((p, l), s) = (k, [i]) -> nm_has fm (fst k, snd k + 2) = false -> nm_has fm (fst k, snd k - 2) = false -> exists g', nth_error rs' i = Some g' /\ ll (snd g') = ur (snd g'))).
  { intros _ N. exists rs. split; [reflexivity|]. split; [split; assumption|]. split; [eauto|]. intros k i E H1 H2. injection E as <- ->. cbn [fst snd] in H1, H2. destruct (N i eq_refl H1 H2). }
  destruct s as [|i [|j s]]; [apply Triv; [reflexivity|discriminate]| |apply Triv; [reflexivity|discriminate]].
  pose proof (lone_pin _ _ He) as Hi. replace (i <? gCnt)%nat with true by lia.
  destruct (negb (nm_has fm (p, l + 2)) && negb (nm_has fm (p, l - 2))) eqn:Eb.
  2:{ apply Triv; [reflexivity|]. intros i' E H1 H2. rewrite H1, H2 in Eb. discriminate. }
  assert (Nb : ~ busy (p, l) i) by (apply not_busy; [assumption| |]; cbn [fst snd]; lia).
  clear Triv. destruct (nth_error rects i) as [g|] eqn:Eg; [|apply nth_error_None in Eg; lia].
  destruct (T i g Eg) as ([gl b] & Er & El & Eb' & Hb). rewrite Er. cbn [fst snd] in El. subst gl. cbn [snd] in Eb'.
  assert (Ae : g_end g (p, l)).
  { assert (A : at_node fm (p, l) i) by (exists [i]; cbn; auto). apply final_at in A as [(q & _ & ->)|(g' & E & _ & A)]; [lia|congruence]. }
  set (b' := if pt_eq (ll b) p then mkBox (ur b) (ur b) else mkBox (ll b) (ll b)).
  exists (set_nth rs i (fst g, b')). split; [reflexivity|].
  assert (Pt : ll b' = ur b') by (unfold b'; destruct (pt_eq (ll b) p); reflexivity).
  split; [|split].
  - split; [rewrite length_set_nth; assumption|]. intros i' g' Eg'. rewrite nth_set_nth. destruct (Nat.eqb_spec i' i) as [->|Hn]; [|apply T; assumption].
    rewrite Er. assert (g' = g) as -> by congruence. exists (fst g, b'). split; [reflexivity|]. split; [reflexivity|]. cbn [snd].
    split.
    + unfold b'. destruct (pt_eq (ll b) p); destruct Eb' as [-> | [-> | ->]]; cbn [ll ur]; auto.
    + intros k Hk Bk. assert (Hkp : fst k <> p). { intros E. apply Nb. replace (p, l) with k; [assumption|]. destruct k as [kp kl], Hk as [E1 _], Ae as [E2 _]. cbn in *. congruence. }
      pose proof (Hb k Hk Bk) as [E1 E2]. cbn [fst snd] in E1, E2. split; [assumption|]. cbn [snd fst]. unfold b'.
      destruct Ae as [_ A]. cbn [fst snd] in A. destruct Hk as [_ Hk].
      destruct (pt_eq (ll b) p) eqn:Ep; cbn [ll ur].
      * apply pt_eq_iff in Ep. destruct E2 as [E2|E2]; [congruence|auto].
      * assert (ll b <> p) by (intros E; apply pt_eq_iff in E; congruence). destruct E2 as [E2|E2]; [auto|].
        destruct Eb' as [-> | [-> | ->]]; cbn [ll ur] in *; [|auto|auto]. destruct A as [A|A]; congruence.
  - intros i' g' Eg' Pg. rewrite nth_set_nth. destruct (Nat.eqb_spec i' i) as [->|Hn]; [rewrite Er; eexists; split; [reflexivity|assumption]|eauto].
  - intros k i' E _ _. injection E as <- <-. rewrite nth_set_nth, Nat.eqb_refl, Er. eexists; split; [reflexivity|assumption].
Qed.
Lemma trim_all L : forall rs, trimmed rs -> (forall e, In e L -> In e fm) -> exists rs', fold_left (trim fm gCnt) L (Some rs) = Some rs' /\ trimmed rs' /\
  (forall i g, nth_error rs i = Some g -> ll (snd g) = ur (snd g) -> exists g', nth_error rs' i = Some g' /\ ll (snd g') = ur (snd g')) /\
  (forall k i, In (k, [i]) L -> nm_has fm (fst k, snd k + 2) = false -> nm_has fm (fst k, snd k - 2) = false -> exists g', nth_error rs' i = Some g' /\ ll (snd g') = ur (snd g')).
Proof.
  induction L as [|e L IH]; intros rs T HL; cbn [fold_left].
  - exists rs. split; [reflexivity|]. split; [assumption|]. split; [eauto|]. intros k i [].
  - destruct (trim_step rs e T (HL e (or_introl eq_refl))) as (r1 & E & T1 & F1 & F2). rewrite E.
    destruct (IH r1 T1 (fun e' H => HL e' (or_intror H))) as (r2 & E2 & T2 & G1 & G2). exists r2. split; [assumption|]. split; [assumption|]. split.
    + intros i g Eg Pg. destruct (F1 i g Eg Pg) as (g1 & Eg1 & Pg1). exact (G1 i g1 Eg1 Pg1).
    + intros k i [E0|Hi] H1 H2; [|eauto]. destruct (F2 k i E0 H1 H2) as (g1 & Eg1 & Pg1). exact (G1 i g1 Eg1 Pg1).
Qed.

(* ---- the result *)
Variable walk : nmap -> nmap.
Hypothesis walk_in : forall m e, In e (walk m) <-> In e m.
Definition shrunk (g g' : Z * box) : Prop :=
  fst g' = fst g /\ (snd g' = snd g \/ snd g' = mkBox (ll (snd g)) (ll (snd g)) \/ snd g' = mkBox (ur (snd g)) (ur (snd g))).
Notation tie := (fun q k => In (q, k) recs).
Lemma final_spec : exists rs, genGuides_final walk pins rects K prev = Some (map snd (filter (fun x => K (fst x)) (numbered rs)), recs) /\ trimmed rs /\
  (forall i g, (i < gCnt)%nat -> K i = true -> nth_error rs i = Some g -> ll (snd g) <> ur (snd g) -> forall k, g_end g k -> busy k i).
Proof.
  unfold genGuides_final. destruct (trim_all (walk fm) rects trimmed_0 ltac:(intros e; apply walk_in)) as (rs & -> & T & _ & T2). exists rs. split; [reflexivity|]. split; [assumption|].
  intros i g Hi Ki Eg Hn k Hk. destruct T as [Tl T]. destruct (nth_error rects i) as [g0|] eqn:E0; [|apply nth_error_None in E0; lia].
  destruct (T i g0 E0) as (g' & E' & L & S & _). assert (g' = g) as -> by congruence.
  assert (Sb : snd g = snd g0) by (destruct S as [?|[S|S]]; [assumption| |]; rewrite S in Hn; cbn in Hn; congruence).
  apply is_busy; [apply final_at; right; exists g0; split; [assumption|]; split; [assumption|]; destruct Hk as [H1 H2]; rewrite L, Sb in *; split; assumption|].
  intros (H1 & H2 & H3). destruct (T2 k i ltac:(apply walk_in; assumption) H2 H3) as (g2 & Eg2 & P). congruence.
Qed.
Lemma end_kept rs i g g' k : trimmed rs -> K i = true -> nth_error rects i = Some g -> nth_error rs i = Some g' -> g_end g k -> busy k i -> g_end g' k.
Proof. intros [_ T] Ki E E' He Hb. destruct (T i g E) as (g2 & E2 & _ & _ & H). assert (g2 = g') as -> by congruence. auto. Qed.
Lemma final_leads rs : trimmed rs -> forall n, trace adj gCnt K prev n -> leads va (kept_guides rs K) (length pins) tie (ft allowFT force) (item_of rs n).
Proof.
  intros T. pose proof T as [Tl T']. induction 1 as [Hr|n m Hn Ep Ha Tm IH].
  - unfold item_of. replace (nth_error rs gCnt) with (@None (Z * box)) by (symmetry; apply nth_error_None; lia). rewrite Tl. replace (gCnt - gCnt)%nat with 0%nat by lia. constructor. specialize (Krange gCnt Hr). lia.
  - destruct (Nat.eq_dec n m) as [->|Hnm]; [assumption|]. pose proof (trace_kept m Tm) as Km.
    assert (Gi : forall i, (i < gCnt)%nat -> exists g0 g, nth_error rects i = Some g0 /\ nth_error rs i = Some g /\ item_of rs i = Gd g).
    { intros i Hi. destruct (item_guide rects i Hi) as (g0 & E0 & _). destruct (T' i g0 E0) as (g & E & _). exists g0, g. split; [assumption|]. split; [assumption|]. unfold item_of. rewrite E. reflexivity. }
    assert (Pi : forall i, (gCnt <= i)%nat -> item_of rs i = Pn (i - gCnt)) by (intros i Hi; rewrite (item_pin rs) by lia; rewrite Tl; reflexivity).
    pose proof (adj_edge rects pins va allowFT force m n Ha) as Ed. pose proof Ed as Ed'. apply edge_joined in Ed' as (Rm & Rn & J & Fl).
    eapply leads_s; [exact IH| | |].
    + destruct (le_lt_dec gCnt n) as [Hl|Hl]; [rewrite (Pi n Hl); cbn; lia|]. destruct (Gi n Hl) as (g0 & g & E0 & E & ->). cbn. apply kept_in. eauto.
    + destruct (le_lt_dec gCnt m) as [Lm|Lm], (le_lt_dec gCnt n) as [Ln|Ln].
      * rewrite (item_pin rects m Lm), (item_pin rects n Ln) in J. destruct J.
      * destruct (rec_guide_of_pin n m Hn Ep Ha Ln Lm) as (k & r & Hk & Er & He). destruct (Gi n Ln) as (g0 & g & E0 & E & ->). rewrite (Pi m Lm). exists k. split; [|assumption].
        apply (end_kept rs n g0 g k T Hn E0 E); [replace g0 with r by congruence; assumption|]. left. exists m. split; [congruence|]. apply final_at. left. exists (m - gCnt)%nat. split; [assumption|lia].
      * destruct (rec_pin_of_guide n m Hn Ep Ha Ln Lm) as (k & r & Hk & Er & He). destruct (Gi m Lm) as (g0 & g & E0 & E & ->). rewrite (Pi n Ln). exists k. split; [|assumption].
        apply (end_kept rs m g0 g k T Km E0 E); [replace g0 with r by congruence; assumption|]. left. exists n. split; [congruence|]. apply final_at. left. exists (n - gCnt)%nat. split; [assumption|lia].
      * destruct (Gi m Lm) as (g0 & g & E0 & E & ->), (Gi n Ln) as (h0 & h & F0 & F & ->).
        unfold item_of in J. rewrite E0, F0 in J. destruct J as (k & k' & Hk & Hk' & Pk & Lk).
        assert (Am : at_node fm k m) by (apply final_at; right; exists g0; auto). assert (An : at_node fm k' n) by (apply final_at; right; exists h0; auto).
        assert (B : busy k m /\ busy k' n).
        { destruct k as [p l], k' as [p' l']. cbn [fst snd] in Pk, Lk. subst p'. unfold busy. cbn [fst snd]. destruct Lk as [[-> _]|[-> | ->]].
          - split; left; [exists n|exists m]; auto.
          - split; [right; left; eauto|right; right; exists m; replace (l + 2 - 2) with l by lia; assumption].
          - split; [right; right; exists n; replace (l' + 2 - 2) with l' by lia; assumption|right; left; eauto]. }
        destruct B as [B1 B2]. exists k, k'. split; [exact (end_kept rs m g0 g k T Km E0 E Hk B1)|]. split; [exact (end_kept rs n h0 h k' T Hn F0 F Hk' B2)|]. split; [assumption|]. destruct Lk; auto.
    + destruct (le_lt_dec gCnt m) as [Lm|Lm]; [rewrite (Pi m Lm)|destruct (Gi m Lm) as (g0 & g & E0 & E & ->); exact I].
      destruct (m - gCnt)%nat eqn:Em; [exact I|]. destruct Fl as [?|[F _]]; [assumption|]. specialize (F Lm). lia.
Qed.
Lemma busy_out rs k i h : trimmed rs -> nth_error rects i = Some h -> K i = true -> g_end h k -> busy k i ->
  exists k', fst k' = fst k /\ (snd k' = snd k \/ snd k' = snd k + 2 \/ snd k' = snd k - 2) /\
    ((exists q, In (q, k') recs) \/ exists j g, j <> i /\ nth_error rs j = Some g /\ K j = true /\ g_end g k').
Proof.
  intros T Eh Kh Hh B. assert (Ai : at_node fm k i) by (apply final_at; eauto 10).
  assert (C : forall k' j, at_node fm k' j -> busy k' j -> j <> i -> (exists q, In (q, k') recs) \/ exists j g, j <> i /\ nth_error rs j = Some g /\ K j = true /\ g_end g k').
  { intros k' j A Bj Hj. apply final_at in A as [(q & Hq & _)|(g0 & E0 & Kj & He)]; [eauto|]. right. pose proof T as [_ T']. destruct (T' j g0 E0) as (g & E & _). exists j, g. split; [assumption|]. split; [assumption|]. split; [assumption|].
    exact (end_kept rs j g0 g k' T Kj E0 E He Bj). }
  assert (D : forall k' j, at_node fm k' j -> snd k' <> snd k -> j <> i).
  { intros k' j A Hl ->. apply final_at in A as [(q & _ & ->)|(g & E & _ & [L _])].
    - assert (gCnt + q < gCnt)%nat by (apply nth_error_Some; congruence). lia.
    - destruct Hh as [L' _]. congruence. }
  destruct k as [p l]. cbn [fst snd] in *.
  destruct B as [(j & Hj & A)|[(j & A)|(j & A)]]; cbn [fst snd] in A.
  - exists (p, l). split; [reflexivity|]. split; [auto|]. apply (C _ j); [assumption|left; eauto|assumption].
  - exists (p, l + 2). split; [reflexivity|]. split; [auto|]. apply (C _ j); [assumption| |apply (D _ _ A); cbn; lia]. right; right. exists i. cbn [fst snd]. replace (l + 2 - 2) with l by lia. assumption.
  - exists (p, l - 2). split; [reflexivity|]. split; [auto|]. apply (C _ j); [assumption| |apply (D _ _ A); cbn; lia]. right; left. exists i. cbn [fst snd]. replace (l - 2 + 2) with l by lia. assumption.
Qed.
Lemma kept_split rs l1 g l2 : kept_guides rs K = l1 ++ g :: l2 -> exists i, nth_error rs i = Some g /\ K i = true /\ forall j h, j <> i -> nth_error rs j = Some h -> K j = true -> In h (l1 ++ l2).
Proof.
  unfold kept_guides. intros H. apply map_eq_app in H as (F1 & F2 & EF & E1 & E2). destruct F2 as [|[i g'] F2]; [discriminate|]. cbn [map snd] in E2. injection E2 as -> E2.
  assert (Hi : In (i, g) (filter (fun x => K (fst x)) (numbered rs))) by (rewrite EF; apply in_elt).
  apply filter_In in Hi as [Hi Ki]. apply in_numbered in Hi. exists i. split; [assumption|]. split; [assumption|]. intros j h Hj Ej Kj.
  assert (Hf : In (j, h) (filter (fun x => K (fst x)) (numbered rs))) by (apply filter_In; split; [apply in_numbered; assumption|assumption]).
  rewrite EF in Hf. subst l1 l2. rewrite <- map_app. apply in_map_iff. exists (j, h). split; [reflexivity|]. apply in_app_iff in Hf as [Hf|[E|Hf]]; [apply in_app_iff; auto|injection E as <- <-; congruence|apply in_app_iff; auto].
Qed.
Lemma tie_end rs q k : trimmed rs -> In (q, k) recs -> exists g, In g (kept_guides rs K) /\ g_end g k.
Proof.
  intros T H. pose proof H as H0. apply rec_sound in H as (_ & i & r & E & Ki & He & Hq). pose proof T as [_ T']. destruct (T' i r E) as (g & Eg & _). exists g. split; [apply kept_in; eauto|].
  apply (end_kept rs i r g k T Ki E Eg He). left. exists (gCnt + q)%nat. split; [|apply final_at; left; eauto]. assert (i < gCnt)%nat by (apply nth_error_Some; congruence). lia.
Qed.
Theorem final_theorem : exists out, genGuides_final walk pins rects K prev = Some (out, recs) /\
  (forall g, In g out -> exists g0, In g0 rects /\ shrunk g0 g /\ leads va out (length pins) tie (ft allowFT force) (Gd g)) /\
  (forall q, (q < length pins)%nat -> K (gCnt + q) = true -> leads va out (length pins) tie (ft allowFT force) (Pn q)) /\
  (forall q k, In (q, k) recs -> pin_cells pins q k /\ exists g, In g out /\ g_end g k) /\
  (forall l1 g l2, out = l1 ++ g :: l2 -> ll (snd g) <> ur (snd g) -> forall k, g_end g k ->
     exists k', fst k' = fst k /\ (snd k' = snd k \/ snd k' = snd k + 2 \/ snd k' = snd k - 2) /\
       ((exists q, In (q, k') recs) \/ exists g', In g' (l1 ++ l2) /\ g_end g' k')).
Proof.
  destruct final_spec as (rs & E & T & B). exists (kept_guides rs K). split; [exact E|]. pose proof T as [Tl T'].
  split; [|split; [|split]].
  - intros g Hg. apply kept_in in Hg as (i & Eg & Ki). destruct (nth_error rects i) as [g0|] eqn:E0.
    2:{ apply nth_error_None in E0. assert (i < length rs)%nat by (apply nth_error_Some; congruence). lia. }
    destruct (T' i g0 E0) as (g' & E' & L & S & _). assert (g' = g) as -> by congruence. exists g0. split; [eapply nth_error_In; eauto|]. split; [split; assumption|].
    pose proof (final_leads rs T i (Ktrace i Ki)) as H. unfold item_of in H. rewrite Eg in H. exact H.
  - intros q Hq Kq. pose proof (final_leads rs T _ (Ktrace _ Kq)) as H. rewrite (item_pin rs) in H by lia. rewrite Tl in H. replace (gCnt + q - gCnt)%nat with q in H by lia. exact H.
  - intros q k H. split; [apply (rec_sound q k H)|apply (tie_end rs q k T H)].
  - intros l1 g l2 Eo Hn k Hk. destruct (kept_split rs l1 g l2 Eo) as (i & Eg & Ki & Ho).
    destruct (nth_error rects i) as [g0|] eqn:E0.
    2:{ apply nth_error_None in E0. assert (i < length rs)%nat by (apply nth_error_Some; congruence). lia. }
    assert (Hi : (i < gCnt)%nat) by (apply nth_error_Some; congruence).
    destruct (T' i g0 E0) as (g' & E' & L & S & _). assert (g' = g) as -> by congruence.
    assert (Sb : snd g = snd g0) by (destruct S as [?|[S|S]]; [assumption| |]; rewrite S in Hn; cbn in Hn; congruence).
    assert (Hk0 : g_end g0 k) by (destruct Hk as [H1 H2]; rewrite L, Sb in *; split; assumption).
    destruct (busy_out rs k i g0 T E0 Ki Hk0 (B i g Hi Ki Eg Hn k Hk)) as (k' & P & Lk & [R|(j & h & Hj & Ej & Kj & He)]); exists k'; split; [assumption|split; [assumption|left; assumption]|assumption|split; [assumption|]]. right. exists h. split; [eapply Ho; eauto|assumption].
Qed.
End Final.
