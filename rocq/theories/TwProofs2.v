(* Splitting the merged wires. *)
From Verif Require Import Base GeomModel ClipModel ClipSpec TwModel TwProofs.
From Coq Require Import Sorted.

Definition apart (u v : wire) : Prop := w_hi u <= w_lo v \/ w_hi v <= w_lo u.
Lemma apart_sym u v : apart u v -> apart v u. Proof. unfold apart. tauto. Qed.
Lemma fop_mid {A} (R : A -> A -> Prop) p w q : (forall a b, R a b -> R b a) ->
  (ForallOrdPairs R (p ++ w :: q) <-> ForallOrdPairs R (p ++ q) /\ Forall (R w) (p ++ q)).
Proof.
  intros Sy. induction p as [|a r IH]; cbn [app].
  - split; [intros H; inversion_clear H; auto|intros [H1 H2]; constructor; assumption].
  - split.
    + intros H. inversion_clear H as [|? ? F P]. apply IH in P as [P Q]. apply Forall_app in F as [F1 F2]. inversion_clear F2.
      split; constructor; try assumption; [apply Forall_app; split; assumption|]. apply Sy. assumption.
    + intros [H1 H2]. inversion_clear H1 as [|? ? F P]. inversion_clear H2 as [|? ? W Q]. constructor; [|apply IH; split; assumption].
      apply Forall_app in F as [F1 F2]. apply Forall_app. split; [exact F1|]. constructor; [apply Sy, W|exact F2].
Qed.

Section R.
Variable lw : Z -> Z.
Variable e : Z -> option Z.
Hypothesis He : forall l, match e l with None => True | Some x => x = default_ext lw l end.
Definition lof (k : tkey) : Z := fst (fst k).
Definition ok (k : tkey) (w : wire) : Prop := out_ok k (e (lof k)) w.
Definition piece1 (k : tkey) (w : wire) (s : Z) : wire := mkW (wl w) (wb w) (tpt (snd (fst k)) (snd k) s) (set_end (ws w) StExtend (default_ext lw (wl w))).
Definition piece2 (k : tkey) (w : wire) (s : Z) : wire := mkW (wl w) (tpt (snd (fst k)) (snd k) s) (we w) (set_begin (ws w) StExtend (default_ext lw (wl w))).
Definition resplit (k : tkey) (A B : list wire) : Prop :=
  B = A \/ exists p w q s, A = p ++ w :: q /\ w_lo w < s < w_hi w /\ B = (p ++ piece1 k w s :: q) ++ [piece2 k w s].
Lemma key_split (k : tkey) : (fst (fst k), snd (fst k), snd k) = k. Proof. destruct k as [[? ?] ?]. reflexivity. Qed.
Lemma pieces k w s : ok k w -> w_lo w < s < w_hi w ->
  (ok k (piece1 k w s) /\ w_lo (piece1 k w s) = w_lo w /\ w_hi (piece1 k w s) = s) /\ (ok k (piece2 k w s) /\ w_lo (piece2 k w s) = s /\ w_hi (piece2 k w s) = w_hi w).
Proof.
  intros (Gw & B & E) L. pose proof (good_wb k w Gw) as Wb. destruct Gw as (Kw & Lw & We). assert (Wl : wl w = lof k) by (unfold lof; rewrite <- Kw; reflexivity).
  unfold piece1, piece2. rewrite Wb, We, Wl. unfold lof in *.
  destruct (good_mk (fst (fst k)) (snd (fst k)) (snd k) (w_lo w) s (set_end (ws w) StExtend (default_ext lw (fst (fst k)))) ltac:(lia)) as (A1 & A2 & A3).
  destruct (good_mk (fst (fst k)) (snd (fst k)) (snd k) s (w_hi w) (set_begin (ws w) StExtend (default_ext lw (fst (fst k)))) ltac:(lia)) as (B1 & B2 & B3).
  rewrite key_split in A1, B1. specialize (He (fst (fst k))). unfold ok, out_ok, bst, est, lof in *.
  assert (D : forall s0, match e (fst (fst k)) with Some e0 => eExt (set_end s0 StExtend (default_ext lw (fst (fst k)))) = e0 /\ (eSty (set_end s0 StExtend (default_ext lw (fst (fst k)))) = StExtend \/ eSty (set_end s0 StExtend (default_ext lw (fst (fst k)))) = StTruncate /\ e0 = 0) | None => True end).
  { intros s0. destruct (e (fst (fst k))); [|exact I]. subst. cbn. auto. }
  assert (D' : forall s0, match e (fst (fst k)) with Some e0 => bExt (set_begin s0 StExtend (default_ext lw (fst (fst k)))) = e0 /\ (bSty (set_begin s0 StExtend (default_ext lw (fst (fst k)))) = StExtend \/ bSty (set_begin s0 StExtend (default_ext lw (fst (fst k)))) = StTruncate /\ e0 = 0) | None => True end).
  { intros s0. destruct (e (fst (fst k))); [|exact I]. subst. cbn. auto. }
  split; (split; [split; [assumption|cbn [ws]; split; [try apply D'; exact B|try apply D; exact E]]|auto]).
Qed.
Lemma resplit_ok k A B : resplit k A B -> Forall (ok k) A -> Forall (ok k) B /\ (ForallOrdPairs apart A -> ForallOrdPairs apart B) /\ forall X, covered B X <-> covered A X.
Proof.
  intros [->|(p & w & q & s & -> & L & ->)] F; [intuition|]. apply Forall_app in F as [F1 F2]. inversion_clear F2 as [|? ? Fw Fq].
  destruct (pieces k w s Fw L) as ((P1 & P2 & P3) & (Q1 & Q2 & Q3)). split; [|split].
  - apply Forall_app. split; [apply Forall_app; split; [exact F1|constructor; assumption]|]. constructor; [exact Q1|constructor].
  - intros H. apply (fop_mid apart p w q apart_sym) in H as [H1 H2].
    assert (H3 : Forall (apart (piece1 k w s)) (p ++ q)) by (eapply Forall_impl; [|exact H2]; intros v; unfold apart; lia).
    assert (H4 : Forall (apart (piece2 k w s)) (p ++ q)) by (eapply Forall_impl; [|exact H2]; intros v; unfold apart; lia).
    apply (fop_mid apart _ _ [] apart_sym). rewrite app_nil_r. split; [apply (fop_mid apart p _ q apart_sym); split; assumption|].
    apply Forall_app in H4 as [H4 H5]. apply Forall_app. split; [exact H4|]. constructor; [|exact H5]. unfold apart. lia.
  - intros X. rewrite covered_snoc. unfold covered. split.
    + intros [(v & Hv & Hx)|Hx].
      * apply in_app_or in Hv as [Hv|[<-|Hv]]; [exists v|exists w|exists v]; (split; [apply in_or_app; cbn; auto|lia]).
      * exists w. split; [apply in_or_app; right; now left|lia].
    + intros (v & Hv & Hx). apply in_app_or in Hv as [Hv|[<-|Hv]].
      * left. exists v. split; [apply in_or_app; now left|exact Hx].
      * destruct (Z_le_gt_dec X (2 * s)) as [D|D]; [left; exists (piece1 k w s); split; [apply in_or_app; right; now left|lia]|right; lia].
      * left. exists v. split; [apply in_or_app; right; now right|exact Hx].
Qed.

(* the split at vias never happens *)
Lemma split_at_id k x y ws0 : Forall (good k) ws0 -> snd k = (if snd (fst k) then y else x) -> split_at lw (snd (fst k)) x y ws0 = (ws0, []).
Proof.
  intros F E. induction F as [|w r Gw F IH]; cbn [split_at]; [reflexivity|].
  pose proof (good_wb k w Gw) as Wb. destruct Gw as (_ & _ & We). rewrite Wb, We. unfold tpt in *. destruct (snd (fst k)); cbn [px py negb andb orb]; rewrite E; rewrite Z.ltb_irrefl; cbn; rewrite IH; reflexivity.
Qed.
Lemma key_eqb_eq a c : key_eqb a c = true <-> a = c.
Proof.
  destruct a as [[l1 h1] t1], c as [[l2 h2] t2]. unfold key_eqb. rewrite !andb_true_iff, Bool.eqb_true_iff, !Z.eqb_eq. split; [intros [[-> ->] ->]; reflexivity|intros H; injection H as -> -> ->; auto].
Qed.
Definition shaped (m : tracks) : Prop := Forall (fun kt : tkey * list wire => Forall (good (fst kt)) (snd kt)) m.
Lemma helper_id l h tr x y m : shaped m -> tr = (if h : bool then y else x) -> splitVia_helper lw l h tr x y m = m.
Proof.
  intros S E. unfold splitVia_helper. rewrite <- (map_id m) at 2. apply map_ext_in. intros [k ws0] Hi. cbn [fst snd]. destruct (key_eqb k (l, h, tr)) eqn:K; [|reflexivity].
  apply key_eqb_eq in K. subst k. unfold shaped in S. rewrite Forall_forall in S. specialize (S _ Hi). cbn [fst snd] in S.
  pose proof (split_at_id (l, h, tr) x y ws0 S E) as Q. cbn [fst snd] in Q. rewrite Q. rewrite app_nil_r. reflexivity.
Qed.
Lemma split_via_id m k : shaped m -> split_via lw m k = m.
Proof. intros S. destruct k as [[x y] cut]. unfold split_via. rewrite (helper_id (cut - 1) true y x y m S eq_refl), (helper_id (cut - 1) false x x y m S eq_refl), !(helper_id (cut + 1) false x x y m S eq_refl). reflexivity. Qed.
Lemma split_vias_id ks m : shaped m -> fold_left (split_via lw) ks m = m.
Proof. intros S. induction ks as [|k r IH]; cbn [fold_left]; [reflexivity|]. rewrite split_via_id; assumption. Qed.

(* crossings *)
Lemma cross_pair_ok l t1 t2 a c a' na c' nc : good (l, false, t1) a -> good (l, true, t2) c -> cross_pair lw a c = Some (a', na, (c', nc)) ->
  (a' = a /\ na = [] \/ exists s, w_lo a < s < w_hi a /\ a' = piece1 (l, false, t1) a s /\ na = [piece2 (l, false, t1) a s]) /\
  (c' = c /\ nc = [] \/ exists s, w_lo c < s < w_hi c /\ c' = piece1 (l, true, t2) c s /\ nc = [piece2 (l, true, t2) c s]).
Proof.
  intros Ga Gc. pose proof (good_wb _ _ Ga) as Wa. pose proof (good_wb _ _ Gc) as Wc. destruct Ga as (_ & _ & Ea), Gc as (_ & _ & Ec). cbn [fst snd tpt] in *.
  unfold cross_pair. rewrite Wa, Wc, Ea, Ec. cbn [px py].
  destruct ((t2 >? w_lo a) && (t2 <? w_hi a)) eqn:S1; destruct ((t1 >? w_lo c) && (t1 <? w_hi c)) eqn:S2; cbn [orb]; intros H; try discriminate H; injection H as <- <- <- <-.
  - split; right; [exists t2|exists t1]; (split; [lia|]); unfold piece1, piece2; cbn [fst snd tpt]; rewrite ?Wa, ?Wc, ?Ea, ?Ec; auto.
  - split; [right; exists t2; split; [lia|]; unfold piece1, piece2; cbn [fst snd tpt]; rewrite ?Wa, ?Ea; auto|left; auto].
  - split; [left; auto|right; exists t1; split; [lia|]; unfold piece1, piece2; cbn [fst snd tpt]; rewrite ?Wc, ?Ec; auto].
Qed.
Definition at1 (k : tkey) (w w' : wire) (n : list wire) : Prop := w' = w /\ n = [] \/ exists s, w_lo w < s < w_hi w /\ w' = piece1 k w s /\ n = [piece2 k w s].
Lemma cross_one_ok l t1 t2 a : good (l, false, t1) a -> forall hs a' na h' nc, Forall (good (l, true, t2)) hs -> cross_one lw a hs = Some (a', na, (h', nc)) ->
  at1 (l, false, t1) a a' na /\ resplit (l, true, t2) hs (h' ++ nc).
Proof.
  intros Ga hs. induction hs as [|c r IH]; cbn [cross_one]; intros a' na h' nc F H; [discriminate H|]. inversion_clear F as [|? ? Gc Fr].
  destruct (cross_pair lw a c) as [[[a1 na1] [c1 nc1]]|] eqn:P.
  - injection H as <- <- <- <-. destruct (cross_pair_ok l t1 t2 a c a1 na1 c1 nc1 Ga Gc P) as [Q1 [(-> & ->)|(s & Ls & -> & ->)]]; (split; [exact Q1|]).
    + left. rewrite app_nil_r. reflexivity.
    + right. exists [], c, r, s. auto.
  - destruct (cross_one lw a r) as [[[a1 na1] [r1 nc1]]|]; [|discriminate H]. injection H as <- <- <- <-. destruct (IH a1 na1 r1 nc1 Fr eq_refl) as [Q1 Q2]. split; [exact Q1|].
    destruct Q2 as [E|(p & w & q & s & -> & Ls & E)]; [left; cbn; rewrite E; reflexivity|]. right. exists (c :: p), w, q, s. cbn. rewrite E. auto.
Qed.
Lemma cross_ok l t1 t2 hs : Forall (good (l, true, t2)) hs -> forall vs a na h, Forall (good (l, false, t1)) vs -> cross lw vs hs = Some (a, na, h) ->
  resplit (l, false, t1) vs (a ++ na) /\ resplit (l, true, t2) hs h.
Proof.
  intros Fh vs. induction vs as [|v r IH]; cbn [cross]; intros a na h F H; [discriminate H|]. inversion_clear F as [|? ? Gv Fr].
  destruct (cross_one lw v hs) as [[[a1 na1] [h1 nc1]]|] eqn:P.
  - injection H as <- <- <-. destruct (cross_one_ok l t1 t2 v Gv hs a1 na1 h1 nc1 Fh P) as [Q1 Q2]. split; [|exact Q2].
    destruct Q1 as [(-> & ->)|(s & Ls & -> & ->)]; [left; rewrite app_nil_r; reflexivity|right; exists [], v, r, s; auto].
  - destruct (cross lw r hs) as [[[r1 na1] h1]|]; [|discriminate H]. injection H as <- <- <-. destruct (IH r1 na1 h1 Fr eq_refl) as [Q1 Q2]. split; [|exact Q2].
    destruct Q1 as [E|(p & w & q & s & -> & Ls & E)]; [left; cbn; rewrite E; reflexivity|]. right. exists (v :: p), w, q, s. cbn. rewrite E. auto.
Qed.

Definition rel (m m' : tracks) : Prop := Forall2 (fun kt kt' : tkey * list wire => fst kt' = fst kt /\ resplit (fst kt) (snd kt) (snd kt')) m m'.
Definition TI (m : tracks) : Prop := NoDup (map fst m) /\ Forall (fun kt : tkey * list wire => Forall (ok (fst kt)) (snd kt) /\ ForallOrdPairs apart (snd kt)) m.
Definition cov (m : tracks) (k : tkey) (X : Z) : Prop := exists ws0, In (k, ws0) m /\ covered ws0 X.
Lemma rel_TI m m' : rel m m' -> TI m -> TI m' /\ (forall k X, cov m' k X <-> cov m k X).
Proof.
  intros R [N F]. assert (Ek : map fst m' = map fst m) by (clear - R; induction R as [|? ? ? ? [E _] _ IH]; cbn; congruence).
  split; [split; [rewrite Ek; exact N|]|].
  - clear - He R F. induction R as [|[k A] [k' B] m m' [E Q] R IH]; [constructor|]. inversion_clear F as [|? ? [F1 F2] Fr]. cbn [fst snd] in *. subst k'.
    destruct (resplit_ok k A B Q F1) as (G1 & G2 & _). constructor; [cbn; auto|auto].
  - intros k X. unfold cov. clear - He R F. induction R as [|[k0 A] [k' B] m m' [E Q] R IH]; [intuition|]. inversion_clear F as [|? ? [F1 F2] Fr]. cbn [fst snd] in *. subst k'.
    destruct (resplit_ok k0 A B Q F1) as (_ & _ & G3). specialize (IH Fr). split; intros (ws0 & [H|H] & C).
    + injection H as <- <-. exists A. split; [now left|apply G3, C].
    + destruct (proj1 IH (ex_intro _ ws0 (conj H C))) as (w1 & H1 & C1). exists w1. split; [now right|exact C1].
    + injection H as <- <-. exists B. split; [now left|apply G3, C].
    + destruct (proj2 IH (ex_intro _ ws0 (conj H C))) as (w1 & H1 & C1). exists w1. split; [now right|exact C1].
Qed.
Lemma tk_get_none m k : ~ In k (map fst m) -> tk_get m k = [].
Proof.
  induction m as [|[k1 A] r IH]; cbn; intros H; [reflexivity|]. destruct (key_eqb k1 k) eqn:E; [apply key_eqb_eq in E; exfalso; apply H; now left|]. cbn. apply IH. tauto.
Qed.
Lemma tk_get_in m k A : NoDup (map fst m) -> In (k, A) m -> tk_get m k = A.
Proof.
  induction m as [|[k1 B] r IH]; cbn; intros N H; [destruct H|]. inversion_clear N as [|? ? N1 N2]. destruct H as [H|H].
  - injection H as -> ->. replace (key_eqb k k) with true by (symmetry; apply key_eqb_eq; reflexivity). fold (tk_get r k). rewrite tk_get_none by exact N1. apply app_nil_r.
  - destruct (key_eqb k1 k) eqn:E; [apply key_eqb_eq in E; subst k1; exfalso; apply N1; apply in_map_iff; exists (k, A); auto|]. cbn. apply IH; assumption.
Qed.
Lemma tk_set_rel m k v : NoDup (map fst m) -> resplit k (tk_get m k) v -> rel m (tk_set k v m).
Proof.
  intros N R. unfold rel, tk_set. assert (H : forall kt, In kt m -> key_eqb (fst kt) k = true -> fst kt = k /\ resplit k (snd kt) v).
  { intros [k1 A] Hi E. cbn in *. apply key_eqb_eq in E. subst k1. split; [reflexivity|]. rewrite (tk_get_in m k A N Hi) in R. exact R. }
  clear N R. induction m as [|[k1 A] r IH]; cbn; constructor.
  - destruct (key_eqb k1 k) eqn:E; cbn; [|split; [reflexivity|now left]]. destruct (H (k1, A) (or_introl eq_refl) E) as [Q1 Q2]. cbn in *. subst k1. auto.
  - apply IH. intros kt Hi. apply H. now right.
Qed.
Lemma rel_refl m : rel m m.
Proof. induction m as [|a r IH]; constructor; [split; [reflexivity|now left]|exact IH]. Qed.
Lemma tk_get_set m k k' v : k' <> k -> tk_get (tk_set k v m) k' = tk_get m k'.
Proof.
  intros Ne. induction m as [|[k1 A] r IH]; cbn; [reflexivity|]. fold (tk_set k v r). destruct (key_eqb k1 k) eqn:E; cbn [fst snd tk_get flat_map].
  - apply key_eqb_eq in E. subst k1. destruct (key_eqb k k') eqn:E2; [apply key_eqb_eq in E2; congruence|]. cbn. apply IH.
  - f_equal. apply IH.
Qed.
Lemma TI_get m k : TI m -> Forall (good k) (tk_get m k).
Proof.
  intros [N F]. destruct (in_dec (fun a c => match Bool.bool_dec (key_eqb a c) true with left E => left (proj1 (key_eqb_eq a c) E) | right E => right (fun Q => E (proj2 (key_eqb_eq a c) Q)) end) k (map fst m)) as [H|H].
  - apply in_map_iff in H as ([k1 A] & <- & Hi). cbn. rewrite (tk_get_in m k1 A N Hi). rewrite Forall_forall in F. destruct (F _ Hi) as [F1 _]. cbn in F1. eapply Forall_impl; [|exact F1]. intros w Hw. apply Hw.
  - rewrite tk_get_none by exact H. constructor.
Qed.
Lemma cross_tracks_rel m vh : TI m -> (exists l t1 t2, vh = ((l, false, t1), (l, true, t2))) -> exists m1, rel m m1 /\ TI m1 /\ rel m1 (cross_tracks lw m vh).
Proof.
  intros T (l & t1 & t2 & ->). unfold cross_tracks. cbn [fst snd]. destruct (cross lw _ _) as [[[a na] h]|] eqn:E; [|exists m; split; [apply rel_refl|split; [exact T|apply rel_refl]]].
  destruct (cross_ok l t1 t2 _ (TI_get m (l, true, t2) T) _ a na h (TI_get m (l, false, t1) T) E) as [Q1 Q2].
  assert (R1 : rel m (tk_set (l, false, t1) (a ++ na) m)) by (apply tk_set_rel; [apply T|exact Q1]). destruct (rel_TI _ _ R1 T) as [T1 _].
  eexists. split; [exact R1|]. split; [exact T1|]. apply tk_set_rel; [apply T1|]. rewrite tk_get_set by discriminate. exact Q2.
Qed.
Lemma crossings_ok m : TI m -> TI (split_crossings lw m) /\ forall k X, cov (split_crossings lw m) k X <-> cov m k X.
Proof.
  intros T. unfold split_crossings.
  assert (P : forall vh, In vh (pairs_of (map fst m)) -> exists l t1 t2, vh = ((l, false, t1), (l, true, t2))).
  { intros vh H. unfold pairs_of in H. apply in_flat_map in H as ([[l1 h1] t1] & _ & H). apply in_flat_map in H as ([[l2 h2] t2] & _ & H).
    destruct (Z.eqb_spec l1 l2); [|destruct H]. destruct h1; [destruct H|]. destruct h2; [|destruct H]. destruct H as [<-|[]]. subst. eauto. }
  revert P. generalize (pairs_of (map fst m)) as ps. intros ps. revert m T.
  induction ps as [|vh r IH]; cbn [fold_left]; intros m T P; [intuition|].
  destruct (cross_tracks_rel m vh T (P vh (or_introl eq_refl))) as (m1 & R1 & T1 & R2). destruct (rel_TI _ _ R1 T) as [_ C1]. destruct (rel_TI _ _ R2 T1) as [T2 C2].
  destruct (IH _ T2 (fun vh H => P vh (or_intror H))) as [T3 C3]. split; [exact T3|]. intros k X. rewrite C3, C2, C1. reflexivity.
Qed.
End R.
