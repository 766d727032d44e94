(* Merging the wires of one track. *)
From Verif Require Import Base GeomModel ClipModel ClipSpec TwModel.
From Coq Require Import Sorted.

Section Keys.
Context {A : Type}.
Variable ltb : A -> A -> bool.
Hypothesis irr : forall a, ltb a a = false.
Hypothesis tr : forall a b c, ltb a b = true -> ltb b c = true -> ltb a c = true.
Hypothesis tot : forall a b, ltb a b = false -> ltb b a = false -> a = b.
Definition ltP (a b : A) : Prop := ltb a b = true.
Lemma kins_in a l x : In x (kins ltb a l) <-> x = a \/ In x l.
Proof.
  induction l as [|c r IH]; cbn [kins]; [cbn; intuition|]. destruct (ltb a c) eqn:E1; [cbn; intuition|]. destruct (ltb c a) eqn:E2.
  - cbn [In]. rewrite IH. intuition.
  - assert (a = c) as -> by auto. cbn. intuition.
Qed.
Lemma kins_sorted a l : StronglySorted ltP l -> StronglySorted ltP (kins ltb a l).
Proof.
  induction 1 as [|c r S IH F]; cbn [kins]; [repeat constructor|]. destruct (ltb a c) eqn:E1.
  - constructor; [constructor; assumption|]. constructor; [exact E1|]. eapply Forall_impl; [|exact F]. intros x Hx. eapply tr; eassumption.
  - destruct (ltb c a) eqn:E2; [|constructor; assumption]. constructor; [exact IH|]. apply Forall_forall. intros x Hx. apply kins_in in Hx as [->|Hx]; [exact E2|]. rewrite Forall_forall in F. auto.
Qed.
Lemma kset_fold l : forall s x, In x (fold_left (fun s a => kins ltb a s) l s) <-> In x l \/ In x s.
Proof. induction l as [|a r IH]; cbn; intros s x; [intuition|]. rewrite IH, kins_in. intuition. Qed.
Lemma kset_in l x : In x (kset ltb l) <-> In x l.
Proof. unfold kset. rewrite kset_fold. cbn. intuition. Qed.
Lemma kset_sorted l : StronglySorted ltP (kset ltb l).
Proof.
  unfold kset. assert (H : StronglySorted ltP []) by constructor. revert H. generalize (@nil A).
  induction l as [|a r IH]; cbn; intros s H; [exact H|]. apply IH, kins_sorted, H.
Qed.
Lemma sorted_nodup l : StronglySorted ltP l -> NoDup l.
Proof.
  induction 1 as [|c r S IH F]; constructor; [|exact IH]. intros H. rewrite Forall_forall in F. specialize (F c H). unfold ltP in F. rewrite irr in F. discriminate.
Qed.
Lemma kset_nodup l : NoDup (kset ltb l).
Proof. apply sorted_nodup, kset_sorted. Qed.
End Keys.

(* the point at [a] on the track *)
Definition tpt (h : bool) (t a : Z) : point := if h then mkPt a t else mkPt t a.
Definition good (k : tkey) (w : wire) : Prop := w_key w = k /\ w_lo w < w_hi w /\ we w = tpt (snd (fst k)) (snd k) (w_hi w).
Lemma good_wb k w : good k w -> wb w = tpt (snd (fst k)) (snd k) (w_lo w).
Proof. intros (<- & _ & _). unfold w_key, w_lo, w_track, tpt. cbn. destruct (is_h w); destruct (wb w); reflexivity. Qed.
Lemma proper_good w : proper w <-> good (w_key w) w.
Proof.
  unfold proper, good, w_key, w_lo, w_hi, w_track, is_h, tpt. cbn [fst snd]. destruct w as [l [bx by0] [ex ey] s]. cbn [wl wb we ws px py].
  destruct (Z.eqb_spec bx ex); cbn [negb]; split.
  - intros H. split; [reflexivity|]. split; [lia|]. f_equal. lia.
  - intros (_ & H & E). injection E as E. left. lia.
  - intros H. split; [reflexivity|]. split; [lia|]. f_equal. lia.
  - intros (_ & H & E). injection E as E. right. lia.
Qed.
Lemma good_mk l h t lo hi s : lo < hi -> good (l, h, t) (mkW l (tpt h t lo) (tpt h t hi) s) /\
  w_lo (mkW l (tpt h t lo) (tpt h t hi) s) = lo /\ w_hi (mkW l (tpt h t lo) (tpt h t hi) s) = hi.
Proof.
  intros L. unfold good, w_key, w_lo, w_hi, w_track, is_h, tpt. cbn [wl wb we fst snd]. destruct h; cbn [px py].
  - replace (lo =? hi) with false by lia. cbn. auto.
  - rewrite Z.eqb_refl. cbn. auto.
Qed.

Section Sweep.
Variable k : tkey.
Variable G : list wire.
Hypothesis Gk : Forall (good k) G.
Let l := fst (fst k). Let h := snd (fst k). Let t := snd k.
Definition ind (b : bool) : Z := if b then 1 else 0.
Definition op (c : Z) (w : wire) : Z := ind (w_lo w <=? c) - ind (w_hi w <=? c).
Fixpoint zsum {A} (f : A -> Z) (l : list A) : Z := match l with [] => 0 | a :: r => f a + zsum f r end.
Definition covered (l : list wire) (X : Z) : Prop := exists w, In w l /\ 2 * w_lo w <= X <= 2 * w_hi w.

Lemma cnt_events c n : fold_left (fun n e => if snd e : bool then n + 1 else n - 1) (events G c) n = n + zsum (fun w => ind (w_lo w =? c) - ind (w_hi w =? c)) G.
Proof.
  revert n. clear Gk. induction G as [|w r IH]; intros n; cbn [events flat_map zsum]; [cbn; lia|]. fold (events r c). rewrite !fold_left_app, IH.
  unfold ind. destruct (w_lo w =? c), (w_hi w =? c); cbn [fold_left snd app]; lia.
Qed.
Lemma zsum_ext {A} (f g : A -> Z) (m : list A) : (forall a, In a m -> f a = g a) -> zsum f m = zsum g m.
Proof. induction m as [|a r IH]; cbn; intros H; [reflexivity|]. rewrite H, IH; auto. Qed.
Lemma zsum_add {A} (f g : A -> Z) (m : list A) : zsum f m + zsum g m = zsum (fun a => f a + g a) m.
Proof. induction m as [|a r IH]; cbn; lia. Qed.
Lemma op_nonneg c w : In w G -> 0 <= op c w.
Proof. intros H. rewrite Forall_forall in Gk. destruct (Gk w H) as (_ & L & _). unfold op, ind. destruct (Z.leb_spec (w_lo w) c), (Z.leb_spec (w_hi w) c); lia. Qed.
Lemma zsum_pos {A} (f : A -> Z) (m : list A) : (forall a, In a m -> 0 <= f a) -> 0 <= zsum f m /\ (0 < zsum f m <-> exists a, In a m /\ 0 < f a).
Proof.
  induction m as [|a r IH]; cbn; intros H; [split; [lia|]; split; [lia|intros (a & [] & _)]|].
  destruct IH as [I1 I2]; [auto|]. specialize (H a (or_introl eq_refl)) as Ha. split; [lia|]. split.
  - intros P. destruct (Z.eq_dec (f a) 0) as [E|E]; [destruct (proj1 I2 ltac:(lia)) as (b & Hb & Pb); eauto|exists a; split; [now left|lia]].
  - intros (b & [<-|Hb] & Pb); [lia|]. assert (0 < zsum f r) by (apply I2; eauto). lia.
Qed.
Lemma opens c : 0 <= zsum (op c) G /\ (0 < zsum (op c) G <-> exists w, In w G /\ w_lo w <= c < w_hi w).
Proof.
  destruct (zsum_pos (op c) G (op_nonneg c)) as [P Q]. split; [exact P|]. rewrite Q. unfold op, ind.
  split; intros (w & Hw & H); exists w; (split; [exact Hw|]); rewrite Forall_forall in Gk; destruct (Gk w Hw) as (_ & L & _);
    destruct (Z.leb_spec (w_lo w) c), (Z.leb_spec (w_hi w) c); lia.
Qed.
Lemma in_events c w isb : In (w, isb) (events G c) <-> In w G /\ (if isb : bool then w_lo w = c else w_hi w = c).
Proof.
  unfold events. rewrite in_flat_map. split.
  - intros (v & Hv & H). apply in_app_or in H as [H|H].
    + destruct (Z.eqb_spec (w_lo v) c); [|destruct H]. destruct H as [H|[]]. injection H as <- <-. auto.
    + destruct (Z.eqb_spec (w_hi v) c); [|destruct H]. destruct H as [H|[]]. injection H as <- <-. auto.
  - intros (Hw & H). exists w. split; [exact Hw|]. apply in_or_app. destruct isb; [left|right]; rewrite H, Z.eqb_refl; now left.
Qed.

(* [e]: the common extension, if there is one *)
Variable e : option Z.
Definition bst (s : sstyle) : Prop := match e with None => True | Some e => bExt s = e /\ (bSty s = StExtend \/ bSty s = StTruncate /\ e = 0) end.
Definition est (s : sstyle) : Prop := match e with None => True | Some e => eExt s = e /\ (eSty s = StExtend \/ eSty s = StTruncate /\ e = 0) end.
Hypothesis Ge : match e with None => True | Some e => 0 <= e /\ Forall (fun w => bSty (ws w) = StExtend /\ bExt (ws w) = e /\ eSty (ws w) = StExtend /\ eExt (ws w) = e) G end.
Lemma begin_keep evs : (forall w b, In (w, b) evs -> In w G) -> forall s, bst s -> bst (fold_left max_begin evs s).
Proof.
  unfold bst. destruct e as [e0|]; [|auto]. destruct Ge as [E0 F]. rewrite Forall_forall in F. induction evs as [|[w b] r IH]; cbn [fold_left]; intros I s S; [exact S|].
  apply IH; [intros; eapply I; right; eassumption|]. destruct (F w (I w b (or_introl eq_refl))) as (F1 & F2 & _). unfold max_begin. rewrite F2. destruct b; cbn [andb]; [|exact S].
  replace (e0 >? bExt s) with false by lia. exact S.
Qed.
Lemma begin_style evs : (forall w b, In (w, b) evs -> In w G) -> (exists w, In (w, true) evs) ->
  forall s, bExt s = 0 -> bSty s = StTruncate -> bst (fold_left max_begin evs s).
Proof.
  induction evs as [|[w b] r IH]; cbn [fold_left]; intros I (v & Hv) s S1 S2; [destruct Hv|].
  assert (I' : forall w b, In (w, b) r -> In w G) by (intros; eapply I; right; eassumption). destruct b.
  - apply begin_keep; [exact I'|]. unfold bst, max_begin. destruct e as [e0|]; [|exact Logic.I]. destruct Ge as [E0 F]. rewrite Forall_forall in F.
    destruct (F w (I w true (or_introl eq_refl))) as (F1 & F2 & _). cbn [andb]. rewrite F2, S1. destruct (e0 >? 0) eqn:Eg; cbn; [auto|]. split; [lia|]. right. split; [exact S2|lia].
  - apply IH; [exact I'| |unfold max_begin; cbn [andb]; exact S1|unfold max_begin; cbn [andb]; exact S2]. destruct Hv as [Hv|Hv]; [discriminate Hv|eauto].
Qed.
Lemma end_keep evs : (forall w b, In (w, b) evs -> In w G) -> forall s, est s -> est (fold_left max_end evs s).
Proof.
  unfold est. destruct e as [e0|]; [|auto]. destruct Ge as [E0 F]. rewrite Forall_forall in F. induction evs as [|[w b] r IH]; cbn [fold_left]; intros I s S; [exact S|].
  apply IH; [intros; eapply I; right; eassumption|]. destruct (F w (I w b (or_introl eq_refl))) as (_ & _ & F1 & F2). unfold max_end. rewrite F2. destruct b; cbn [andb negb]; [exact S|].
  replace (e0 >? eExt s) with false by lia. exact S.
Qed.
Lemma end_style evs : (forall w b, In (w, b) evs -> In w G) -> (exists w, In (w, false) evs) ->
  forall s, eExt s = 0 -> eSty s = StTruncate -> est (fold_left max_end evs s).
Proof.
  induction evs as [|[w b] r IH]; cbn [fold_left]; intros I (v & Hv) s S1 S2; [destruct Hv|].
  assert (I' : forall w b, In (w, b) r -> In w G) by (intros; eapply I; right; eassumption). destruct b.
  - apply IH; [exact I'| |unfold max_end; cbn [andb negb]; exact S1|unfold max_end; cbn [andb negb]; exact S2]. destruct Hv as [Hv|Hv]; [discriminate Hv|eauto].
  - apply end_keep; [exact I'|]. unfold est, max_end. destruct e as [e0|]; [|exact Logic.I]. destruct Ge as [E0 F]. rewrite Forall_forall in F.
    destruct (F w (I w false (or_introl eq_refl))) as (_ & _ & F1 & F2). cbn [andb negb]. rewrite F2, S1. destruct (e0 >? 0) eqn:Eg; cbn; [auto|]. split; [lia|]. right. split; [exact S2|lia].
Qed.
Lemma end_other evs : forall s, bst s -> bst (fold_left max_end evs s).
Proof. induction evs as [|[w b] r IH]; cbn [fold_left]; intros s S; [exact S|]. apply IH. unfold max_end. destruct (negb b && _); exact S. Qed.
Lemma begin_other evs : forall s, eExt (fold_left max_begin evs s) = eExt s /\ eSty (fold_left max_begin evs s) = eSty s.
Proof. induction evs as [|[w b] r IH]; cbn [fold_left]; intros s; [auto|]. destruct (IH (max_begin s (w, b))) as [-> ->]. unfold max_begin. destruct (b && _); auto. Qed.
Lemma last_end_pt evs c : (forall w b, In (w, b) evs -> In w G /\ (if b : bool then w_lo w = c else w_hi w = c)) -> (exists w, In (w, false) evs) ->
  forall p, fold_left last_end evs p = tpt h t c.
Proof.
  intros I (v & Hv).
  assert (K : forall evs, (forall w b, In (w, b) evs -> In w G /\ (if b : bool then w_lo w = c else w_hi w = c)) -> fold_left last_end evs (tpt h t c) = tpt h t c).
  { clear I Hv evs. induction evs as [|[w b] r IH]; cbn [fold_left]; intros I; [reflexivity|]. unfold last_end at 2. destruct b; [apply IH; intros; eapply I; right; eassumption|].
    destruct (I w false (or_introl eq_refl)) as [Hw E]. rewrite Forall_forall in Gk. destruct (Gk w Hw) as (_ & _ & ->). rewrite E. apply IH. intros; eapply I; right; eassumption. }
  induction evs as [|[w b] r IH]; cbn [fold_left]; intros p; [destruct Hv|]. unfold last_end at 2. destruct b.
  - apply IH; [intros; apply I; right; assumption|]. destruct Hv as [Hv|Hv]; [discriminate Hv|exact Hv].
  - destruct (I w false (or_introl eq_refl)) as [Hw E]. rewrite Forall_forall in Gk. destruct (Gk w Hw) as (_ & _ & ->). rewrite E. apply K. intros; apply I; right; assumption.
Qed.

Definition out_ok (o : wire) : Prop := good k o /\ bst (ws o) /\ est (ws o).
Definition inv (c : Z) (st : mstate) : Prop :=
  m_cnt st = zsum (op c) G /\ Forall out_ok (m_out st) /\ ForallOrdPairs (fun u v => w_hi u < w_lo v) (m_out st) /\ Forall (fun o => w_hi o <= c) (m_out st) /\
  match m_cur st with
  | None => m_cnt st = 0 /\ forall X, X <= 2 * c -> (covered G X <-> covered (m_out st) X)
  | Some w => 0 < m_cnt st /\ bst (ws w) /\ eExt (ws w) = 0 /\ eSty (ws w) = StTruncate /\ wl w = l /\
      exists a, wb w = tpt h t a /\ a <= c /\ Forall (fun o => w_hi o < a) (m_out st) /\
        forall X, X <= 2 * c -> (covered G X <-> covered (m_out st) X \/ 2 * a <= X)
  end.
Lemma fop_snoc {A} (R : A -> A -> Prop) m x : ForallOrdPairs R m -> Forall (fun y => R y x) m -> ForallOrdPairs R (m ++ [x]).
Proof.
  induction 1 as [|a r F P IH]; cbn; intros Q; [repeat constructor|]. inversion_clear Q. constructor; [apply Forall_app; split; [assumption|repeat constructor; assumption]|auto].
Qed.
Lemma covered_snoc m o X : covered (m ++ [o]) X <-> covered m X \/ 2 * w_lo o <= X <= 2 * w_hi o.
Proof.
  unfold covered. split.
  - intros (w & Hw & H). apply in_app_or in Hw as [Hw|[<-|[]]]; [left; eauto|now right].
  - intros [(w & Hw & H)|H]; [exists w; split; [apply in_or_app; now left|exact H]|exists o; split; [apply in_or_app; right; now left|exact H]].
Qed.
Lemma step_inv c0 c st : c0 < c -> (exists w, In w G /\ (w_lo w = c \/ w_hi w = c)) ->
  (forall w, In w G -> (w_lo w <= c0 \/ c <= w_lo w) /\ (w_hi w <= c0 \/ c <= w_hi w)) -> inv c0 st -> inv c (merge_step G st c).
Proof.
  intros Lc Hc Gap (N & OK & SP & HI & C).
  assert (Gl : forall w, In w G -> w_lo w < w_hi w) by (intros w Hw; rewrite Forall_forall in Gk; apply (Gk w Hw)).
  assert (N' : fold_left (fun n e => if snd e : bool then n + 1 else n - 1) (events G c) (m_cnt st) = zsum (op c) G).
  { rewrite cnt_events, N, zsum_add. apply zsum_ext. intros w Hw. specialize (Gap w Hw). specialize (Gl w Hw). unfold op, ind.
    destruct (Z.leb_spec (w_lo w) c), (Z.leb_spec (w_hi w) c), (Z.leb_spec (w_lo w) c0), (Z.leb_spec (w_hi w) c0), (Z.eqb_spec (w_lo w) c), (Z.eqb_spec (w_hi w) c); lia. }
  destruct (opens c0) as [O1 O2]. destruct (opens c) as [P1 P2].
  assert (Ev : forall w b, In (w, b) (events G c) -> In w G /\ (if b : bool then w_lo w = c else w_hi w = c)) by (intros w b; apply in_events).
  assert (Ne : events G c <> []).
  { destruct Hc as (w & Hw & [E|E]); [assert (X : In (w, true) (events G c)) by (apply in_events; auto)|assert (X : In (w, false) (events G c)) by (apply in_events; auto)]; intros Q; rewrite Q in X; destruct X. }
  assert (Cc : covered G (2 * c)).
  { destruct Hc as (w & Hw & E). exists w. split; [exact Hw|]. specialize (Gl w Hw). lia. }
  unfold merge_step. cbv zeta. rewrite N'. destruct (m_cur st) as [w|].
  - destruct C as (Cp & Cb & C1 & C2 & Cl & a & Wb & La & Fa & Cv). destruct O2 as [O2 _]. destruct (O2 ltac:(lia)) as (w1 & Hw1 & Hl1). clear O2.
    assert (Cv' : forall X, X <= 2 * c -> (covered G X <-> covered (m_out st) X \/ 2 * a <= X)).
    { intros X HX. destruct (Z_le_gt_dec X (2 * c0)) as [D|D]; [apply Cv, D|]. split; [intros _; right; lia|intros _].
      exists w1. split; [exact Hw1|]. destruct (Gap w1 Hw1). lia. }
    destruct (Z.eqb_spec (zsum (op c) G) 0) as [Z0|Z0].
    + assert (Hend : exists v, In (v, false) (events G c)).
      { exists w1. apply in_events. split; [exact Hw1|]. destruct (Gap w1 Hw1) as [_ [D|D]]; [lia|]. destruct (Z.eq_dec (w_hi w1) c) as [E|E]; [exact E|].
        assert (0 < zsum (op c) G) by (apply P2; exists w1; split; [exact Hw1|lia]). lia. }
      rewrite (last_end_pt _ c Ev Hend), Wb, Cl.
      pose proof (good_mk l h t a c (fold_left max_end (events G c) (ws w)) ltac:(lia)) as (Gm & Glo & Ghi). set (o := mkW l (tpt h t a) (tpt h t c) (fold_left max_end (events G c) (ws w))) in *.
      assert (Ko : (l, h, t) = k) by (unfold l, h, t; destruct k as [[? ?] ?]; reflexivity). rewrite Ko in Gm.
      unfold inv. cbn [m_cnt m_out m_cur]. split; [reflexivity|]. split; [|split; [|split; [|split; [exact Z0|]]]].
      * apply Forall_app. split; [exact OK|]. constructor; [|constructor]. split; [exact Gm|]. unfold o; cbn [ws]. split; [apply end_other, Cb|].
        apply end_style; try assumption. intros v b Hv. apply (Ev v b Hv).
      * apply fop_snoc; [exact SP|]. eapply Forall_impl; [|exact Fa]. intros v Hv. cbn beta in *. lia.
      * apply Forall_app. split; [eapply Forall_impl; [|exact HI]; intros v Hv; cbn beta in *; lia|]. constructor; [lia|constructor].
      * intros X HX. rewrite covered_snoc, (Cv' X HX), Glo, Ghi. split; intros [Q|Q]; auto; right; lia.
    + unfold inv. cbn [m_cnt m_out m_cur]. split; [reflexivity|]. split; [exact OK|]. split; [exact SP|]. split; [eapply Forall_impl; [|exact HI]; intros v Hv; cbn beta in *; lia|].
      split; [lia|]. split; [exact Cb|]. split; [exact C1|]. split; [exact C2|]. split; [exact Cl|]. exists a. split; [exact Wb|]. split; [lia|]. split; [exact Fa|exact Cv'].
  - destruct C as (C0 & Cv).
    assert (No : forall w, In w G -> ~ w_lo w <= c0 < w_hi w) by (intros w Hw Q; assert (0 < zsum (op c0) G) by (apply O2; eauto); lia).
    assert (Allb : forall w b, In (w, b) (events G c) -> b = true).
    { intros w b Hw. destruct b; [reflexivity|]. destruct (Ev w false Hw) as [Iw E]. exfalso. apply (No w Iw). specialize (Gl w Iw). destruct (Gap w Iw) as [[D|D] _]; lia. }
    destruct (events G c) as [|[w0 b0] r] eqn:Ee; [contradiction|]. assert (b0 = true) as -> by (apply (Allb w0 b0); now left).
    destruct (Ev w0 true (or_introl eq_refl)) as [Iw0 E0].
    assert (Pz : 0 < zsum (op c) G) by (apply P2; exists w0; split; [exact Iw0|]; specialize (Gl w0 Iw0); lia).
    replace (zsum (op c) G >? 0) with true by lia.
    unfold inv. cbn [m_cnt m_out m_cur]. split; [reflexivity|]. split; [exact OK|]. split; [exact SP|]. split; [eapply Forall_impl; [|exact HI]; intros v Hv; cbn beta in *; lia|].
    split; [lia|]. cbn [ws wl wb]. rewrite Forall_forall in Gk. pose proof (Gk w0 Iw0) as Gw0. split; [|split; [|split; [|split]]].
    + apply begin_style; [intros v b Hv; apply (Ev v b Hv)|exists w0; now left|reflexivity|reflexivity].
    + apply begin_other.
    + apply begin_other.
    + destruct Gw0 as (Kw & _). unfold l. rewrite <- Kw. reflexivity.
    + exists c. split; [rewrite (good_wb k w0 Gw0), E0; reflexivity|]. split; [lia|]. split; [eapply Forall_impl; [|exact HI]; intros v Hv; cbn beta in *; lia|].
      intros X HX. destruct (Z_le_gt_dec X (2 * c0)) as [D|D].
      * rewrite (Cv X D). split; [auto|intros [Q|Q]; [exact Q|lia]].
      * split.
        -- intros (w & Hw & Hx). destruct (Gap w Hw) as [[A1|A1] _]; [exfalso; apply (No w Hw); lia|]. right. lia.
        -- intros [(o & Ho & Hx)|Q]; [rewrite Forall_forall in HI; specialize (HI o Ho); cbn beta in HI; lia|]. assert (X = 2 * c) as -> by lia. exact Cc.
Qed.
Lemma sweep cs : forall c0 st, StronglySorted (ltP Z.ltb) cs -> Forall (fun c => c0 < c /\ exists w, In w G /\ (w_lo w = c \/ w_hi w = c)) cs ->
  (forall w, In w G -> (w_lo w <= c0 \/ In (w_lo w) cs) /\ (w_hi w <= c0 \/ In (w_hi w) cs)) -> inv c0 st ->
  exists c1, (forall w, In w G -> w_hi w <= c1) /\ inv c1 (fold_left (merge_step G) cs st).
Proof.
  induction cs as [|c r IH]; intros c0 st S F Gap I; cbn [fold_left].
  - exists c0. split; [|exact I]. intros w Hw. destruct (Gap w Hw) as [_ [D|[]]]. exact D.
  - inversion_clear S as [|? ? S' Fr]. inversion_clear F as [|? ? Fc Fr']. destruct Fc as [Lc Hc]. rewrite Forall_forall in Fr. unfold ltP in Fr.
    apply (IH c); [exact S'| | |].
    + apply Forall_forall. intros x Hx. specialize (Fr x Hx). rewrite Forall_forall in Fr'. destruct (Fr' x Hx). split; [lia|assumption].
    + intros w Hw. destruct (Gap w Hw) as [[D1|[<-|D1]] [D2|[<-|D2]]]; split; solve [left; lia | right; assumption | assumption | left; reflexivity].
    + apply (step_inv c0); [exact Lc|exact Hc| |exact I]. intros w Hw. destruct (Gap w Hw) as [D1 D2]. split.
      * destruct D1 as [D1|[<-|D1]]; [now left|right; lia|right; specialize (Fr _ D1); lia].
      * destruct D2 as [D2|[<-|D2]]; [now left|right; lia|right; specialize (Fr _ D2); lia].
Qed.
Lemma below (cs : list Z) : exists c0, Forall (fun c => c0 < c) cs.
Proof. induction cs as [|c r (c0 & IH)]; [exists 0; constructor|]. exists (Z.min c0 (c - 1)). constructor; [lia|]. eapply Forall_impl; [|exact IH]. intros x Hx. cbn beta in *. lia. Qed.
Lemma merge_track_ok : Forall out_ok (merge_track G) /\ ForallOrdPairs (fun u v => w_hi u < w_lo v) (merge_track G) /\ forall X, covered (merge_track G) X <-> covered G X.
Proof.
  unfold merge_track. set (cs := kset Z.ltb (flat_map (fun w => [w_lo w; w_hi w]) G)).
  assert (Tz : forall a b, (a <? b) = false -> (b <? a) = false -> a = b) by (intros; lia).
  assert (Ic : forall c, In c cs <-> exists w, In w G /\ (w_lo w = c \/ w_hi w = c)).
  { intros c. unfold cs. rewrite (kset_in _ Tz), in_flat_map. split; intros (w & Hw & H); exists w; (split; [exact Hw|]); cbn in *; intuition. }
  destruct (below cs) as [c0 B]. destruct (sweep cs c0 (mkMS None 0 [])) as (c1 & H1 & I).
  - apply kset_sorted; [intros a b c; rewrite !Z.ltb_lt; lia|exact Tz].
  - rewrite Forall_forall in *. intros c Hc. split; [apply B, Hc|apply Ic, Hc].
  - intros w Hw. split; right; apply Ic; eauto.
  - assert (Lo : forall w, In w G -> c0 < w_lo w /\ c0 < w_hi w).
    { intros w Hw. rewrite Forall_forall in B. split; apply B, Ic; eauto. }
    unfold inv. cbn [m_cnt m_out m_cur].
    assert (Z0 : zsum (op c0) G = 0). { destruct (opens c0) as [A1 A2]. destruct (Z.eq_dec (zsum (op c0) G) 0) as [E|E]; [exact E|]. destruct A2 as [A2 _]. destruct (A2 ltac:(lia)) as (w & Hw & Hl). specialize (Lo w Hw). lia. }
    split; [lia|]. split; [constructor|]. split; [constructor|]. split; [constructor|]. split; [reflexivity|].
    intros X HX. split; [|intros (w & [] & _)]. intros (w & Hw & Hx). specialize (Lo w Hw). lia.
  - destruct I as (N & OK & SP & HI & C). split; [exact OK|]. split; [exact SP|].
    assert (Z0 : zsum (op c1) G = 0). { destruct (opens c1) as [A1 A2]. destruct (Z.eq_dec (zsum (op c1) G) 0) as [E|E]; [exact E|]. destruct A2 as [A2 _]. destruct (A2 ltac:(lia)) as (w & Hw & Hl). specialize (H1 w Hw). lia. }
    destruct (m_cur _) as [w|]; [lia|]. destruct C as [_ C]. intros X. destruct (Z_le_gt_dec X (2 * c1)) as [D|D]; [symmetry; apply C, D|].
    rewrite Forall_forall in HI. split; intros (w & Hw & Hx); [specialize (HI w Hw); cbn beta in HI; lia|specialize (H1 w Hw); lia].
Qed.
End Sweep.
