(* The search refines the abstract transition system; traceback; the box. *)
From Verif Require Import Base GeomModel GeomSpec GridModel GridSpec GridProofs GridProofs2 MazeModel MazeSpec MazeAbs.

Lemma getNextGrid_step p d : getNextGrid p d = step p d.
Proof. destruct d; reflexivity. Qed.
Lemma getPrevGrid_step p d : getPrevGrid p d = step p (opp d).
Proof. destruct d; reflexivity. Qed.
Definition enc (d1 d2 : dir) : Z := 8 * dir_code d1 + dir_code d2.
Lemma getLastDir_enc d1 d2 : getLastDir (enc d1 d2) = d2.
Proof. destruct d1, d2; reflexivity. Qed.
Lemma shiftAdd_enc d1 d2 d : shiftAddBuffer (enc d1 d2) d = (d1, enc d2 d).
Proof. destruct d1, d2, d; reflexivity. Qed.
Lemma shiftr_enc d1 d2 : Z.shiftr (enc d1 d2) 3 = enc DUnk d1.
Proof. destruct d1, d2; reflexivity. Qed.
Lemma tail_enc p d2 d : getTailIdx p (enc d2 d) = step (step p (opp d)) (opp d2).
Proof. destruct d2, d; reflexivity. Qed.
Lemma reverse_step p d : reverse p d = (step p d, opp d).
Proof. destruct d; reflexivity. Qed.

(* the part of the grid the search does not change *)
Definition static (g h : gg) : Prop :=
  same_shape g h /\ gbits g = gbits h /\ gsrc g = gsrc h /\ gdst g = gdst h /\ gguide g = gguide h.
Lemma static_refl g : static g g.
Proof. unfold static, same_shape. auto 10. Qed.
Lemma static_set g h p d : static g h -> static g (setPrevDir h p d).
Proof. intros H. exact H. Qed.
Lemma static_idx g h p : static g h -> getIdx h p = getIdx g p.
Proof. intros [S _]. symmetry. apply getIdx_shape. assumption. Qed.
Lemma static_valid g h p : static g h -> valid h p <-> valid g p.
Proof. intros [S _]. symmetry. apply valid_shape. assumption. Qed.
Lemma static_isValid g h p : static g h -> isValid h p = isValid g p.
Proof. intros S. pose proof (static_valid g h p S). rewrite <- !isValid_iff in H. destruct (isValid h p), (isValid g p); intuition congruence. Qed.
Lemma static_edge g h p d : static g h -> hasEdge h p d = hasEdge g p d.
Proof.
  intros S. unfold hasEdge. destruct (correct p d) as [p' d']. rewrite (static_isValid g h p' S), (static_idx g h p' S).
  destruct S as (_ & -> & _). reflexivity.
Qed.
Lemma static_src g h p : static g h -> isSrc h p = isSrc g p.
Proof. intros S. unfold isSrc. rewrite (static_idx g h p S). destruct S as (_ & _ & -> & _). reflexivity. Qed.
Lemma static_dst g h p : static g h -> isDst h p = isDst g p.
Proof. intros S. unfold isDst. rewrite (static_idx g h p S). destruct S as (_ & _ & _ & -> & _). reflexivity. Qed.

(* all points of the grid *)
Definition zs (n : nat) : list Z := map Z.of_nat (seq 0 n).
Definition points (g : gg) : list midx :=
  flat_map (fun x => flat_map (fun y => map (fun z => mkMI x y z) (zs (length (gzs g)))) (zs (length (gys g)))) (zs (length (gxs g))).
Lemma zs_in n x : In x (zs n) <-> 0 <= x < Z.of_nat n.
Proof.
  unfold zs. rewrite in_map_iff. split.
  - intros (k & <- & H). apply in_seq in H. lia.
  - intros H. exists (Z.to_nat x). rewrite in_seq. lia.
Qed.
Lemma points_in g p : In p (points g) <-> valid g p.
Proof.
  unfold points, valid, on_grid, nx, ny, nz. destruct p as [x y z]. cbn [mx my mz].
  rewrite in_flat_map. split.
  - intros (a & Ha & H). apply in_flat_map in H as (b & Hb & H). apply in_map_iff in H as (c & E & Hc).
    injection E as -> -> ->. rewrite zs_in in *. auto.
  - intros (A & B & C). exists x. split; [apply zs_in; assumption|]. apply in_flat_map. exists y.
    split; [apply zs_in; assumption|]. apply in_map_iff. exists z. split; [reflexivity|apply zs_in; assumption].
Qed.
Lemma flat_map_len {A B} (f : A -> list B) l n : (forall a, length (f a) = n) -> length (flat_map f l) = (length l * n)%nat.
Proof. intros H. induction l as [|a l IH]; cbn; [reflexivity|]. rewrite app_length, H, IH. lia. Qed.
Lemma points_len g : length (points g) = (length (gxs g) * (length (gys g) * length (gzs g)))%nat.
Proof.
  unfold points.
  assert (L : forall n, length (zs n) = n) by (intros; unfold zs; rewrite map_length, seq_length; reflexivity).
  rewrite flat_map_len with (n := (length (gys g) * length (gzs g))%nat); [rewrite L; reflexivity|].
  intros x. rewrite flat_map_len with (n := length (gzs g)); [rewrite L; reflexivity|].
  intros y. rewrite map_length, L. reflexivity.
Qed.

Lemma adj_back g p d : d <> DUnk -> hasEdge g (kpred p d) d = true -> adj g p (kpred p d).
Proof.
  intros D H. exists (opp d). split; [rewrite opp_unk; assumption|]. split; [|reflexivity].
  unfold kpred in H. rewrite <- (hasEdge_sym g _ d D), step_back in H. assumption.
Qed.

Section Refine.
Variable E : Type.
Variable next_ext : gg -> entry E -> dir -> E.
Variable init_ext : gg -> midx -> E.
Variable pick : nat -> list (entry E) -> nat.
Variable g0 : gg.
Variable cc : list midx.
Hypothesis ready : search_ready g0 cc.

Notation edge := (fun p d => hasEdge g0 p d).
Notation src := (isSrc g0).
Notation dst := (isDst g0).
Lemma cc_src : forall s, In s cc -> src s = true.
Proof. intros s Hs. destruct ready as (_ & A & _). apply A. assumption. Qed.
Lemma cc_V : forall s, In s cc -> In s (points g0).
Proof. intros s Hs. destruct ready as (_ & A & _). apply points_in, A. assumption. Qed.
Lemma edge_V : forall p d, d <> DUnk -> hasEdge g0 p d = true -> In p (points g0) /\ In (step p d) (points g0).
Proof. intros p d Hd He. destruct ready as (A & _). destruct (A p d Hd He). split; apply points_in; assumption. Qed.

Definition krel (e : entry E) (k : key) : Prop := epos e = kpos k /\ ebuf e = enc (snd (fst k)) (snd k).
Definition grel (g : gg) (cm : midx -> dir) : Prop :=
  static g0 g /\ forall p, valid g0 p -> getPrevDir g p = cm p.

Lemma expandable_ok g cm e v d1 d2 d : grel g cm -> krel e (v, d1, d2) -> d <> DUnk ->
  isExpandable E g e d = ok_cand edge src cm v d2 d.
Proof.
  intros [S G] [K1 K2] D. cbn [kpos fst snd] in K1, K2. unfold isExpandable, ok_cand. rewrite reverse_step, K1, K2, getLastDir_enc.
  rewrite (static_edge _ _ _ _ S), (static_src _ _ _ S).
  destruct (hasEdge g0 v d) eqn:He; cbn [negb orb andb]; [|reflexivity].
  destruct (edge_V v d D He) as [_ V]. rewrite (G _ (proj1 (points_in _ _) V)).
  rewrite !negb_orb, negb_involutive. reflexivity.
Qed.
Lemma ok_cand_aset cm v d1 d2 d : d2 <> DUnk -> ok_cand edge src (aset cm (kpred v d2) d1) v d2 d = ok_cand edge src cm v d2 d.
Proof.
  intros D2. unfold ok_cand. destruct (dir_eqb d2 (opp d)) eqn:R; cbn [negb]; [rewrite !andb_false_r; reflexivity|].
  apply dir_eqb_neq in R. unfold aset. destruct (midx_eq_dec (step v d) (kpred v d2)) as [X|X]; [|reflexivity].
  exfalso. apply R. unfold kpred in X. apply step_inj_dir in X. rewrite X. symmetry. apply opp_opp.
Qed.
Definition cm_of cm v d1 d2 (ds : list dir) : midx -> dir :=
  if dir_eqb d1 DUnk then cm else match ds with [] => cm | _ => aset cm (kpred v d2) d1 end.
Lemma grel_set g cm u d : grel g cm -> valid g0 u -> grel (setPrevDir g u d) (aset cm u d).
Proof.
  intros [S G] V. split; [exact S|]. intros p Hp.
  rewrite getPrevDir_set by (apply (static_valid g0 g _ S); assumption). unfold aset.
  destruct (midx_eq_dec p u); [reflexivity|auto].
Qed.
Lemma grel_set_same g cm u d : grel g cm -> valid g0 u -> cm u = d -> grel (setPrevDir g u d) cm.
Proof.
  intros H V E0. pose proof (grel_set g cm u d H V) as [S G]. split; [exact S|]. intros p Hp. rewrite G by assumption.
  unfold aset. destruct (midx_eq_dec p u); congruence.
Qed.
Lemma expand_one g cm e v d1 d2 done d :
  (d1 <> DUnk -> d2 <> DUnk /\ valid g0 (kpred v d2)) ->
  krel e (v, d1, d2) -> d <> DUnk ->
  (tail_ok cm v d1 d2 = true -> grel g (cm_of cm v d1 d2 done)) ->
  (tail_ok cm v d1 d2 = false -> grel g cm) ->
  ok_cand edge src cm v d2 d = true ->
  let r := expand E next_ext g e d in
  if tail_ok cm v d1 d2
  then grel (fst r) (cm_of cm v d1 d2 (done ++ [d])) /\ Forall2 krel (snd r) [(step v d, d2, d)]
  else grel (fst r) cm /\ snd r = [].
Proof.
  intros HV [K1 K2] D GT GF OK. cbn [kpos fst snd] in K1, K2. unfold expand. rewrite K1, K2, shiftAdd_enc.
  rewrite getNextGrid_step, tail_enc, step_step. fold (kpred v d2).
  assert (KR : krel (mkEntry (step v d) (enc d2 d) (next_ext g e d)) (step v d, d2, d)) by (split; reflexivity).
  destruct (dir_eqb d1 DUnk) eqn:E1.
  - assert (T : tail_ok cm v d1 d2 = true) by (unfold tail_ok; rewrite E1; reflexivity).
    rewrite T. cbn [fst snd]. split; [|constructor; [assumption|constructor]].
    specialize (GT T). unfold cm_of in *. rewrite E1 in *. assumption.
  - pose proof E1 as D1. apply dir_eqb_neq in D1. destruct (HV D1) as [D2 V].
    destruct (tail_ok cm v d1 d2) eqn:T.
    + specialize (GT eq_refl). unfold cm_of in GT |- *. rewrite E1 in GT |- *.
      replace (match done ++ [d] with [] => cm | _ => aset cm (kpred v d2) d1 end) with (aset cm (kpred v d2) d1)
        by (destruct done; reflexivity).
      assert (C : getPrevDir g (kpred v d2) = DUnk \/ getPrevDir g (kpred v d2) = d1).
      { destruct GT as [_ GT]. rewrite GT by assumption. destruct done.
        - unfold tail_ok in T. rewrite E1 in T. cbn [orb] in T. apply orb_true_iff in T as [T|T]; apply dir_eqb_eq in T; auto.
        - unfold aset. destruct (midx_eq_dec (kpred v d2) (kpred v d2)); [auto|congruence]. }
      replace (dir_eqb (getPrevDir g (kpred v d2)) DUnk || dir_eqb (getPrevDir g (kpred v d2)) d1) with true.
      2:{ symmetry. apply orb_true_iff. rewrite !dir_eqb_eq. assumption. }
      cbn [fst snd]. split; [|constructor; [assumption|constructor]].
      destruct done as [|x xs].
      * apply grel_set; assumption.
      * apply grel_set_same; [assumption|assumption|]. unfold aset. destruct (midx_eq_dec (kpred v d2) (kpred v d2)); congruence.
    + specialize (GF eq_refl). destruct GF as [S G]. rewrite G by assumption.
      unfold tail_ok in T. rewrite E1 in T. cbn [orb] in T. rewrite T. cbn [fst snd]. split; [split; assumption|reflexivity].
Qed.
Lemma expandWavefront_sim g cm e v d1 d2 :
  (d1 <> DUnk -> d2 <> DUnk /\ valid g0 (kpred v d2)) ->
  grel g cm -> krel e (v, d1, d2) ->
  let r := expandWavefront E next_ext g e in
  grel (fst r) (fst (aexpand edge src cm (v, d1, d2))) /\
  Forall2 krel (snd r) (snd (aexpand edge src cm (v, d1, d2))).
Proof.
  intros HV G K. cbn zeta. unfold expandWavefront. fold dirs6.
  set (F := fun '(g, l) d => if isExpandable E g e d then let '(g', l') := expand E next_ext g e d in (g', l ++ l') else (g, l)).
  assert (I : forall ds pre g1 l1, (forall d, In d ds -> d <> DUnk) ->
    (if tail_ok cm v d1 d2
     then grel g1 (cm_of cm v d1 d2 (filter (ok_cand edge src cm v d2) pre)) /\
          Forall2 krel l1 (map (fun d => (step v d, d2, d)) (filter (ok_cand edge src cm v d2) pre))
     else grel g1 cm /\ l1 = []) ->
    let r := fold_left F ds (g1, l1) in
    if tail_ok cm v d1 d2
     then grel (fst r) (cm_of cm v d1 d2 (filter (ok_cand edge src cm v d2) (pre ++ ds))) /\
          Forall2 krel (snd r) (map (fun d => (step v d, d2, d)) (filter (ok_cand edge src cm v d2) (pre ++ ds)))
     else grel (fst r) cm /\ snd r = []).
  { induction ds as [|d ds IH]; intros pre g1 l1 Hds H.
    - cbn [fold_left fst snd]. rewrite app_nil_r. exact H.
    - cbn zeta. cbn [fold_left]. rewrite (app_assoc pre [d] ds : pre ++ d :: ds = (pre ++ [d]) ++ ds).
      assert (D : d <> DUnk) by (apply Hds; left; reflexivity).
      assert (X : isExpandable E g1 e d = ok_cand edge src cm v d2 d).
      { destruct (tail_ok cm v d1 d2) eqn:T; [destruct H as [H _]|destruct H as [H _]; apply (expandable_ok g1 cm e v d1); assumption].
        rewrite (expandable_ok g1 _ e v d1 d2 d H K D). unfold cm_of. destruct (dir_eqb d1 DUnk) eqn:E1; [reflexivity|].
        apply dir_eqb_neq in E1. destruct (HV E1) as [D2 _].
        destruct (filter _ pre); [reflexivity|apply ok_cand_aset; assumption]. }
      assert (ST : if tail_ok cm v d1 d2
        then grel (fst (F (g1, l1) d)) (cm_of cm v d1 d2 (filter (ok_cand edge src cm v d2) (pre ++ [d]))) /\
          Forall2 krel (snd (F (g1, l1) d)) (map (fun d => (step v d, d2, d)) (filter (ok_cand edge src cm v d2) (pre ++ [d])))
        else grel (fst (F (g1, l1) d)) cm /\ snd (F (g1, l1) d) = []).
      { unfold F. rewrite X. rewrite filter_app. cbn [filter].
        destruct (ok_cand edge src cm v d2 d) eqn:OK.
        - pose proof (expand_one g1 cm e v d1 d2 (filter (ok_cand edge src cm v d2) pre) d HV K D) as EO.
          destruct (expand E next_ext g1 e d) as [g' l']. cbn [fst snd] in EO |- *.
          destruct (tail_ok cm v d1 d2) eqn:T.
          + destruct H as [H H']. destruct (EO (fun _ => H) ltac:(discriminate) OK) as [A B]. split; [assumption|].
            rewrite map_app. apply Forall2_app; assumption.
          + destruct H as [H ->]. destruct (EO ltac:(discriminate) (fun _ => H) OK) as [A B]. subst l'. split; [assumption|reflexivity].
        - cbn [fst snd]. rewrite app_nil_r. assumption. }
      destruct (F (g1, l1) d) as [g2 l2] eqn:EF. apply IH; [intros; apply Hds; right; assumption|].
      exact ST. }
  specialize (I dirs6 [] g [] dirs6_out). cbn [filter map app] in I.
  assert (I0 : if tail_ok cm v d1 d2 then grel g (cm_of cm v d1 d2 []) /\ Forall2 krel [] [] else grel g cm /\ @nil (entry E) = []).
  { destruct (tail_ok cm v d1 d2); (split; [|constructor]); [|assumption]. unfold cm_of. destruct (dir_eqb d1 DUnk); assumption. }
  specialize (I I0). unfold aexpand. destruct (tail_ok cm v d1 d2); cbn [fst snd].
  - exact I.
  - destruct I as [A B]. rewrite B. split; [assumption|constructor].
Qed.

(* the popped element *)
Lemma pop_nth_split {A} (l : list A) : forall n a r, pop_nth n l = Some (a, r) -> exists l1 l2, l = l1 ++ a :: l2 /\ r = l1 ++ l2.
Proof.
  induction l as [|b l IH]; intros n a r H; [discriminate|]. cbn in H. destruct n as [|n].
  - injection H as <- <-. exists [], l. auto.
  - destruct (pop_nth n l) as [[c r']|] eqn:P.
    + injection H as <- <-. destruct (IH n c r' P) as (l1 & l2 & -> & ->). exists (b :: l1), l2. auto.
    + injection H as <- <-. exists [], l. auto.
Qed.
Lemma pop_nth_none {A} (l : list A) n : pop_nth n l = None -> l = [].
Proof. destruct l as [|a l]; [reflexivity|]. cbn. destruct n; [discriminate|]. destruct (pop_nth n l) as [[? ?]|]; discriminate. Qed.

Definition cm0 : midx -> dir := fun _ => DUnk.
Notation areach := (areach edge src dst cc cm0).
Definition sim (g : gg) (wf : list (entry E)) (a : ast) : Prop :=
  grel g (acm a) /\ Forall2 krel wf (awf a) /\ areach a.
Definition found_at (g' : gg) (e : entry E) : Prop :=
  exists a k w, sim g' w a /\ In k (awf a) /\ krel e k /\ acm a (kpos k) = DUnk /\ dst (kpos k) = true.

Lemma key_facts a v d1 d2 : areach a -> In (v, d1, d2) (awf a) ->
  valid g0 v /\ (d1 <> DUnk -> d2 <> DUnk /\ valid g0 (kpred v d2)).
Proof.
  intros R Hin. destruct (areach_good edge src dst cc cc_src _ a R _ Hin) as (l & H & N).
  pose proof (hist_V edge src cc (points g0) cc_V edge_V _ _ _ H) as HV.
  split.
  - apply points_in, HV. inversion H; subst; left; reflexivity.
  - intros D1. inversion H; subst; try congruence. split; [assumption|]. apply points_in, HV. right; left; reflexivity.
Qed.

Lemma search_loop_sim tbf : forall fuel k g wf a m c1 c2,
  sim g wf a -> meas edge src cc (points g0) a m ->
  match search_loop E next_ext pick fuel tbf k g wf cc c1 c2 with
  | SFound g' f => exists e, found_at g' e /\ traceBackPath g' tbf (epos e) (ebuf e) cc c1 c2 = Some f
  | SFail g' => exists a', sim g' [] a'
  | SStuck g' => exists e, found_at g' e /\ traceBackPath g' tbf (epos e) (ebuf e) cc c1 c2 = None
  | STimeout => Z.of_nat fuel <= m
  end.
Proof.
  induction fuel as [|fuel IH]; intros k g wf a m c1 c2 S M.
  { cbn. destruct M as (ls & _ & ->). pose proof (zsum_pos (points g0) ls). lia. }
  cbn [search_loop]. destruct (pop_nth (pick k wf) wf) as [[e wf']|] eqn:P.
  2:{ apply pop_nth_none in P. subst wf. exists a. exact S. }
  destruct (pop_nth_split _ _ _ _ P) as (w1 & w2 & Ew & Ew'). subst wf'.
  destruct S as (G & F & R). rewrite Ew in F.
  pose proof F as F0. apply Forall2_app_inv_l in F as (a1 & a2 & F1 & F2 & Ea).
  inversion F2 as [|e0 [[v d1] d2] w0 a2' K F3]; subst.
  destruct a as [cm aw al]. cbn [acm awf] in *. subst aw.
  assert (Hin : In (v, d1, d2) (a1 ++ (v, d1, d2) :: a2')) by (apply in_or_app; right; left; reflexivity).
  destruct (key_facts _ v d1 d2 R Hin) as [V HV].
  pose proof K as [Kp Kb]. cbn [kpos fst snd] in Kp, Kb.
  pose proof G as [GS GP]. rewrite Kp, (GP v V).
  destruct (dir_eqb (cm v) DUnk) eqn:C; cbn [negb].
  - apply dir_eqb_eq in C. rewrite (static_dst _ _ _ GS). destruct (dst v) eqn:Dv.
    + assert (FA : found_at g e).
      { exists (mkA cm (a1 ++ (v, d1, d2) :: a2') al), (v, d1, d2), (w1 ++ e :: w2).
        split; [split; [exact G|split; [exact F0|exact R]]|]. auto. }
      destruct (traceBackPath g tbf v (ebuf e) cc c1 c2) eqn:T; exists e; rewrite Kp; auto.
    + pose proof (expandWavefront_sim g cm e v d1 d2 HV G K) as [X1 X2].
      assert (ST : astep edge src dst (mkA cm (a1 ++ (v, d1, d2) :: a2') al)
        (mkA (fst (aexpand edge src cm (v, d1, d2))) ((a1 ++ a2') ++ snd (aexpand edge src cm (v, d1, d2)))
             (al ++ snd (aexpand edge src cm (v, d1, d2))))) by (apply astep_expand; assumption).
      destruct (astep_meas edge src dst cc cc_src (points g0) cc_V edge_V _ _ m ST M) as (m' & M' & L).
      destruct (expandWavefront E next_ext g e) as [g' new]. cbn [fst snd] in X1, X2.
      assert (S' : sim g' ((w1 ++ w2) ++ new) (mkA (fst (aexpand edge src cm (v, d1, d2))) ((a1 ++ a2') ++ snd (aexpand edge src cm (v, d1, d2)))
             (al ++ snd (aexpand edge src cm (v, d1, d2))))).
      { split; [exact X1|]. split; [cbn [awf]; repeat apply Forall2_app; assumption|]. eapply arS; eassumption. }
      specialize (IH (S k) g' _ _ m' c1 c2 S' M').
      destruct (search_loop E next_ext pick fuel tbf (S k) g' ((w1 ++ w2) ++ new) cc c1 c2); try exact IH. lia.
  - apply dir_eqb_neq in C.
    assert (ST : astep edge src dst (mkA cm (a1 ++ (v, d1, d2) :: a2') al) (mkA cm (a1 ++ a2') al)) by (apply astep_skip; exact C).
    destruct (astep_meas edge src dst cc cc_src (points g0) cc_V edge_V _ _ m ST M) as (m' & M' & L).
    assert (S' : sim g (w1 ++ w2) (mkA cm (a1 ++ a2') al)).
    { split; [exact G|]. split; [apply Forall2_app; assumption|]. eapply arS; eassumption. }
    specialize (IH (S k) g _ _ m' c1 c2 S' M').
    destruct (search_loop E next_ext pick fuel tbf (S k) g (w1 ++ w2) cc c1 c2); try exact IH. lia.
Qed.
Lemma sim_init : sim g0 (map (fun i => mkEntry i 0 (init_ext g0 i)) cc) (ainit cc cm0).
Proof.
  split; [split; [apply static_refl|]|split].
  - intros p Hp. destruct ready as (_ & _ & A). apply A. assumption.
  - unfold ainit; cbn [awf]. clear ready. induction cc as [|s l IH]; cbn; constructor; [split; reflexivity|assumption].
  - constructor.
Qed.

(* ---- traceback ---- *)
Fixpoint wlinks (w : list midx) (es : list dir) : Prop :=
  match w, es with
  | [_], [] => True
  | a :: (b :: _) as r, e :: es => e <> DUnk /\ b = step a (opp e) /\ wlinks r es
  | _, _ => False
  end.
Fixpoint pathf (last : dir) (w : list midx) (es : list dir) : list midx :=
  match w, es with
  | a :: r, e :: es => (if dir_eqb e last then [] else [a]) ++ pathf e r es
  | _, _ => w
  end.
Lemma pathf_len w : forall es last, wlinks w es -> (1 <= length (pathf last w es))%nat.
Proof.
  induction w as [|a w IH]; intros es last H; [destruct H|]. destruct es as [|e es]; [cbn; lia|].
  cbn [pathf]. rewrite app_length. destruct w as [|b w]; [destruct H|]. destruct H as (_ & _ & H). specialize (IH es e H). lia.
Qed.
Definition lastp (w : list midx) := List.last w (mkMI 0 0 0).
Lemma tb_grid_chain g cm (G : grel g cm) : forall p l, chain edge src cc cm p l ->
  forall fuel last path root w, (length l <= fuel)%nat ->
  exists es path' last', wlinks l es /\ hd p l = p /\
    tb_grid g fuel (mkTB p last path root w) = Some (mkTB (lastp l) last' path' (root ++ removelast l) w) /\
    path' ++ [lastp l] = path ++ pathf last l es /\ In (lastp l) cc /\
    (forall q, In q (removelast l) -> src q = false) /\ linked g0 l.
Proof.
  destruct G as [S G].
  induction 1 as [s Hs|t d l Ht Hd Hn He Hc IH]; intros fuel last path root w L.
  - exists [], path, last. cbn [wlinks hd lastp List.last removelast pathf linked]. rewrite app_nil_r.
    assert (isSrc g s = true) by (rewrite (static_src g0 g s S); apply cc_src; assumption).
    repeat split; auto; try (intros q []).
    destruct fuel; cbn [tb_grid tpos]; rewrite H; reflexivity.
  - cbn [length] in L. destruct fuel as [|fuel]; [lia|].
    assert (V : valid g0 t). { pose proof (edge_V _ _ Hd He) as [_ V]. rewrite step_back in V. apply points_in; assumption. }
    destruct l as [|b l]; [inversion Hc|].
    destruct (IH fuel d (tb_push_path (mkTB t last path root w) d) (root ++ [t]) w) as (es & path' & last' & W & H & T & P & I & N & Lk); [lia|].
    cbn [hd] in H. subst b.
    exists (d :: es), path', last'. split; [cbn [wlinks]; auto|]. split; [reflexivity|]. split; [|split; [|split; [|split]]].
    + cbn [tb_grid tpos twarn troot]. rewrite (static_src g0 g t S), Hn, (G t V), Ht.
      destruct d; try congruence; rewrite getPrevGrid_step; cbn [tpos] in T; rewrite T; f_equal; f_equal; cbn [removelast];
        rewrite <- app_assoc; reflexivity.
    + unfold lastp in *. cbn [List.last pathf] in *. rewrite P. unfold tb_push_path. cbn [tlast tpath tpos].
      destruct (dir_eqb d last); [reflexivity|]. rewrite <- app_assoc. reflexivity.
    + exact I.
    + intros q Hq. cbn [removelast] in Hq. destruct Hq as [<-|Hq]; [assumption|apply N; assumption].
    + cbn [linked]. split; [|exact Lk]. apply (adj_back g0 t d); assumption.
Qed.
Lemma tb_buffer_step g n e1 e2 s : isSrc g (tpos s) = false -> e2 <> DUnk ->
  tb_buffer g (S n) (enc e1 e2) s =
  tb_buffer g n (enc DUnk e1) (mkTB (kpred (tpos s) e2) e2 (tb_push_path s e2) (troot s ++ [tpos s]) (twarn s)).
Proof.
  intros Hs He. cbn [tb_buffer]. rewrite Hs, getLastDir_enc, shiftr_enc, getPrevGrid_step. destruct e2; [congruence|reflexivity..].
Qed.
Lemma tb_hist g cm v d1 d2 l tbf c1 c2 : grel g cm -> hist edge src cc cm (v, d1, d2) l -> d2 <> DUnk ->
  (length l <= tbf)%nat ->
  exists es path, wlinks l es /\ hd v l = v /\ (exists x y r, l = x :: y :: r) /\
    traceBackPath g tbf v (enc d1 d2) cc c1 c2 =
      Some (mkFound path (cc ++ removelast l) (fold_left mi_min path c1) (fold_left mi_max path c2) false) /\
    path = pathf DUnk l es /\ In (lastp l) cc /\ (forall q, In q (removelast l) -> src q = false) /\ linked g0 l.
Proof.
  intros [S G] H D2 L. unfold traceBackPath, BUFSIZE.
  inversion H as [v0 Hv|v0 d20 D20 Sv Ee Hu|v0 d10 d20 l0 D1 D20 Dn Sv Su Ee Ee' Hch]; subst; [congruence| |].
  - assert (Lv : adj g0 v (kpred v d2)) by (apply adj_back; assumption).
    exists [d2], [v; kpred v d2]. split; [cbn [wlinks]; auto|]. split; [reflexivity|]. split; [eauto|].
    assert (Sk : isSrc g (kpred v d2) = true) by (rewrite (static_src g0 g _ S); apply cc_src; assumption).
    split; [|split; [|split; [exact Hu|split]]].
    + rewrite tb_buffer_step by (cbn [tpos]; rewrite ?(static_src g0 g _ S); assumption).
      unfold tb_push_path. cbn [tlast tpath tpos troot twarn].
      replace (dir_eqb d2 DUnk) with false by (symmetry; apply dir_eqb_neq; assumption).
      cbn [tb_buffer tpos app]. rewrite Sk. destruct tbf; cbn [tb_grid tpos]; rewrite Sk; reflexivity.
    + cbn [pathf]. replace (dir_eqb d2 DUnk) with false by (symmetry; apply dir_eqb_neq; assumption). reflexivity.
    + cbn. intros q [<-|[]]. assumption.
    + cbn [linked]. auto.
  - assert (Lv : adj g0 v (kpred v d2)) by (apply adj_back; assumption).
    assert (Lu : adj g0 (kpred v d2) (kpred (kpred v d2) d1)) by (apply adj_back; assumption).
    destruct l0 as [|b l0]; [inversion Hch|].
    set (u := kpred v d2) in *.
    set (p1 := [v]). set (p2 := if dir_eqb d1 d2 then p1 else p1 ++ [u]).
    cbn [length] in L.
    destruct (tb_grid_chain g cm (conj S G) _ _ Hch tbf d1 p2 ((cc ++ [v]) ++ [u]) false) as (es & path' & last' & W & Hh & T & P & I & N & Lk); [cbn [length]; lia|].
    cbn [hd] in Hh. subst b.
    exists (d2 :: d1 :: es), (path' ++ [lastp (kpred u d1 :: l0)]).
    split. { cbn [wlinks]. repeat split; auto. }
    split; [reflexivity|]. split; [eauto|]. split; [|split; [|split; [|split]]].
    + rewrite tb_buffer_step by (cbn [tpos]; rewrite ?(static_src g0 g _ S); assumption). cbn [tpos].
      fold u. rewrite tb_buffer_step by (cbn [tpos]; rewrite ?(static_src g0 g _ S); assumption). cbn [tpos tb_buffer].
      unfold tb_push_path. cbn [tlast tpath tpos troot twarn].
      replace (dir_eqb d2 DUnk) with false by (symmetry; apply dir_eqb_neq; assumption).
      cbn [app]. fold p1. change (p1 ++ [u]) with (p1 ++ [u]). fold p2.
      change (tb_grid g tbf _) with (tb_grid g tbf (mkTB (kpred u d1) d1 p2 ((cc ++ [v]) ++ [u]) false)); rewrite T. cbn [tpath troot tpos twarn].
      assert (NE : path' <> []).
      { intros F. rewrite F in P. cbn [app] in P. unfold p2, p1 in P.
        assert (length [lastp (kpred u d1 :: l0)] = length ((if dir_eqb d1 d2 then [v] else [v] ++ [u]) ++ pathf d1 (kpred u d1 :: l0) es)) by (rewrite P; reflexivity).
        rewrite app_length in H0. assert (1 <= length (pathf d1 (kpred u d1 :: l0) es))%nat.
        { apply pathf_len. exact W. }
        destruct (dir_eqb d1 d2); cbn [length app] in H0; lia. }
      destruct path' as [|x path']; [congruence|]. f_equal. f_equal. rewrite <- !app_assoc. cbn [app removelast]. reflexivity.
    + rewrite P. cbn [pathf]. replace (dir_eqb d2 DUnk) with false by (symmetry; apply dir_eqb_neq; assumption).
      unfold p2, p1. destruct (dir_eqb d1 d2); rewrite <- ?app_assoc; reflexivity.
    + exact I.
    + intros q Hq. cbn [removelast] in Hq. destruct Hq as [<-|[<-|Hq]]; auto.
    + cbn [linked]. auto.
Qed.
Lemma found_traceback g e tbf c1 c2 : (forall s, In s cc -> dst s = false) ->
  found_at g e -> (length (points g0) <= tbf)%nat ->
  exists w es f, route g0 cc w /\ wlinks w es /\ traceBackPath g tbf (epos e) (ebuf e) cc c1 c2 = Some f /\
    f = mkFound (pathf DUnk w es) (cc ++ removelast w) (fold_left mi_min (pathf DUnk w es) c1) (fold_left mi_max (pathf DUnk w es) c2) false.
Proof.
  intros Hd (a & [[v d1] d2] & wf & (G & F & R) & Hin & [K1 K2] & C & D) L. cbn [kpos fst snd] in *.
  destruct (areach_good edge src dst cc cc_src _ a R _ Hin) as (l & H & N).
  pose proof (hist_V edge src cc (points g0) cc_V edge_V _ _ _ H) as HV.
  assert (D2 : d2 <> DUnk).
  { intros ->. inversion H; subst; try congruence. rewrite Hd in D by assumption. discriminate. }
  pose proof (NoDup_incl_length N HV) as Ln.
  destruct (tb_hist g (acm a) v d1 d2 l tbf c1 c2 G H D2) as (es & path & W & Hh & (x & y & r & El) & T & P & I & Ns & Lk); [lia|].
  exists l, es, (mkFound path (cc ++ removelast l) (fold_left mi_min path c1) (fold_left mi_max path c2) false).
  split; [|split; [assumption|split; [rewrite K1, K2; assumption|subst path; reflexivity]]].
  subst l. cbn [hd] in Hh. subst x. exists v, (removelast (y :: r)), (lastp (y :: r)).
  assert (Er : y :: r = removelast (y :: r) ++ [lastp (y :: r)]) by (apply app_removelast_last; discriminate).
  split; [f_equal; exact Er|]. split; [assumption|]. split; [exact I|]. split; [assumption|]. split; [assumption|].
  split; [intros p Hp; apply points_in, HV; assumption|]. exact Ns.
Qed.
End Refine.

(* ---- the bend list ---- *)
Lemma run_len p d n : length (run p d n) = n.
Proof. revert p. induction n as [|n IH]; intros p; cbn; [reflexivity|]. rewrite IH. reflexivity. Qed.
Lemma last_cons_default {A} (l : list A) a b : l <> [] -> List.last l a = List.last l b.
Proof. induction l as [|x l IH]; [congruence|]. intros _. destruct l as [|y l]; [reflexivity|]. cbn [List.last]. apply IH. discriminate. Qed.
Lemma run_last a d n : List.last (run a d (S n)) a = List.last (run (step a d) d n) (step a d).
Proof. cbn [run]. destruct (run (step a d) d n) eqn:R; [reflexivity|]. cbn [List.last]. apply (last_cons_default (m :: l)). discriminate. Qed.
Lemma bends_extend last last' d a b c r w :
  d <> DUnk -> d <> last -> b = step a d -> bends last' (b :: r) (b :: c :: w) -> c = step b d ->
  bends last (a :: r) (a :: b :: c :: w).
Proof.
  intros D Dl Eb H Ec. remember (b :: r) as X. remember (b :: c :: w) as Y. destruct H as [|l0 d0 n a0 b0 r0 w0 D0 Dl0 Eb0 H0].
  - injection HeqX as -> ->. discriminate.
  - injection HeqX as -> <-. injection HeqY as E1 E2. cbn [run app] in E1. 
    assert (d0 = d) by (apply (step_inj_dir b); congruence). subst d0.
    assert (E : b :: run b d (S n) ++ w0 = run a d (S (S n)) ++ w0) by (cbn [run app]; rewrite <- Eb; reflexivity).
    rewrite E. apply bends_run; auto. rewrite run_last, <- Eb. exact Eb0.
Qed.

Lemma pathf_bends : forall w es last, wlinks w es -> (match es with [] => True | e :: _ => e <> last end) ->
  bends (opp last) (pathf last w es) w.
Proof.
  induction w as [|a w IH]; intros es last W Hh; [destruct W|].
  destruct es as [|e es].
  - destruct w; [|destruct W]. cbn. constructor.
  - destruct w as [|b w]; [destruct W|]. destruct W as (De & Eb & W).
    change (pathf last (a :: b :: w) (e :: es)) with ((if dir_eqb e last then [] else [a]) ++ pathf e (b :: w) es).
    replace (dir_eqb e last) with false by (symmetry; apply dir_eqb_neq; assumption). cbn [app].
    assert (Do : opp e <> DUnk) by (rewrite opp_unk; assumption).
    assert (Dl : opp e <> opp last) by (intros X; apply Hh; rewrite <- (opp_opp e), X; apply opp_opp).
    destruct es as [|e2 es].
    + destruct w as [|c w]; [|destruct W]. cbn [pathf].
      change (a :: [b]) with (a :: [b] ++ []). rewrite Eb. change [step a (opp e)] with (run a (opp e) 1) at 2.
      apply bends_run; auto. constructor.
    + destruct w as [|c w]; [destruct W|].
      destruct (dir_eq_dec e2 e) as [->|Hne].
      * pose proof (IH (e :: es) DUnk W De) as H. pose proof W as (_ & Ec & _).
        cbn [pathf] in H |- *.
        replace (dir_eqb e DUnk) with false in H by (symmetry; apply dir_eqb_neq; assumption).
        replace (dir_eqb e e) with true by (symmetry; apply dir_eqb_eq; reflexivity). cbn [app] in H |- *.
        apply (bends_extend (opp last) (opp DUnk) (opp e) a b c); auto.
      * pose proof (IH (e2 :: es) e W Hne) as H.
        assert (Hp : exists r, pathf e (b :: c :: w) (e2 :: es) = b :: r).
        { cbn [pathf]. replace (dir_eqb e2 e) with false by (symmetry; apply dir_eqb_neq; assumption). cbn [app]. eauto. }
        destruct Hp as (r & Hp). rewrite Hp in H |- *.
        change (a :: b :: c :: w) with (a :: [b] ++ (c :: w)). rewrite Eb. change [step a (opp e)] with (run a (opp e) 1).
        rewrite <- Eb. apply bends_run; auto.
Qed.
Definition coordf (f : midx -> Z) := f = mx \/ f = my \/ f = mz.
Lemma run_between d n : forall a f, coordf f -> forall q, In q (run a d n) ->
  (f a <= f q <= f (List.last (run a d n) a)) \/ (f (List.last (run a d n) a) <= f q <= f a).
Proof.
  induction n as [|n IH]; intros a f Hf q Hq; [destruct Hq|].
  rewrite run_last.
  assert (MON : forall m p, (forall f, coordf f -> (f p <= f (List.last (run p d m) p) /\ f a <= f (step a d)) \/
                                              (f (List.last (run p d m) p) <= f p /\ f (step a d) <= f a))).
  { clear. induction m as [|m IH]; intros p f Hf.
    - cbn. destruct Hf as [-> | [-> | ->]]; destruct d; cbn; lia.
    - rewrite run_last. specialize (IH (step p d) f Hf). destruct Hf as [-> | [-> | ->]]; destruct d; cbn in *; lia. }
  specialize (MON n (step a d) f Hf). destruct Hq as [<-|Hq]; [lia|].
  specialize (IH (step a d) f Hf q Hq). lia.
Qed.
Lemma bends_incl last p w : bends last p w -> incl p w.
Proof.
  induction 1 as [|last d n a b r w D Dl Eb H IH]; [intros x; auto|].
  assert (Lr : In b (run a d (S n))).
  { rewrite Eb. clear. revert a. induction n as [|n IH]; intros a; [left; reflexivity|].
    rewrite run_last. right. apply IH. }
  intros x [<-|Hx]; [left; reflexivity|]. apply IH in Hx. right. apply in_or_app.
  destruct Hx as [<-|Hx]; auto.
Qed.
Lemma bends_between last p w : bends last p w -> forall f, coordf f -> forall q, In q w ->
  exists x y, In x p /\ In y p /\ f x <= f q <= f y.
Proof.
  induction 1 as [last a|last d n a b r w D Dl Eb H IH]; intros f Hf q Hq.
  - destruct Hq as [<-|[]]. exists a, a. cbn. auto using Z.le_refl.
  - destruct Hq as [<-|Hq]; [exists a, a; cbn; auto using Z.le_refl|]. apply in_app_or in Hq as [Hq|Hq].
    + destruct (run_between d (S n) a f Hf q Hq) as [X|X]; rewrite <- Eb in X;
        [exists a, b|exists b, a]; cbn; auto.
    + destruct (IH f Hf q (or_intror Hq)) as (x & y & Hx & Hy & L). exists x, y. split; [right; assumption|]. split; [right; assumption|assumption].
Qed.
Lemma mi_min_f f a b : coordf f -> f (mi_min a b) = Z.min (f a) (f b).
Proof. intros [-> | [-> | ->]]; reflexivity. Qed.
Lemma mi_max_f f a b : coordf f -> f (mi_max a b) = Z.max (f a) (f b).
Proof. intros [-> | [-> | ->]]; reflexivity. Qed.
Lemma fold_min_spec f l : coordf f -> forall c, let b := fold_left mi_min l c in
  f b <= f c /\ (forall p, In p l -> f b <= f p) /\ (f b = f c \/ exists p, In p l /\ f b = f p).
Proof.
  intros Hf. induction l as [|a l IH]; intros c; cbn [fold_left].
  - cbn zeta. split; [lia|]. split; [intros p []|auto].
  - specialize (IH (mi_min c a)). cbn zeta in *. destruct IH as (A & B & C). rewrite (mi_min_f f) in A, C by assumption.
    split; [lia|]. split.
    + intros p [<-|Hp]; [lia|auto].
    + destruct C as [C|(p & Hp & C)]; [|right; exists p; cbn; auto].
      destruct (Z.min_spec (f c) (f a)) as [[_ E]|[_ E]]; rewrite E in C; [auto|right; exists a; cbn; auto].
Qed.
Lemma fold_max_spec f l : coordf f -> forall c, let b := fold_left mi_max l c in
  f c <= f b /\ (forall p, In p l -> f p <= f b) /\ (f b = f c \/ exists p, In p l /\ f b = f p).
Proof.
  intros Hf. induction l as [|a l IH]; intros c; cbn [fold_left].
  - cbn zeta. split; [lia|]. split; [intros p []|auto].
  - specialize (IH (mi_max c a)). cbn zeta in *. destruct IH as (A & B & C). rewrite (mi_max_f f) in A, C by assumption.
    split; [lia|]. split.
    + intros p [<-|Hp]; [lia|auto].
    + destruct C as [C|(p & Hp & C)]; [|right; exists p; cbn; auto].
      destruct (Z.max_spec (f c) (f a)) as [[_ E]|[_ E]]; rewrite E in C; [right; exists a; cbn; auto|auto].
Qed.
Lemma bends_box last p w c1 c2 : bends last p w -> least_box c1 c2 w (fold_left mi_min p c1) (fold_left mi_max p c2).
Proof.
  intros H f Hf. destruct (fold_min_spec f p Hf c1) as (A1 & A2 & A3). destruct (fold_max_spec f p Hf c2) as (B1 & B2 & B3).
  pose proof (bends_incl _ _ _ H) as I. pose proof (bends_between _ _ _ H f Hf) as BT.
  split; (split; [assumption|]); split.
  - intros q Hq. destruct (BT q Hq) as (x & y & Hx & Hy & L). specialize (A2 x Hx). lia.
  - destruct A3 as [A3|(q & Hq & A3)]; [auto|right; exists q; auto].
  - intros q Hq. destruct (BT q Hq) as (x & y & Hx & Hy & L). specialize (B2 y Hy). lia.
  - destruct B3 as [B3|(q & Hq & B3)]; [auto|right; exists q; auto].
Qed.

(* ---- the whole search ---- *)
Lemma find_none_all (g : gg) cc : find (isDst g) cc = None -> forall s, In s cc -> isDst g s = false.
Proof. intros H s Hs. exact (find_none _ _ H s Hs). Qed.
Lemma search_spec E next_ext init_ext pick fuel tbfuel g cc c1 c2 : search_ready g cc ->
  match search E next_ext init_ext pick fuel tbfuel g cc c1 c2 with
  | SFound g' f => static g g' /\
      ((exists s, In s cc /\ isDst g s = true /\ f = mkFound [s] cc c1 c2 false /\ g' = g) \/
       (exists w, (length (points g) <= tbfuel)%nat -> route g cc w /\ bends DUnk (fpath f) w /\
          froot f = cc ++ removelast w /\ fwarn f = false /\ least_box c1 c2 w (fbox1 f) (fbox2 f)))
  | SFail g' => static g g' /\ forall p, reachable g cc p -> isDst g p = false
  | SStuck g' => (tbfuel < length (points g))%nat
  | STimeout => Z.of_nat fuel <= Z.of_nat (length cc) * 7 ^ Z.of_nat (length (points g))
  end.
Proof.
  intros R. unfold search. destruct (find (isDst g) cc) as [s|] eqn:F.
  - split; [apply static_refl|]. left. apply find_some in F as [A B]. exists s. auto.
  - pose proof (find_none_all g cc F) as ND.
    pose proof (search_loop_sim E next_ext init_ext pick g cc R tbfuel fuel 0 g _ _ _ c1 c2
                  (sim_init E init_ext g cc R) (init_meas _ _ (isDst g) cc (cc_src g cc R) (points g) (cc_V g cc R) (edge_V g cc R) _)) as S.
    destruct (search_loop E next_ext pick fuel tbfuel 0 g _ cc c1 c2) as [g' f|g'|g'|].
    + destruct S as (e & FA & T). split; [destruct FA as (a & k & w & ((S & _) & _) & _); exact S|]. right.
      destruct (le_lt_dec (length (points g)) tbfuel) as [L|L].
      2:{ exists []. intros X. lia. }
      destruct (found_traceback E next_ext init_ext pick g cc R g' e tbfuel c1 c2 ND FA L) as (w & es & f' & Rt & W & T' & Ef).
      rewrite T in T'. injection T' as <-. exists w. intros _. rewrite Ef. cbn [fpath froot fwarn fbox1 fbox2].
      assert (B : bends DUnk (pathf DUnk w es) w).
      { apply (pathf_bends w es DUnk W). destruct es as [|e0 es]; [exact I|].
        destruct w as [|a [|b w]]; [destruct W|destruct W|]. apply W. }
      split; [assumption|]. split; [assumption|]. split; [reflexivity|]. split; [reflexivity|]. eapply bends_box; eassumption.
    + destruct S as (a' & (G & F0) & Fw & Ra). split; [exact G|].
      pose proof (areach_K (fun p d => hasEdge g p d) (isSrc g) (isDst g) cc (cm0) a' ND (fun _ => eq_refl) Ra) as K.
      assert (Ew : awf a' = []) by (inversion Fw; reflexivity).
      assert (RC : forall p, reachable g cc p -> reached (alog a') p).
      { induction 1 as [s Hs|p q Hp IH (d & Hd & He & ->) Hq].
        - exists (s, DUnk, DUnk). split; [apply K; assumption|reflexivity].
        - eapply closed; try eassumption. exact (cc_src g cc R). }
      intros p Hp. eapply reached_nodst; try eassumption. apply RC; assumption.
    + destruct S as (e & FA & T). destruct (le_lt_dec (length (points g)) tbfuel) as [L|L]; [|assumption].
      destruct (found_traceback E next_ext init_ext pick g cc R g' e tbfuel c1 c2 ND FA L) as (w & es & f' & Rt & W & T' & Ef). congruence.
    + exact S.
Qed.
