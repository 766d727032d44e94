(* The search with its costs, step by step, against the walks of FareAbs. *)
From Verif Require Import Base Stl GeomModel GeomSpec GridModel GridSpec GridProofs GridProofs2 MazeModel MazeSpec MazeAbs MazeProofs FareModel FareSpec FareAbs FareProofs.

Lemma enc_inj a b c d : enc a b = enc c d -> a = c /\ b = d.
Proof.
  intros H. assert (J : forall x y, 0 <= dir_code x < 8 -> dir_code x = dir_code y -> x = y) by (intros x y _ E; destruct x, y; try reflexivity; discriminate E).
  assert (R : forall x, 0 <= dir_code x < 8) by (intros x; destruct x; cbn; lia).
  unfold enc in H. pose proof (R a). pose proof (R b). pose proof (R c). pose proof (R d). split; apply J; auto; lia.
Qed.
Lemma pop_nth_nth {A} (l : list A) : forall n a, nth_error l n = Some a ->
  exists r, pop_nth n l = Some (a, r).
Proof.
  induction l as [|b l IH]; intros [|n] a H; try discriminate; cbn in *.
  - injection H as <-. eauto.
  - destruct (IH n a H) as (r & ->). eauto.
Qed.
Lemma wf_lt_cost a b : wf_lt a b = false -> x_cost (eext a) <= x_cost (eext b).
Proof.
  unfold wf_lt. destruct (x_cost (eext a) =? x_cost (eext b)) eqn:E; cbn [negb].
  - intros _. lia.
  - intros H. lia.
Qed.

Lemma Forall2_in_r {A B} (R : A -> B -> Prop) l l' : Forall2 R l l' -> forall b, In b l' -> exists a, In a l /\ R a b.
Proof.
  induction 1 as [|a b l l' H X IH]; intros c [].
  - subst. exists a. split; [left; reflexivity|assumption].
  - destruct (IH c H0) as (a2 & P1 & P2). exists a2. split; [right; assumption|assumption].
Qed.

Section Sim.
Variables (F : fenv) (g0 : gg) (cc : list midx) (d1 d2 : midx) (center : point) (K : Z).
Variable pick : nat -> list (entry fext) -> nat.
Hypothesis ready : search_ready g0 cc.
Hypothesis FO : fare_ok F g0.
Hypothesis CL : charge_limit F g0 K.
Hypothesis HP : heap_pick pick.

Notation edge := (fun p d => hasEdge g0 p d).
Notation src := (isSrc g0).
Notation dst := (isDst g0).
Lemma EI : edges_inside g0.
Proof. apply ready. Qed.

(* the fields of the entry that has come along a walk *)
Fixpoint wext_aux (s : midx) (ds : list dir) : fext :=
  match ds with
  | [] => finit F d1 d2 center g0 s
  | d :: r => fnext F d1 d2 center g0 (mkEntry (wpos (s, r)) (enc (wlast2 (s, r)) (wlast (s, r))) (wext_aux s r)) d
  end.
Definition wext (W : walk) : fext := wext_aux (fst W) (snd W).
Definition went (W : walk) : entry fext := mkEntry (wpos W) (enc (wlast2 W) (wlast W)) (wext W).
Lemma wext_add W d : wext (wadd W d) = fnext F d1 d2 center g0 (went W) d.
Proof. destruct W. reflexivity. Qed.
Definition w := edge_part F g0.
Definition sur (W : walk) (d : dir) : Z :=
  (if negb (dir_eqb (wlast W) d) && negb (dir_eqb (wlast W) DUnk) then 1 else 0) +
  (if v2v_hit F (mz (wpos W)) (wext W) d then (if fe_late F then fe_marker F else fe_drc F) * getEdgeLength F g0 (wpos W) d else 0) +
  (if turn_hit F (mz (wpos W)) (wext W) (wlast W) d then (if fe_late F then fe_drc F else fe_marker F) * getEdgeLength F g0 (wpos W) d else 0).
Notation gcost := (gc w sur).
Notation h0 := (FareProofs.h0 F g0 d1 d2).
Notation hb := (FareProofs.hb F g0 d1 d2).
Notation ff := (ff w sur h0 hb).

Lemma next_path W d : getNextPathCost F g0 (went W) d = x_path (wext W) + w (wpos W) d + sur W d.
Proof.
  unfold getNextPathCost, sur, w, edge_part, went. cbn [epos ebuf eext]. rewrite getLastDir_enc. lia.
Qed.
Lemma path_gc W : x_path (wext W) = gcost W.
Proof.
  destruct W as [s ds]. induction ds as [|d r IH]; [reflexivity|].
  change (s, d :: r) with (wadd (s, r) d). rewrite wext_add, gc_add. unfold fnext. cbn [x_path]. rewrite next_path, IH. reflexivity.
Qed.
Lemma cost_ff W : x_cost (wext W) = ff W.
Proof.
  unfold FareAbs.ff, hh. destruct (walk_cases W) as [(s & ->)|(W' & d & ->)].
  - unfold wext. cbn [fst snd wext_aux finit x_cost gc gc_aux wpos wlast fold_right]. rewrite (est_split F g0 FO). unfold gc. cbn. lia.
  - rewrite wext_add, gc_add. unfold fnext. cbn [x_cost]. rewrite next_path, path_gc, (est_split F g0 FO), wpos_add, wlast_add.
    unfold went. cbn [epos]. rewrite getNextGrid_step. reflexivity.
Qed.

Lemma sur_range W d : d <> DUnk -> hasEdge g0 (wpos W) d = true -> 0 <= sur W d <= K.
Proof.
  intros D E. unfold sur. rewrite (hop_len F g0 FO EI _ _ D E). pose proof (hop_nn F g0 (wpos W) d) as Hn.
  destruct FO as (_ & _ & C1 & C2 & _). destruct CL as [K1 CL']. specialize (CL' _ _ D E).
  assert (X : v2v_hit F (mz (wpos W)) (wext W) d = true -> turn_hit F (mz (wpos W)) (wext W) (wlast W) d = false).
  { unfold v2v_hit, turn_hit. destruct (is_via_dir d); [|discriminate]. cbn. intros _.
    destruct (negb (dir_eqb (wlast W) DUnk) && negb (dir_eqb (wlast W) d)); reflexivity. }
  set (b := if negb (dir_eqb (wlast W) d) && negb (dir_eqb (wlast W) DUnk) then 1 else 0).
  assert (0 <= b <= 1) by (unfold b; destruct (negb _ && _); lia).
  destruct CL' as [[V T] | M].
  - assert (V0 : v2v_hit F (mz (wpos W)) (wext W) d = false).
    { unfold v2v_hit. rewrite !V. rewrite !andb_false_r. reflexivity. }
    assert (T0 : turn_hit F (mz (wpos W)) (wext W) (wlast W) d = false).
    { unfold turn_hit. rewrite !T. clear. destruct (wlast W), d; reflexivity. }
    rewrite V0, T0. lia.
  - destruct (v2v_hit F (mz (wpos W)) (wext W) d); [rewrite (X eq_refl)|]; destruct (fe_late F); try destruct (turn_hit F (mz (wpos W)) (wext W) (wlast W) d); nia.
Qed.
Lemma sur_bend W d : d <> DUnk -> hasEdge g0 (wpos W) d = true ->
  (if negb (dir_eqb (wlast W) d) && negb (dir_eqb (wlast W) DUnk) then 1 else 0) <= sur W d.
Proof.
  intros D E. unfold sur. rewrite (hop_len F g0 FO EI _ _ D E). pose proof (hop_nn F g0 (wpos W) d) as Hn.
  destruct FO as (_ & _ & C1 & C2 & _).
  destruct (v2v_hit F (mz (wpos W)) (wext W) d), (turn_hit F (mz (wpos W)) (wext W) (wlast W) d), (fe_late F); nia.
Qed.
Lemma all_good : forall W, wgood edge w sur h0 hb K W.
Proof.
  intros W d E D _. split; [apply sur_range; assumption|].
  pose proof (est_step F g0 d1 d2 (wpos W) (wlast W) d D) as S.
  pose proof (sur_bend W d D E). pose proof (edge_part_hop F g0 FO EI (wpos W) d D E). unfold w. lia.
Qed.
Lemma w_nonneg : forall p d, d <> DUnk -> hasEdge g0 p d = true -> 0 <= w p d.
Proof. intros p d D E. pose proof (edge_part_hop F g0 FO EI p d D E). pose proof (hop_nn F g0 p d). unfold w. lia. Qed.
Lemma h0_lipschitz : forall p d, d <> DUnk -> hasEdge g0 p d = true -> h0 p <= w p d + h0 (step p d) /\ h0 (step p d) <= w p d + h0 p.
Proof. intros p d D E. pose proof (edge_part_hop F g0 FO EI p d D E). pose proof (h0_hop F g0 d1 d2 p d). unfold w. lia. Qed.
Lemma edge_unk p : hasEdge g0 p DUnk = false.
Proof. unfold hasEdge. cbn. destruct (isValid g0 p); reflexivity. Qed.

Lemma w_edge : forall p d, hasEdge g0 p d = true -> 0 <= w p d.
Proof.
  intros p d E. apply w_nonneg; [|assumption]. intros ->. rewrite edge_unk in E. discriminate.
Qed.
Definition erel (e : entry fext) (W : walk) : Prop := krel fext e (wkey W) /\ eext e = wext W.
Lemma erel_went e W : erel e W -> e = went W.
Proof. intros [[A B] C]. destruct e as [p b x]. cbn [epos ebuf eext] in *. subst. reflexivity. Qed.

(* the new entries carry the fields computed for their direction *)
Lemma expand_static g e d : static g0 g -> let r := expand fext (fnext F d1 d2 center) g e d in
  static g0 (fst r) /\ forall n, In n (snd r) -> eext n = fnext F d1 d2 center g0 e d /\ ebuf n = snd (shiftAddBuffer (ebuf e) d).
Proof.
  intros S. unfold expand. destruct (shiftAddBuffer (ebuf e) d) as [t b]. cbn zeta. cbn [snd].
  assert (N : forall n, In n [mkEntry (getNextGrid (epos e) d) b (fnext F d1 d2 center g e d)] ->
    eext n = fnext F d1 d2 center g0 e d /\ ebuf n = b).
  { intros n [<- | []]. cbn [eext ebuf]. split; [apply static_next; assumption|reflexivity]. }
  destruct (dir_eqb t DUnk); cbn [fst snd]; [split; [assumption|exact N]|].
  destruct (_ || _); cbn [fst snd]; [split; [exact S|exact N]|]. split; [assumption|intros n []].
Qed.
Lemma expandWavefront_ext g e : static g0 g -> forall n, In n (snd (expandWavefront fext (fnext F d1 d2 center) g e)) ->
  exists d, eext n = fnext F d1 d2 center g0 e d /\ ebuf n = snd (shiftAddBuffer (ebuf e) d).
Proof.
  intros S. unfold expandWavefront.
  set (Fn := fun '(g, l) d => if isExpandable fext g e d then let '(g', l') := expand fext (fnext F d1 d2 center) g e d in (g', l ++ l') else (g, l)).
  assert (I : forall ds g1 l1, static g0 g1 -> (forall n, In n l1 -> exists d, eext n = fnext F d1 d2 center g0 e d /\ ebuf n = snd (shiftAddBuffer (ebuf e) d)) ->
    forall n, In n (snd (fold_left Fn ds (g1, l1))) -> exists d, eext n = fnext F d1 d2 center g0 e d /\ ebuf n = snd (shiftAddBuffer (ebuf e) d)).
  { induction ds as [|d ds IH]; intros g1 l1 S1 H; [exact H|]. cbn [fold_left].
    destruct (Fn (g1, l1) d) as [g2 l2] eqn:E. apply IH; unfold Fn in E.
    - destruct (isExpandable fext g1 e d); [|injection E as <- <-; assumption].
      pose proof (expand_static g1 e d S1) as [A B]. destruct (expand _ _ g1 e d) as [g' l']. injection E as <- <-. exact A.
    - destruct (isExpandable fext g1 e d); [|injection E as <- <-; assumption].
      pose proof (expand_static g1 e d S1) as [A B]. destruct (expand _ _ g1 e d) as [g' l']. injection E as <- <-.
      intros n Hn. apply in_app_iff in Hn as [Hn | Hn]; [apply H; assumption|]. exists d. apply B. exact Hn. }
  apply (I [DN; DE; DS; DW; DU; DD]); [assumption|intros n []].
Qed.
Lemma pushes_walks cm W : snd (aexpand edge src cm (wkey W)) = map wkey (wpush edge src cm W).
Proof.
  unfold aexpand, wkey, wpush. fold (wok cm W). destruct (wok cm W); [|reflexivity]. cbn [snd]. unfold pushes, wcands.
  rewrite map_map. apply map_ext. intros d. rewrite wpos_add, wlast2_add, wlast_add. reflexivity.
Qed.
Lemma Forall2_map_r {A B C} (R : A -> C -> Prop) (f : B -> C) l l' : Forall2 R l (map f l') -> Forall2 (fun a b => R a (f b)) l l'.
Proof.
  revert l. induction l' as [|b l' IH]; intros l H; inversion H; subst; constructor; auto.
Qed.
Lemma Forall2_strengthen {A B} (R R' : A -> B -> Prop) l l' : (forall a b, In a l -> In b l' -> R a b -> R' a b) -> Forall2 R l l' -> Forall2 R' l l'.
Proof.
  intros H X. induction X as [|a b l l' Y X IH]; constructor.
  - apply H; [left; reflexivity|left; reflexivity|assumption].
  - apply IH. intros a' b' Ha Hb. apply H; right; assumption.
Qed.

Notation wst := ws.
Notation Inv := (FareAbs.Inv edge src dst cc w sur h0 hb K).
Notation whist := (FareAbs.whist edge src cc).
Notation least := (FareAbs.least w sur h0 hb).
Lemma walk_facts a W : whist a -> In W (wwf a) ->
  valid g0 (wpos W) /\ (wlast2 W <> DUnk -> wlast W <> DUnk /\ valid g0 (kpred (wpos W) (wlast W))).
Proof.
  intros H Hin. destruct (H W Hin) as [Hi _]. 
  pose proof (hist_V edge src cc (points g0) (cc_V g0 cc ready) (edge_V g0 cc ready) _ _ _ Hi) as HV.
  unfold wkey in Hi. revert Hi HV. generalize (wpos W) (wlast2 W) (wlast W) (wpts W). clear - ready. intros v e1 e2 l Hi HV. split.
  - apply points_in, HV. inversion Hi; left; reflexivity.
  - intros D1. inversion Hi; subst; try congruence. split; [assumption|]. apply points_in, HV. right; left; reflexivity.
Qed.
Lemma loop_sim tbf c1 c2 : forall fuel k g wf a,
  grel g0 g (wcm a) -> Forall2 erel wf (wwf a) -> Inv a -> whist a ->
  match search_loop fext (fnext F d1 d2 center) pick fuel tbf k g wf cc c1 c2 with
  | SFound g' f => exists a' W, Inv a' /\ whist a' /\ In W (wwf a') /\ least a' W /\ dst (wpos W) = true /\
      grel g0 g' (wcm a') /\ traceBackPath g' tbf (wpos W) (enc (wlast2 W) (wlast W)) cc c1 c2 = Some f
  | _ => True
  end.
Proof.
  induction fuel as [|fuel IH]; intros k g wf a G FR I H; [exact Logic.I|].
  cbn [search_loop]. destruct (pop_nth (pick k wf) wf) as [[e wf']|] eqn:P; [|exact Logic.I].
  assert (NE : wf <> []) by (intros ->; discriminate P).
  destruct (HP k wf NE) as (e0 & N0 & M0). destruct (pop_nth_nth wf _ _ N0) as (r0 & P0). rewrite P0 in P. injection P as -> ->.
  destruct (pop_nth_split _ _ _ _ P0) as (w1 & w2 & Ew & Ew'). subst wf'.
  rewrite Ew in FR. pose proof FR as FR0. apply Forall2_app_inv_l in FR as (a1 & a2 & F1 & F2 & Ea).
  inversion F2 as [|e1 W w0 a2' KW F3]; subst.
  destruct a as [cm aw P G0 T]. cbn [wcm wwf] in *. subst aw.
  assert (Hin : In W (a1 ++ W :: a2')) by (apply in_or_app; right; left; reflexivity).
  destruct (walk_facts _ W H Hin) as [V HV].
  assert (LEAST : forall W', In W' (a1 ++ W :: a2') -> ff W <= ff W').
  { intros W' HW'. destruct (Forall2_in_r _ _ _ FR0 W' HW') as (e' & He' & R').
    specialize (M0 e' He'). apply wf_lt_cost in M0. destruct KW as [_ X]. destruct R' as [_ X']. rewrite X, X', !cost_ff in M0. exact M0. }
  pose proof KW as [[Kp Kb] Kx]. cbn [kpos wkey fst snd] in Kp, Kb.
  pose proof G as [GS GP]. rewrite Kp, (GP _ V).
  destruct (dir_eqb (cm (wpos W)) DUnk) eqn:C; cbn [negb].
  - apply dir_eqb_eq in C. rewrite (static_dst _ _ _ GS). destruct (dst (wpos W)) eqn:Dv.
    + rewrite Kb. destruct (traceBackPath g tbf (wpos W) (enc (wlast2 W) (wlast W)) cc c1 c2) eqn:TB; [|exact Logic.I].
      exists (mkWS cm (a1 ++ W :: a2') P G0 T), W. split; [exact I|]. split; [exact H|]. split; [exact Hin|]. split; [exact LEAST|]. split; [exact Dv|]. split; [exact G|exact TB].
    + pose proof (expandWavefront_sim fext (fnext F d1 d2 center) g0 cc ready g cm e (wpos W) (wlast2 W) (wlast W) HV G (conj Kp Kb)) as [X1 X2].
      pose proof (expandWavefront_ext g e GS) as X3.
      destruct (expandWavefront fext (fnext F d1 d2 center) g e) as [g' new]. cbn [fst snd] in X1, X2, X3.
      assert (ST : wstep edge src dst w sur h0 hb (mkWS cm (a1 ++ W :: a2') P G0 T)
        (mkWS (wset edge src cm W) ((a1 ++ a2') ++ wpush edge src cm W) (P ++ wpush edge src cm W) (if wok cm W then W :: G0 else G0) (ff W))).
      { apply wstep_expand; [assumption|assumption|]. intros W' HW'. apply LEAST. apply in_app_iff in HW'. apply in_app_iff. cbn. tauto. }
      apply (IH (S k) g' _ (mkWS (wset edge src cm W) ((a1 ++ a2') ++ wpush edge src cm W) (P ++ wpush edge src cm W) (if wok cm W then W :: G0 else G0) (ff W))).
      * exact X1.
      * cbn [wwf]. apply Forall2_app; [apply Forall2_app; assumption|].
        change (wpos W, wlast2 W, wlast W) with (wkey W) in X2. rewrite pushes_walks in X2. apply Forall2_map_r in X2.
        apply (Forall2_strengthen _ _ _ _) with (2 := X2). intros n W' Hn HW' KN. split; [exact KN|].
        destruct (X3 n Hn) as (d & Xe & Xb). apply wpush_in in HW' as (_ & d' & _ & ->).
        destruct KN as [_ KN]. rewrite wkey_add in KN. cbn [fst snd] in KN. rewrite Xb, Kb, shiftAdd_enc in KN. cbn [snd] in KN.
        apply enc_inj in KN as [_ ->]. rewrite Xe, wext_add. rewrite (erel_went e W KW). reflexivity.
      * eapply step_inv; try eassumption; auto using w_edge, h0_lipschitz, h0_nonneg, hb_bounds, hb_first, all_good, (cc_src g0 cc ready).
      * eapply step_hist; try eassumption. exact (cc_src g0 cc ready).
  - apply dir_eqb_neq in C.
    assert (ST : wstep edge src dst w sur h0 hb (mkWS cm (a1 ++ W :: a2') P G0 T) (mkWS cm (a1 ++ a2') P G0 (ff W))).
    { apply wstep_skip; [assumption|]. intros W' HW'. apply LEAST. apply in_app_iff in HW'. apply in_app_iff. cbn. tauto. }
    apply (IH (S k) g _ (mkWS cm (a1 ++ a2') P G0 (ff W))).
    + exact G.
    + apply Forall2_app; assumption.
    + eapply step_inv; try eassumption; auto using w_edge, h0_lipschitz, h0_nonneg, hb_bounds, hb_first, all_good, (cc_src g0 cc ready).
    + eapply step_hist; try eassumption. exact (cc_src g0 cc ready).
Qed.
End Sim.
