From Verif Require Import Base GeomModel GeomSpec GridModel GridSpec GridProofs GridProofs2 MazeModel MazeSpec MazeAbs MazeProofs NetModel NetSpec NetProofs NetProofs2 NetProofs3.
From Coq Require Import Permutation.

Section Loop.
Variable pins : list dpin.
Hypothesis pins_nodup : NoDup (map pid pins).

Lemma post_spec g dst tl_ cc unc m first : let path := dst :: tl_ in
  incl unc pins -> mrel m (Runc unc) -> drel g (Runc unc) ->
  (forall p a, In p pins -> In a (paps p) -> valid g a) ->
  valid g dst -> isDst g dst = true -> (forall p, In p (path_points path) -> valid g p) ->
  (first = true -> forall a, In a cc -> valid g a) ->
  let '(g', cc', unc', m') := routeNet_postAstarUpdate g path cc unc m first in
  incl unc' pins /\ (forall q, In q unc' <-> In q unc /\ ~ In dst (paps q)) /\ (length unc' < length unc)%nat /\
  mrel m' (Runc unc') /\ drel g' (Runc unc') /\ fr g g' /\
  (forall a, In a cc' -> (first = true /\ path = [a]) \/ (first = false /\ In a cc) \/ In a (path_points path)) /\
  (forall a, valid g a -> (In a (path_points path) \/ (first = true /\ path = [a]) \/ (first = false /\ isSrc g a = true)) -> isSrc g' a = true).
Proof.
  intros path Hu M D V Vd Hd Vp Vc. unfold routeNet_postAstarUpdate, path.
  destruct (proj1 (D dst Vd) Hd) as (q0 & Hq0). destruct (proj2 (proj1 M dst q0) Hq0) as (s & Fs & Hq0s).
  destruct (mrel_find m _ dst s M Fs) as [Sn Sq].
  assert (Mu : mrel (pmap_upd m dst (fun s => s)) (Runc unc)).
  { split.
    - intros k q. rewrite pmap_find_upd, Fs. destruct (mi_eq dst k) eqn:E; [apply mi_eq_spec in E; subst k; rewrite <- Fs|]; apply (proj1 M).
    - clear -M Fs. destruct M as [_ M]. revert Fs. induction m as [|[k0 s0] r IH]; cbn; [discriminate|].
      inversion M; subst. destruct (mi_eq k0 dst); [constructor; assumption|intros; constructor; auto]. }
  assert (Fu : pmap_find (pmap_upd m dst (fun s => s)) dst = Some s) by (rewrite pmap_find_upd, mi_eq_refl, Fs; reflexivity).
  cbv zeta. rewrite Fu.
  assert (Is : incl s pins) by (intros q Hq; apply Sq in Hq as [Hq _]; auto).
  pose proof (drop_pins_spec pins pins_nodup s Is g unc (pmap_upd m dst (fun s => s)) Hu Mu D V) as Hdrop.
  destruct (fold_left drop_pin s (g, unc, pmap_upd m dst (fun s => s))) as [[g1 unc1] m1].
  destruct Hdrop as (A1 & A2 & A3 & A4 & M1 & D1 & F1 & S1).
  set (first_part := if first then _ else _).
  assert (FP : exists g2 cc2, first_part = (g2, cc2) /\ fr g1 g2 /\ gdst g2 = gdst g1 /\
     (forall a, In a cc2 -> (first = true /\ dst :: tl_ = [a]) \/ (first = false /\ In a cc)) /\
     (forall a, valid g a -> (first = true /\ dst :: tl_ = [a]) \/ (first = false /\ isSrc g a = true) -> isSrc g2 a = true)).
  { unfold first_part. destruct first.
    - destruct (fold_resetSrc cc g1) as [Fr Dr]. destruct tl_ as [|t r].
      + eexists _, _. split; [reflexivity|]. split; [eapply fr_trans; [exact Fr|apply fr_setSrc]|]. split; [rewrite <- Dr; reflexivity|].
        split; [intros a [<-|[]]; auto|]. intros a Va [[_ E]|[E _]]; [|discriminate]. injection E as <-.
        rewrite isSrc_setSrc, mi_eq_refl; [reflexivity| |]; apply (fr_valid g); auto; eapply fr_trans; eassumption.
      + eexists _, _. split; [reflexivity|]. split; [exact Fr|]. split; [exact Dr|]. split; [intros a []|].
        intros a _ [[_ E]|[E _]]; discriminate.
    - eexists _, _. split; [reflexivity|]. split; [apply fr_refl|]. split; [reflexivity|]. split; [auto|].
      intros a _ [[E _]|[_ E]]; [discriminate|]. rewrite (isSrc_eq g g1 a F1 S1). assumption. }
  destruct FP as (g2 & cc2 & -> & F2 & D2 & C2 & S2).
  set (pts := path_points (dst :: tl_)) in *.
  assert (F12 : fr g g2) by (eapply fr_trans; eassumption).
  destruct (fold_setSrc pts g2) as (F3 & D3 & S3); [intros p Hp; apply (fr_valid g); auto|].
  split; [assumption|]. split; [intros q; rewrite A2, Sq; unfold Runc; tauto|].
  split; [apply A4; exists q0; split; [assumption|apply Hq0]|]. split; [assumption|].
  split; [eapply drel_eq; [exact F3|exact D3|]; eapply drel_eq; [exact F2|exact D2|assumption]|].
  split; [eapply fr_trans; eassumption|]. split.
  - intros a Ha. apply in_app_iff in Ha as [Ha|Ha].
    + apply C2 in Ha. tauto.
    + right. right. assert (In a (fold_left (fun s p => mset_ins p s) pts [])) as H.
      { destruct first; [assumption|]. apply filter_In in Ha. apply Ha. }
      apply in_mset_fold in H as [H|[]]. assumption.
  - intros a Va Ha. apply S3; [apply (fr_valid g); assumption|]. destruct Ha as [Ha|Ha]; [left; assumption|right; auto].
Qed.

Lemma nextDst_some dd c1 c2 m : m <> [] -> Forall (fun e => snd e <> []) m -> (forall a, dd c1 c2 a < 2 ^ 31 - 1) ->
  exists p, routeNet_getNextDst dd c1 c2 m = Some p.
Proof.
  intros Hm Hf Hd. unfold routeNet_getNextDst.
  set (go := fix go (m : pmap) (best : Z) (cur : option dpin) : option dpin := _).
  assert (K : forall m best q, Forall (fun e => snd e <> []) m -> exists p, go m best (Some q) = Some p).
  { clear -Hd. induction m as [|[k s] r IH]; intros best q Hf; [cbn; eauto|]. inversion Hf; subst.
    cbn. destruct s as [|q' s]; [contradiction|]. destruct (dd c1 c2 k <? best).
    - cbn. destruct (dd c1 c2 k =? 0); eauto.
    - destruct (best =? 0); eauto. }
  destruct m as [|[k s] r]; [contradiction|]. inversion Hf; subst. destruct s as [|q s]; [contradiction|].
  cbn. replace (dd c1 c2 k <? 2147483647) with true by (specialize (Hd k); lia).
  cbn. destruct (dd c1 c2 k =? 0); [eauto|apply K; assumption].
Qed.

(* ---- steps of a walk without repetition ---- *)
Lemma walk_nodup w : NoDup w -> NoDup (walk_steps w).
Proof.
  induction w as [|a w IH]; intros H; [constructor|]. inversion H as [|x l Hn Hd]; subst.
  destruct w as [|b w]; [constructor|]. rewrite walk_steps_cons2. constructor; [|auto].
  intros Hi. apply Hn. destruct (up_step_cases a b) as [E|E]; rewrite E in Hi; apply walk_steps_in in Hi; tauto.
Qed.
Lemma walk_len a w : length (walk_steps (a :: w)) = length w.
Proof. revert a. induction w as [|b w IH]; intros a; [reflexivity|]. rewrite walk_steps_cons2. cbn [length]. rewrite IH. reflexivity. Qed.
Lemma walk_has_nonlast w : forall a b s, In (a, b) (walk_steps (w ++ [s])) -> In a w \/ In b w.
Proof.
  induction w as [|c w IH]; intros a b s H; [destruct H|].
  destruct w as [|c' w].
  - cbn in H. destruct H as [H|[]]. destruct (up_step_cases c s) as [E|E]; rewrite E in H; injection H as <- <-; cbn; auto.
  - cbn [app] in H. rewrite walk_steps_cons2 in H. destruct H as [H|H].
    + destruct (up_step_cases c c') as [E|E]; rewrite E in H; injection H as <- <-; cbn; auto.
    + apply IH in H. cbn in *. tauto.
Qed.

Variable g0 : gg.
Hypothesis inside : edges_inside g0.
Hypothesis aps_valid : forall p a, In p pins -> In a (paps p) -> valid g0 a.
Variable E : Type.
Variable next_ext : option dpin -> gg -> entry E -> dir -> E.
Variable init_ext : option dpin -> gg -> midx -> E.
Variable pick : nat -> nat -> list (entry E) -> nat.
Variable rap : list midx.

(* all routing objects hang together with the component, and form a tree *)
Definition tree (fs : list fig) (hub : midx) (pts : list midx) : Prop :=
  NoDup (flat_map unit_steps fs) /\ NoDup pts /\ In hub pts /\
  length pts = S (length (flat_map unit_steps fs)) /\
  (forall u, In u pts -> joined fs hub u) /\
  (forall u v, In (u, v) (flat_map unit_steps fs) -> In u pts /\ In v pts).
Record li (st : rstate) : Prop := mkLi {
  li_fr : fr g0 (rsg st);
  li_unc : incl (rsunc st) pins;
  li_m : mrel (rsmap st) (Runc (rsunc st));
  li_d : drel (rsg st) (Runc (rsunc st));
  li_cc : forall a, In a (rscc st) -> valid g0 a /\ isSrc (rsg st) a = true;
  li_conn : if rsfirst st
    then rsfigs st = [] /\ exists p0, In p0 pins /\ rscc st = paps p0 /\ forall q, In q pins -> q = p0 \/ In q (rsunc st)
    else exists hub pts, tree (rsfigs st) hub pts /\ (forall u, In u pts -> valid g0 u /\ isSrc (rsg st) u = true) /\
      (forall a, In a (rscc st) -> In a pts) /\
      (forall q, In q pins -> In q (rsunc st) \/ exists a, In a (paps q) /\ In a pts);
  li_cnt : (S (rsn st + length (rsunc st)) <= length pins)%nat;
  li_wf : Forall (well_formed g0 rap) (rsfigs st) }.

Lemma ready_pin st : li st -> search_ready (mazePinInit (rsg st)) (rscc st).
Proof.
  intros L. assert (F : fr g0 (mazePinInit (rsg st))) by apply (li_fr st L).
  split; [eapply fr_inside; eassumption|]. split.
  - intros s Hs. apply (li_cc st L) in Hs as [Hv Hs]. split; [apply (fr_valid g0); assumption|exact Hs].
  - intros p _. unfold getPrevDir. reflexivity.
Qed.
Lemma well_formed_fr g h f : fr g h -> well_formed h rap f -> well_formed g rap f.
Proof. intros [(Hx & Hy & Hz & _) _]. destruct f; unfold well_formed; rewrite ?Hx, ?Hy, ?Hz; auto. Qed.
Lemma NoDup_app {A} (l1 l2 : list A) : NoDup l1 -> NoDup l2 -> (forall x, In x l1 -> ~ In x l2) -> NoDup (l1 ++ l2).
Proof.
  induction 1 as [|a l Hn Hd IH]; cbn; intros H2 H; [assumption|]. constructor.
  - intros Hi. apply in_app_iff in Hi as [Hi|Hi]; [contradiction|]. apply (H a); cbn; auto.
  - apply IH; [assumption|]. intros x Hx. apply H. cbn. auto.
Qed.

Lemma found_walk fuel tbfuel st next g2 f : li st -> (grid_size g0 <= tbfuel)%nat ->
  search E (next_ext next) (init_ext next) (pick (rsn st)) fuel tbfuel (mazePinInit (rsg st)) (rscc st) (rsc1 st) (rsc2 st) = SFound g2 f ->
  exists mid src dst rest, mid ++ [src] = dst :: rest /\ bends DUnk (fpath f) (dst :: rest) /\ isDst (rsg st) dst = true /\
    In src (rscc st) /\ NoDup (dst :: rest) /\ (forall p, In p (dst :: rest) -> valid g0 p) /\
    (forall p, In p mid -> isSrc (rsg st) p = false) /\ froot f = rscc st ++ mid /\
    fr (rsg st) g2 /\ gsrc g2 = gsrc (rsg st) /\ gdst g2 = gdst (rsg st).
Proof.
  intros L Hf H. pose proof (search_spec E (next_ext next) (init_ext next) (pick (rsn st)) fuel tbfuel _ _ (rsc1 st) (rsc2 st) (ready_pin st L)) as S.
  rewrite H in S. destruct S as [St S]. set (g1 := mazePinInit (rsg st)) in *.
  assert (X : fr (rsg st) g2 /\ gsrc g2 = gsrc (rsg st) /\ gdst g2 = gdst (rsg st)).
  { destruct St as (B1 & B2 & B3 & B4 & _). split; [split; assumption|]. split; symmetry; assumption. }
  assert (F1 : fr g0 g1) by apply (li_fr st L).
  destruct S as [(s & A & B & -> & ->)|(w & S)].
  - exists [], s, s, []. cbn. split; [reflexivity|]. split; [constructor|]. split; [exact B|]. split; [assumption|].
    split; [repeat constructor; intros []|]. split; [intros p [<-|[]]; apply (li_cc st L); assumption|]. split; [intros p []|].
    rewrite app_nil_r. auto.
  - assert (Lp : (length (points g1) <= tbfuel)%nat).
    { rewrite points_len. unfold grid_size in Hf. destruct F1 as [(Ex & Ey & Ez & _) _]. rewrite <- Ex, <- Ey, <- Ez. exact Hf. }
    destruct (S Lp) as ((dst & mid & src & -> & Hd & Hs & Hl & Hn & Hv & Hm) & B & R & _ & _).
    exists (dst :: mid), src, dst, (mid ++ [src]). split; [reflexivity|]. split; [assumption|]. split; [assumption|]. split; [assumption|].
    split; [assumption|]. split; [intros p Hp; apply (fr_valid g0 g1 p F1); auto|]. split; [exact Hm|].
    split; [rewrite R; f_equal; change (dst :: mid ++ [src]) with ((dst :: mid) ++ [src]); apply removelast_last|]. exact X.
Qed.

Lemma li_step fuel tbfuel st next g2 f : li st -> (grid_size g0 <= tbfuel)%nat ->
  search E (next_ext next) (init_ext next) (pick (rsn st)) fuel tbfuel (mazePinInit (rsg st)) (rscc st) (rsc1 st) (rsc2 st) = SFound g2 f ->
  let '(g', cc', unc', m') := routeNet_postAstarUpdate g2 (fpath f) (froot f) (rsunc st) (rsmap st) (rsfirst st) in
  li (mkRS g' unc' m' cc' (fbox1 f) (fbox2 f) false (rsfigs st ++ writePath g' rap (fpath f)) (S (rsn st))) /\
  (length unc' < length (rsunc st))%nat.
Proof.
  intros L Hf H. destruct (found_walk fuel tbfuel st next g2 f L Hf H) as (mid & src & dst & rest & Ew & B & Hd & Hs & Hn & Hv & Hm & Hr & F2 & S2 & D2).
  destruct (bends_hd _ _ _ B) as (a0 & p' & w' & Ep & Ew' & Hp'). injection Ew' as <- <-.
  assert (F02 : fr g0 g2) by (eapply fr_trans; [apply (li_fr st L)|exact F2]).
  assert (E1 : rest = [] -> fpath f = [dst]) by (intros Er; rewrite Er in B; inversion B; congruence).
  assert (PP : forall q, In q (path_points (fpath f)) -> In q (dst :: rest)).
  { intros q Hq. destruct rest as [|r1 rest].
    - rewrite (E1 eq_refl) in Hq. destruct Hq.
    - apply (path_points_in DUnk (fpath f)); [assumption|cbn; lia|assumption]. }
  assert (PQ : forall q, In q (dst :: rest) -> In q (path_points (fpath f)) \/ (fpath f = [q] /\ rest = [])).
  { intros q Hq. destruct rest as [|r1 rest].
    - right. destruct Hq as [<-|[]]. auto.
    - left. apply (path_points_in DUnk (fpath f) (dst :: r1 :: rest)); [assumption|cbn; lia|assumption]. }
  rewrite Ep in *. 
  pose proof (post_spec g2 dst p' (froot f) (rsunc st) (rsmap st) (rsfirst st)) as P. cbv zeta in P.
  specialize (P (li_unc st L) (li_m st L) (drel_eq _ _ _ F2 D2 (li_d st L))
    ltac:(intros q a Hq Ha; apply (fr_valid g0 g2 a F02); eauto)
    ltac:(apply (fr_valid g0 g2 dst F02), Hv; cbn; auto)
    ltac:(rewrite (isDst_eq _ _ _ F2 D2); assumption)
    ltac:(intros q Hq; apply (fr_valid g0 g2 q F02), Hv, PP; assumption)).
  assert (Vroot : forall a, In a (froot f) -> valid g0 a).
  { intros a Ha. rewrite Hr in Ha. apply in_app_iff in Ha as [Ha|Ha]; [apply (li_cc st L); assumption|].
    apply Hv. rewrite <- Ew. apply in_app_iff. auto. }
  specialize (P ltac:(intros _ a Ha; apply (fr_valid g0 g2 a F02); auto)).
  destruct (routeNet_postAstarUpdate g2 (dst :: p') (froot f) (rsunc st) (rsmap st) (rsfirst st)) as [[[g' cc'] unc'] m'].
  destruct P as (A1 & A2 & A3 & M' & D' & F' & C' & S').
  assert (F0' : fr g0 g') by (eapply fr_trans; eassumption).
  destruct (writePath_spec g' rap DUnk (dst :: p') (dst :: rest) B) as [Wp Wf].
  assert (Nw : NoDup (flat_map unit_steps (writePath g' rap (dst :: p')))) by (eapply Permutation_NoDup; [symmetry; exact Wp|apply walk_nodup; assumption]).
  assert (Lw : length (flat_map unit_steps (writePath g' rap (dst :: p'))) = length rest) by (rewrite (Permutation_length Wp); apply walk_len).
  assert (Iw : forall u v, In (u, v) (flat_map unit_steps (writePath g' rap (dst :: p'))) -> In (u, v) (walk_steps (dst :: rest))) by (intros u v; apply Permutation_in; assumption).
  assert (Src_w : In src (dst :: rest)) by (rewrite <- Ew; apply in_app_iff; cbn; auto).
  assert (Lm : length rest = length mid) by (apply (f_equal (@length _)) in Ew; rewrite app_length in Ew; cbn in Ew; lia).
  assert (Sw : forall u, In u (dst :: rest) -> (rsfirst st = true \/ In u mid) -> isSrc g' u = true).
  { intros u Hu Hc. apply S'; [apply (fr_valid g0 g2 u F02); auto|]. destruct (PQ u Hu) as [HP|[HP1 HP2]]; [auto|]. right.
    destruct Hc as [Hc|Hc]; [left; auto|]. exfalso. rewrite HP2 in Lm. destruct mid; [destruct Hc|discriminate]. }
  split; [|assumption]. constructor; cbn [rsg rsunc rsmap rscc rsfirst rsfigs rsn].
  - assumption.
  - assumption.
  - assumption.
  - assumption.
  - (* the component *)
    pose proof (li_conn st L) as Lc. intros a Ha. apply C' in Ha. destruct (rsfirst st) eqn:Ef.
    + destruct Ha as [[_ Ha]|[[Ha _]|Ha]]; [| discriminate|].
      * injection Ha as <- _. split; [apply Hv; cbn; auto|apply Sw; cbn; auto].
      * split; [apply Hv, PP; assumption|apply Sw; auto].
    + destruct Ha as [[Ha _]|[[_ Ha]|Ha]]; [discriminate| |].
      * split; [auto|]. rewrite Hr in Ha. apply in_app_iff in Ha as [Ha|Ha].
        -- destruct (li_cc st L a Ha) as [Va Sa]. apply S'; [apply (fr_valid g0 g2 a F02); assumption|].
           right. right. split; [reflexivity|]. rewrite (isSrc_eq _ _ _ F2 S2). assumption.
        -- apply Sw; [rewrite <- Ew; apply in_app_iff; auto|auto].
      * split; [auto|]. apply S'; [apply (fr_valid g0 g2 a F02); auto|auto].
  - pose proof (li_conn st L) as Lc. destruct (rsfirst st) eqn:Ef.
    + destruct Lc as (E0 & p0 & Hp0 & Ec & Hq). rewrite E0. cbn [app].
      exists dst, (dst :: rest). split; [|split; [|split]].
      * split; [assumption|]. split; [assumption|]. split; [cbn; auto|]. split; [cbn [length]; rewrite Lw; reflexivity|].
        split; [intros u Hu; eapply path_joined; [exact B|apply incl_refl|assumption]|].
        intros u v Huv. apply Iw in Huv. apply walk_steps_in. assumption.
      * intros u Hu. split; [auto|apply Sw; auto].
      * intros a Ha. apply C' in Ha. destruct Ha as [[_ Ha]|[[Ha _]|Ha]]; [|discriminate|auto].
        injection Ha as <- _. cbn. auto.
      * intros q Hqp. destruct (Hq q Hqp) as [->|Hu].
        -- right. exists src. rewrite <- Ec. auto.
        -- destruct (in_dec mi_dec dst (paps q)) as [Hi|Hi]; [right; exists dst; cbn; auto|left; apply A2; auto].
    + destruct Lc as (hub & pts & (T1 & T2 & T3 & T4 & T5 & T6) & Ps & Pc & Pq).
      assert (Dj : forall u, In u mid -> ~ In u pts).
      { intros u Hu Hp. apply Hm in Hu. destruct (Ps u Hp) as [_ Hx]. congruence. }
      assert (Nm : NoDup mid) by (rewrite <- Ew in Hn; apply NoDup_remove_1 in Hn; rewrite app_nil_r in Hn; assumption).
      assert (Wm : forall u, In u (dst :: rest) -> In u mid \/ In u pts).
      { intros u Hu. rewrite <- Ew in Hu. apply in_app_iff in Hu as [Hu|[<-|[]]]; auto. }
      exists hub, (mid ++ pts). split; [|split; [|split]].
      * assert (J : forall u, In u pts -> joined (rsfigs st ++ writePath g' rap (dst :: p')) hub u).
        { intros u Hu. eapply joined_incl; [|apply T5; assumption]. intros x Hx. apply in_app_iff. auto. }
        assert (Jd : forall u, In u (dst :: rest) -> joined (rsfigs st ++ writePath g' rap (dst :: p')) dst u).
        { intros u Hu. apply (path_joined g' rap DUnk (dst :: p') dst rest); [exact B| |assumption]. intros x Hx. apply in_app_iff. auto. }
        split; [|split; [|split; [|split; [|split]]]].
        -- rewrite flat_map_app. apply NoDup_app; auto. intros [u v] Ho Hn'. apply Iw in Hn'. rewrite <- Ew in Hn'.
           apply walk_has_nonlast in Hn'. apply T6 in Ho as [Ho1 Ho2]. destruct Hn' as [Hn'|Hn']; apply Dj in Hn'; contradiction.
        -- apply NoDup_app; auto.
        -- apply in_app_iff. auto.
        -- rewrite flat_map_app, !app_length, Lw, T4. lia.
        -- intros u Hu. apply in_app_iff in Hu as [Hu|Hu]; [|auto].
           eapply joined_trans; [apply J, Pc, Hs|]. eapply joined_trans; [apply joined_sym, Jd; assumption|].
           apply Jd. rewrite <- Ew. apply in_app_iff. auto.
        -- intros u v Huv. rewrite flat_map_app in Huv. rewrite !in_app_iff. apply in_app_iff in Huv as [Huv|Huv].
           ++ apply T6 in Huv. tauto.
           ++ apply Iw, walk_steps_in in Huv as [H1 H2]. auto.
      * intros u Hu. apply in_app_iff in Hu as [Hu|Hu].
        -- assert (In u (dst :: rest)) by (rewrite <- Ew; apply in_app_iff; auto). split; [auto|apply Sw; auto].
        -- destruct (Ps u Hu) as [Vu Su]. split; [assumption|]. apply S'; [apply (fr_valid g0 g2 u F02); assumption|].
           right. right. split; [reflexivity|]. rewrite (isSrc_eq _ _ _ F2 S2). assumption.
      * intros a Ha. apply in_app_iff. apply C' in Ha. destruct Ha as [[Ha _]|[[_ Ha]|Ha]]; [discriminate| |auto].
        rewrite Hr in Ha. apply in_app_iff in Ha as [Ha|Ha]; auto.
      * intros q Hqp. destruct (Pq q Hqp) as [Hu|(a & Ha & Hp)].
        -- destruct (in_dec mi_dec dst (paps q)) as [Hi|Hi]; [|left; apply A2; auto].
           right. exists dst. split; [assumption|]. apply in_app_iff. apply Wm. cbn. auto.
        -- right. exists a. split; [assumption|]. apply in_app_iff. auto.
  - pose proof (li_cnt st L). lia.
  - apply Forall_app. split; [apply (li_wf st L)|]. eapply Forall_impl; [|exact Wf]. intros x. apply well_formed_fr. assumption.
Qed.
End Loop.
