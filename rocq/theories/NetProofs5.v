From Verif Require Import Base GeomModel GeomSpec GridModel GridSpec GridProofs GridProofs2 MazeModel MazeSpec MazeAbs MazeProofs NetModel NetSpec NetProofs NetProofs2 NetProofs3 NetProofs4.

Section Top.
Variable pins : list dpin.
Variables (sd : list dpin -> midx -> Z) (dd : midx -> midx -> midx -> Z).
Hypothesis sd_pos : forall l a, 0 <= sd l a.
Hypothesis dd_small : forall c1 c2 a, dd c1 c2 a < 2 ^ 31 - 1.
Variable g0 : gg.
Hypothesis ready : net_ready g0 pins.
Variable E : Type.
Variable next_ext : option dpin -> gg -> entry E -> dir -> E.
Variable init_ext : option dpin -> gg -> midx -> E.
Variable pick : nat -> nat -> list (entry E) -> nat.

Let inside : edges_inside g0 := proj1 ready.
Lemma nodup_ids : NoDup (map pid pins).
Proof. apply ready. Qed.
Lemma aps_ok : forall p a, In p pins -> In a (paps p) -> valid g0 a.
Proof. intros p a Hp. apply ready. assumption. Qed.

Lemma li_nonempty_map rap st : li pins g0 rap st -> rsunc st <> [] -> rsmap st <> [].
Proof.
  intros L Hn. destruct (rsunc st) as [|q r] eqn:Eu; [contradiction|].
  assert (Hq : In q pins) by (apply (li_unc _ _ _ _ L); rewrite Eu; cbn; auto).
  pose proof ready as (_ & _ & _ & _ & Hp). destruct (Hp q Hq) as [Ha _].
  destruct (paps q) as [|a l] eqn:Ea; [contradiction|].
  assert (X : Runc (rsunc st) a q) by (split; [rewrite Eu; cbn; auto|rewrite Ea; cbn; auto]).
  apply (proj1 (li_m _ _ _ _ L) a q) in X as (s & Fs & _).
  intros E0. rewrite E0 in Fs. discriminate.
Qed.

Lemma loop_spec rap fuel tbfuel : (grid_size g0 <= tbfuel)%nat -> forall n st, li pins g0 rap st ->
  match route_loop dd E next_ext init_ext pick n fuel tbfuel rap st with
  | ROk st' => li pins g0 rap st' /\ rsunc st' = []
  | RFail st' => li pins g0 rap st' /\ rsunc st' <> [] /\
                 forall p, reachable (rsg st') (rscc st') p -> isDst (rsg st') p = false
  | RNull _ => False
  | RHang st' => li pins g0 rap st' /\ Z.of_nat fuel <= Z.of_nat (length (rscc st')) * 7 ^ Z.of_nat (grid_size g0)
  | RMore st' => (n < length (rsunc st))%nat
  end.
Proof.
  intros Hf. induction n as [|n IH]; intros st L.
  - cbn. destruct (rsunc st) eqn:Eu; [auto|cbn; lia].
  - cbn [route_loop]. destruct (rsunc st) as [|q r] eqn:Eu; [auto|].
    destruct (nextDst_some dd (rsc1 st) (rsc2 st) (rsmap st)) as (nx & En).
    { apply (li_nonempty_map rap st L). rewrite Eu. discriminate. }
    { apply (li_m _ _ _ _ L). }
    { intros. apply dd_small. }
    rewrite En.
    pose proof (search_spec E (next_ext (Some nx)) (init_ext (Some nx)) (pick (rsn st)) fuel tbfuel _ _ (rsc1 st) (rsc2 st) (ready_pin pins g0 inside rap st L)) as S.
    assert (Lp : length (points (mazePinInit (rsg st))) = grid_size g0).
    { rewrite points_len. unfold grid_size. destruct (li_fr _ _ _ _ L) as [(Ex & Ey & Ez & _) _].
      cbn [mazePinInit with_prev gxs gys gzs]. rewrite <- Ex, <- Ey, <- Ez. reflexivity. }
    destruct (search _ _ _ _ _ _ _ _ _ _) as [g2 f|g2|g2|] eqn:Es.
    + pose proof (li_step pins nodup_ids g0 inside aps_ok E next_ext init_ext pick rap fuel tbfuel st (Some nx) g2 f L Hf Es) as H.
      rewrite Eu in H.
      destruct (routeNet_postAstarUpdate g2 (fpath f) (froot f) (q :: r) (rsmap st) (rsfirst st)) as [[[g' cc'] unc'] m'].
      destruct H as [L' Hlt]. specialize (IH _ L').
      destruct (route_loop _ _ _ _ _ n _ _ _ _); try assumption. cbn [rsunc] in IH. cbn [length] in *. lia.
    + split; [assumption|]. split; [rewrite Eu; discriminate|]. destruct S as [_ S]. intros p Hp. apply (S p).
      clear -Hp. induction Hp as [s Hs|p q Hp IHp Ha Hsrc]; [apply reach_start; exact Hs|].
      eapply reach_step; [exact IHp| |exact Hsrc]. destruct Ha as (d & A & B & C). exists d. split; [exact A|]. split; [exact B|exact C].
    + rewrite Lp in S. lia.
    + rewrite Lp in S. auto.
Qed.

Lemma prep_li n fuel tbfuel : (2 <= length pins)%nat ->
  exists rap st, routeNet sd dd E next_ext init_ext pick n fuel tbfuel g0 pins =
    route_loop dd E next_ext init_ext pick n fuel tbfuel rap st /\ li pins g0 rap st /\ (length (rsunc st) < length pins)%nat /\ rsn st = O.
Proof.
  intros Hl. unfold routeNet. destruct (Nat.leb_spec (length pins) 1); [lia|].
  assert (M0 : mrel [] (Runc [])).
  { split; [|constructor]. intros k q. cbn. split; [intros (s & ? & _); discriminate|intros [[] _]]. }
  assert (D0 : drel g0 (Runc [])).
  { intros k Hk. unfold isDst. pose proof ready as (_ & _ & Hd & _). rewrite Hd. split; [discriminate|intros (q & [] & _)]. }
  pose proof (prep_spec pins nodup_ids pins (incl_refl _) g0 [] [] [] ltac:(intros x []) M0 D0 aps_ok) as P.
  match type of P with context [fold_left prep_pin pins ?x] => change (fold_left prep_pin pins x) with (routeNet_prep g0 pins) in P end.
  destruct (routeNet_prep g0 pins) as [[[g1 unc1] m1] rap1].
  destruct P as (A1 & A2 & A3 & M1 & D1 & F1 & S1).
  assert (Qall : forall q, In q unc1 <-> In q pins) by (intros q; rewrite A2; cbn; tauto).
  destruct (far_pin_spec sd unc1) as (p0 & Ep & Hp0).
  { assumption. }
  { intros p Hp. apply Qall in Hp. apply ready. assumption. }
  { intros Eu. destruct pins as [|p r]; [cbn in Hl; lia|]. assert (In p unc1) by (apply Qall; cbn; auto). rewrite Eu in H0. destruct H0. }
  unfold routeNet_setSrc. rewrite Ep.
  assert (Hp0' : In p0 pins) by (apply Qall; assumption).
  pose proof (setSrc_steps pins nodup_ids p0 (paps p0) Hp0' g1 m1 [] (mkMI (nx g1 - 1) (ny g1 - 1) (nz g1 - 1)) (mkMI 0 0 0) (Runc unc1) M1 D1) as P.
  specialize (P ltac:(intros k q [Hq _]; apply Qall; assumption)
                ltac:(intros a Ha; apply (fr_valid g0 g1 a F1); apply (aps_ok p0); assumption)
                ltac:(intros a []) ltac:(intros a Ha; left; split; assumption)).
  destruct (fold_left (setSrc_step p0) (paps p0) _) as [[[[g2 m2] cc2] c1'] c2'].
  destruct P as (-> & M2 & D2 & F2 & C2). cbn [app] in *.
  assert (E' : forall k q, Runc unc1 k q /\ ~ (In k (paps p0) /\ q = p0) <-> Runc (pset_erase p0 unc1) k q).
  { intros k q. unfold Runc. rewrite (in_pset_erase pins nodup_ids p0 unc1 q A1 Hp0'). intuition. subst. tauto. }
  assert (F02 : fr g0 g2) by (eapply fr_trans; eassumption).
  pose proof (erase_lt p0 unc1 Hp0) as Lt. cbn in A3.
  eexists rap1, _. split; [reflexivity|]. split; [|split; [cbn [rsunc]; lia|reflexivity]].
  constructor; cbn [rsg rsunc rsmap rscc rsfirst rsfigs rsn].
  - assumption.
  - apply incl_erase. assumption.
  - eapply mrel_ext; [exact E'|assumption].
  - eapply drel_ext; [exact E'|assumption].
  - intros a Ha. destruct (C2 a Ha) as [Va Sa]. split; [apply (fr_valid g0 g2 a F02); assumption|assumption].
  - split; [reflexivity|]. exists p0. split; [assumption|]. split; [reflexivity|]. intros q Hq.
    destruct (pin_dec pins nodup_ids q p0 Hq Hp0') as [->|Hn]; [auto|]. right.
    apply (in_pset_erase pins nodup_ids p0 unc1 q A1 Hp0'). split; [apply Qall; assumption|assumption].
  - lia.
  - constructor.
Qed.

Lemma routeNet_spec n fuel tbfuel : (grid_size g0 <= tbfuel)%nat ->
  match routeNet sd dd E next_ext init_ext pick n fuel tbfuel g0 pins with
  | ROk st => (rsn st <= length pins - 1)%nat /\
     ((exists p, pins = [p] /\ rsfigs st = []) \/ (pins = [] /\ rsfigs st = []) \/
      exists hub pts, tree (rsfigs st) hub pts /\ (forall q, In q pins -> exists a, In a (paps q) /\ In a pts)) /\
     (exists rap, Forall (well_formed g0 rap) (rsfigs st))
  | RFail st => (rsn st <= length pins - 1)%nat
  | RNull _ => False
  | RHang st => Z.of_nat fuel <= Z.of_nat (length (rscc st)) * 7 ^ Z.of_nat (grid_size g0)
  | RMore _ => (n < length pins - 1)%nat
  end.
Proof.
  intros Hf. destruct (Nat.leb_spec (length pins) 1) as [Hl|Hl].
  - unfold routeNet. replace (length pins <=? 1)%nat with true by lia. cbn. split; [lia|].
    split; [|exists []; constructor]. destruct pins as [|p [|q r]]; [right; left; auto|left; exists p; auto|cbn in Hl; lia].
  - destruct (prep_li n fuel tbfuel Hl) as (rap & st & -> & L & Hlt & Hn).
    pose proof (loop_spec rap fuel tbfuel Hf n st L) as H.
    destruct (route_loop dd E next_ext init_ext pick n fuel tbfuel rap st) as [st'|st'|st'|st'|st'].
    + destruct H as [L' Hu]. split; [pose proof (li_cnt _ _ _ _ L'); lia|]. split; [|exists rap; apply (li_wf _ _ _ _ L')].
      right. right. pose proof (li_conn _ _ _ _ L') as C. destruct (rsfirst st').
      * exfalso. destruct C as (_ & p0 & _ & _ & Hq). rewrite Hu in Hq.
        pose proof nodup_ids as N. clear -N Hl Hq.
        destruct pins as [|p [|q r]]; [cbn in Hl; lia|cbn in Hl; lia|]. cbn in N. inversion N as [|x l Hx _]; subst. apply Hx. left.
        destruct (Hq p) as [->|[]]; [cbn; auto|]. destruct (Hq q) as [->|[]]; [cbn; auto|]. reflexivity.
      * destruct C as (hub & pts & T & _ & _ & Hq). exists hub, pts. split; [assumption|]. intros q Hqp.
        destruct (Hq q Hqp) as [Hx|Hx]; [rewrite Hu in Hx; destruct Hx|assumption].
    + destruct H as (L' & _). pose proof (li_cnt _ _ _ _ L'). lia.
    + assumption.
    + apply H.
    + lia.
Qed.
End Top.
