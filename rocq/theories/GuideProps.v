(* C42, C43, C76-C80: routing guides. *)
From Verif Require Import Base Stl GeomModel GCellModel MazeModel TreeModel TreeSpec TreeProofs2 ConnModel GuideModel GuideSpec
  GuideProofs1 GuideProofs2 GuideProofs3 GuideProofs4 GuideProofs5 GuideProofs6 GuideProofs7.

(* ------------------------------------------------------------------ the example used below *)
(* ten by ten gcells of size 10; layers 0..7; layer 2 runs horizontally, layer 4 vertically *)
Definition ex_g : gpat := mkGP 0 10 10.
Definition ex_h (l : Z) : bool := Z.odd (Z.div l 2).
Definition ex_rects : list (Z * box) :=
  [(2, mkBox (mkPt 0 0) (mkPt 10 10)); (4, mkBox (mkPt 0 0) (mkPt 10 30)); (4, mkBox (mkPt 10 20) (mkPt 20 30)); (2, mkBox (mkPt 0 20) (mkPt 10 30))].
Definition ex_pins : list (list loc) := [[(mkPt 0 0, 2)]; [(mkPt 0 2, 2)]; [(mkPt 1 2, 4)]].
Example ex_grid : grid_pos ex_g ex_g. Proof. split; reflexivity. Qed.
Example ex_alternating : alternating ex_h.
Proof. intros l. unfold ex_h. replace (l + 2) with (l + 1 * 2) by lia. rewrite Z.div_add by lia. rewrite Z.odd_add. cbn. destruct (Z.odd (l / 2)); reflexivity. Qed.
Example ex_rects_ok : Forall (rect_ok 8) ex_rects.
Proof. unfold ex_rects. repeat (constructor; [unfold rect_ok; cbn; lia|]). constructor. Qed.

(* ------------------------------------------------------------------ C42 *)
(* before the bridges are added *)
Theorem C42_rectangles_to_intervals xg yg nlay horz rects : grid_pos xg yg -> Forall (rect_ok nlay) rects ->
  (forall k, covered horz (push_rects xg yg horz rects) k <-> meets xg yg rects k) /\ tidy (push_rects xg yg horz rects).
Proof. intros G R. split; [intros k; apply (push_rects_meets xg yg nlay horz); assumption|apply tidy_ok, push_rects_ok]. Qed.
Print Assumptions C42_rectangles_to_intervals.
(* the result: the gcells of the rectangles and, next to gcells k1 and k2 of two touching parallel tracks that no
   guide of a neighbour layer joins, the gcells above them (below them if there is no layer above) *)
Theorem C42_merge_coverage xg yg nlay horz rects v : grid_pos xg yg -> alternating horz -> Forall (rect_ok nlay) rects ->
  genGuides_merge xg yg nlay horz rects = Some v ->
  tidy v /\
  (forall k, meets xg yg rects k -> covered horz v k) /\
  (forall k, covered horz v k -> meets xg yg rects k \/
     exists k1 k2, meets xg yg rects k1 /\ meets xg yg rects k2 /\ across horz k1 k2 /\
       fst k = fst k1 /\ snd k = (if snd k1 + 2 <? nlay then snd k1 + 2 else snd k1 - 2) /\ 0 <= snd k < nlay /\
       covered horz v (fst k2, snd k) /\
       forall d, d = 2 \/ d = -2 -> ~ (meets xg yg rects (fst k1, snd k1 + d) /\ meets xg yg rects (fst k2, snd k2 + d))).
Proof.
  intros G A R M. pose proof (merge_ok xg yg nlay horz rects v M) as Hv. destruct (merge_has xg yg nlay horz rects v M) as (M1 & M2 & _).
  split; [apply tidy_ok; assumption|]. split.
  - intros k H. destruct (met_cell xg yg nlay horz G rects R v M k H) as (l & t & c & -> & _ & _ & H'). apply covered_cell. assumption.
  - intros k H. rewrite <- (cell_back horz k) in H. apply covered_cell in H. set (l' := snd k) in *. set (c := track_of horz l' (fst k)) in *. set (x := pos_of horz l' (fst k)) in *.
    destruct (M2 l' c x H) as [H0|(l & t & Hl & Hn & (e & He & Hrow & _ & _ & Hno) & Hx & Up & B1 & B2)].
    + left. rewrite <- (cell_back horz k). apply (met_has xg yg nlay horz G rects R). assumption.
    + right. set (x' := if x =? t then t - 1 else t).
      assert (Hxx : (x = t /\ x' = t - 1) \/ (x = t - 1 /\ x' = t)) by (unfold x'; zcases; lia).
      pose proof (Hrow c ltac:(lia)) as [C1 C2].
      assert (Fc : forall y l'', nbr nlay l l'' -> fst (cell horz l y c) = cell_at horz l'' c y) by (intros y l'' N; unfold cell; cbn [fst]; symmetry; apply (cell_nbr nlay horz A l l'' y c N)).
      exists (cell horz l x c), (cell horz l x' c).
      split; [apply (met_has xg yg nlay horz G rects R); destruct Hxx as [[-> _]|[-> _]]; assumption|].
      split; [apply (met_has xg yg nlay horz G rects R); destruct Hxx as [[_ ->]|[_ ->]]; assumption|].
      split; [split; [reflexivity|]; unfold cell, cell_at; cbn [fst snd]; destruct (horz l); cbn [px py]; lia|].
      split; [rewrite (Fc x l' Hn); pose proof (cell_back horz k) as E; change (cell horz l' c x = k) in E; transitivity (fst (cell horz l' c x)); [rewrite E; reflexivity|reflexivity]|].
      split; [unfold cell; cbn [snd]; destruct (l + 2 <? nlay) eqn:E2; [apply Up; lia|destruct Hn as [[E | E] Hr]; lia]|].
      split; [apply Hn|]. split; [rewrite (Fc x' l' Hn); apply (covered_cell horz v l' c x'); destruct Hxx as [[_ ->]|[_ ->]]; assumption|].
      intros d Hd [D1 D2]. assert (N : nbr nlay l (l + d)).
      { split; [lia|]. apply (met_layer xg yg nlay rects R _ D1). }
      rewrite (Fc x _ N) in D1. rewrite (Fc x' _ N) in D2. cbn [cell snd] in D1, D2.
      apply (met_has xg yg nlay horz G rects R) in D1, D2. apply (Hno (l + d) c N ltac:(lia)). destruct Hxx as [[E1 E2]|[E1 E2]]; rewrite E1 in D1; rewrite E2 in D2; auto.
Qed.
Print Assumptions C42_merge_coverage.
Example C42_hyps : exists v, genGuides_merge ex_g ex_g 8 ex_h ex_rects = Some v /\ v 4 = [(0, [(0, 2)]); (1, [(2, 2)])] /\ v 6 = [(2, [(0, 1)])].
Proof. eexists. split; [reflexivity|]. split; reflexivity. Qed.

(* ------------------------------------------------------------------ C76 *)
(* gcells k1, k2 of touching parallel guides: somewhere on the stretch they share, a guide of a neighbour layer
   covers the gcells of both *)
Theorem C76_touching_guides_are_bridged xg yg nlay horz rects v : grid_pos xg yg -> alternating horz -> Forall (rect_ok nlay) rects ->
  genGuides_merge xg yg nlay horz rects = Some v ->
  forall k1 k2, meets xg yg rects k1 -> meets xg yg rects k2 -> across horz k1 k2 ->
  exists k1' k2' l', connected (meets xg yg rects) (along horz) k1 k1' /\ connected (meets xg yg rects) (along horz) k2 k2' /\ across horz k1' k2' /\
    (l' = snd k1 + 2 \/ l' = snd k1 - 2) /\ 0 <= l' < nlay /\ covered horz v (fst k1', l') /\ covered horz v (fst k2', l').
Proof.
  intros G A R M k1 k2 H1 H2 X. destruct (met_cell xg yg nlay horz G rects R v M k1 H1) as (l & t & c & -> & Hl & C1 & _).
  destruct (met_cell xg yg nlay horz G rects R v M k2 H2) as (l2 & t' & c2 & -> & _ & C2 & _). apply across_inv in X as (-> & -> & Ht).
  destruct (merge_has xg yg nlay horz rects v M) as (_ & _ & M3).
  assert (B : exists b e c' l', b <= c <= e /\ b <= c' <= e /\ (forall x, b <= x <= e -> iv_has (push_rects xg yg horz rects) l t x /\ iv_has (push_rects xg yg horz rects) l t' x) /\ nbr nlay l l' /\ iv_has v l' c' t /\ iv_has v l' c' t').
  { assert (t' = t - 1 \/ t = t' - 1) as [-> | ->] by lia.
    - destruct (M3 l t c Hl C1 C2) as (b & e & c' & l' & Hb & Hb' & Hr & Hn & B1 & B2). exists b, e, c', l'. auto 10.
    - destruct (M3 l t' c Hl C2 C1) as (b & e & c' & l' & Hb & Hb' & Hr & Hn & B1 & B2). exists b, e, c', l'. repeat split; try lia; try assumption; try apply Hn; destruct (Hr x ltac:(lia)); auto. }
  destruct B as (b & e & c' & l' & Hb & Hb' & Hr & Hn & B1 & B2).
  assert (W : forall tt, (forall x, b <= x <= e -> iv_has (push_rects xg yg horz rects) l tt x) -> connected (meets xg yg rects) (along horz) (cell horz l tt c) (cell horz l tt c')).
  { intros tt Hrow.
    assert (U : forall n, c + Z.of_nat n <= e -> connected (meets xg yg rects) (along horz) (cell horz l tt c) (cell horz l tt (c + Z.of_nat n))).
    { induction n as [|n IH]; intros Hn'; [replace (c + Z.of_nat 0) with c by lia; constructor; apply (met_has xg yg nlay horz G rects R), Hrow; lia|]. econstructor; [apply IH; lia|apply (met_has xg yg nlay horz G rects R), Hrow; lia|apply along_cell; lia]. }
    assert (D : forall n, b <= c - Z.of_nat n -> connected (meets xg yg rects) (along horz) (cell horz l tt c) (cell horz l tt (c - Z.of_nat n))).
    { induction n as [|n IH]; intros Hn'; [replace (c - Z.of_nat 0) with c by lia; constructor; apply (met_has xg yg nlay horz G rects R), Hrow; lia|]. econstructor; [apply IH; lia|apply (met_has xg yg nlay horz G rects R), Hrow; lia|apply along_cell; lia]. }
    destruct (Z_le_gt_dec c c'); [replace c' with (c + Z.of_nat (Z.to_nat (c' - c))) by lia; apply U; lia|replace c' with (c - Z.of_nat (Z.to_nat (c - c'))) by lia; apply D; lia]. }
  exists (cell horz l t c'), (cell horz l t' c'), l'.
  split; [apply W; intros x Hx; apply (Hr x Hx)|]. split; [apply W; intros x Hx; apply (Hr x Hx)|].
  split; [split; [reflexivity|]; unfold cell, cell_at; cbn [fst snd]; destruct (horz l); cbn [px py]; lia|].
  split; [apply Hn|]. split; [apply Hn|].
  unfold cell at 1 2. cbn [fst]. rewrite <- !(cell_nbr nlay horz A l l' _ c' Hn). split; apply (covered_cell horz v l' c'); assumption.
Qed.
Print Assumptions C76_touching_guides_are_bridged.
(* with four layers or more the merge never stops *)
Theorem C76_merge_never_stops xg yg nlay horz rects : 4 <= nlay -> genGuides_merge xg yg nlay horz rects <> None.
Proof. apply merge_some. Qed.
Print Assumptions C76_merge_never_stops.
Example C76_hyps : meets ex_g ex_g ex_rects (mkPt 0 2, 4) /\ meets ex_g ex_g ex_rects (mkPt 1 2, 4) /\ across ex_h (mkPt 0 2, 4) (mkPt 1 2, 4).
Proof.
  split; [exists (4, mkBox (mkPt 0 0) (mkPt 10 30)); split; [cbn; auto|]; split; [reflexivity|]; exists (mkPt 0 20); unfold in_rect; cbn; split; [lia|reflexivity]|].
  split; [exists (4, mkBox (mkPt 10 20) (mkPt 20 30)); split; [cbn; auto|]; split; [reflexivity|]; exists (mkPt 10 20); unfold in_rect; cbn; split; [lia|reflexivity]|].
  split; [reflexivity|]. cbn. lia.
Qed.

(* ------------------------------------------------------------------ C43 *)
(* guides rects and pins: the search finishes; it succeeds exactly when every pin is reached from the first one
   (one pin needs no guide); what it keeps is reached from the first pin inside what it keeps, all pins included *)
Theorem C43_search rects pins va allowFT force : exists n0, forall pick fuel, (n0 <= fuel)%nat -> exists ok K prev,
  genGuides_astar va allowFT pick fuel (buildNodeMap rects pins) (length rects) (length rects + length pins) force = Some (ok, K, prev) /\
  let f := allowFT || force in
  let kept := map snd (filter (fun x => K (fst x)) (numbered rects)) in
  (ok = true <-> length pins = 1%nat \/ forall q, (q < length pins)%nat -> leads va rects (length pins) (pin_cells pins) f (Pn q)) /\
  (ok = true -> length pins <> 1%nat -> forall q, (q < length pins)%nat -> leads va kept (length pins) (pin_cells pins) f (Pn q)) /\
  (forall g, In g kept -> leads va kept (length pins) (pin_cells pins) f (Gd g)).
Proof.
  destruct (astar_spec rects pins va allowFT force) as (n0 & A). exists n0. intros pick fuel Hf.
  destruct (A pick fuel Hf) as (ok & K & prev & E & A1 & A2 & A3 & A4 & A5 & A6 & A7 & A8 & _). exists ok, K, prev. split; [exact E|]. cbv zeta.
  change (map snd (filter (fun x : nat * (Z * box) => K (fst x)) (numbered rects))) with (kept_guides rects K).
  assert (L : forall n, K n = true -> leads va (kept_guides rects K) (length pins) (pin_cells pins) (allowFT || force) (item_of rects n)).
  { intros n Kn. pose proof (within_leads rects pins va allowFT force K n) as H. apply H; [|apply A4; assumption].
    destruct (length pins) eqn:Ep; [|lia]. rewrite (A6 ltac:(lia) n) in Kn. discriminate. }
  assert (P : ok = true -> length pins <> 1%nat -> forall q, (q < length pins)%nat -> leads va (kept_guides rects K) (length pins) (pin_cells pins) (allowFT || force) (Pn q)).
  { intros Ho Hn q Hq. pose proof (L _ (A7 Hn Ho q Hq)) as H. rewrite item_pin in H by lia. replace (length rects + q - length rects)%nat with q in H by lia. exact H. }
  split; [|split; [exact P|]].
  - split; [|intros [H|H]; [exact (A5 H)|exact (A8 H)]]. intros Ho. destruct (Nat.eq_dec (length pins) 1) as [|Hn]; [auto|]. right. intros q Hq.
    specialize (P Ho Hn q Hq). clear -P. induction P; [constructor; assumption|]. econstructor; [eassumption| |eassumption|assumption]. destruct b as [g|?]; [|assumption]. cbn in *. apply kept_in in H as (i & Ei & _). eapply nth_error_In; eauto.
  - intros g Hg. apply kept_in in Hg as (i & Ei & Ki). pose proof (L i Ki) as H. unfold item_of in H. rewrite Ei in H. exact H.
Qed.
Print Assumptions C43_search.

Definition ex_pick (n : nat) (l : list wf) : nat := 0%nat.
Definition ex_run (rects : list (Z * box)) (pins : list (list loc)) := genGuides ex_g ex_g 8 ex_h 2 false ex_pick 100 (fun m => m) rects pins.
(* the example: the search succeeds, and fails without the middle guide *)
Example C43_case :
  (exists r, genGuides_astar 2 false ex_pick 100 (buildNodeMap [(2, mkBox (mkPt 0 0) (mkPt 0 0)); (4, mkBox (mkPt 0 0) (mkPt 0 2)); (2, mkBox (mkPt 0 2) (mkPt 0 2))] [[(mkPt 0 0, 2)]; [(mkPt 0 2, 2)]]) 3 5 false = Some r /\ fst (fst r) = true) /\
  (exists r, genGuides_astar 2 false ex_pick 100 (buildNodeMap [(2, mkBox (mkPt 0 0) (mkPt 0 0)); (2, mkBox (mkPt 0 2) (mkPt 0 2))] [[(mkPt 0 0, 2)]; [(mkPt 0 2, 2)]]) 2 4 false = Some r /\ fst (fst r) = false).
Proof. split; eexists; (split; [vm_compute; reflexivity|reflexivity]). Qed.

(* ------------------------------------------------------------------ C77 *)
(* whatever order the search breaks ties in and the map is walked in *)
Theorem C77_connected_guides_are_accepted xg yg nlay horz va allowFT rects pins walk :
  grid_pos xg yg -> alternating horz -> Forall (rect_ok nlay) rects -> 4 <= nlay ->
  (forall m e, In e (walk m) <-> In e m) ->
  no_stray horz (meets xg yg rects) pins -> pins_joined xg yg horz va rects pins ->
  exists n0, forall pick fuel, (n0 <= fuel)%nat -> genGuides xg yg nlay horz va allowFT pick fuel walk rects pins <> None.
Proof.
  intros G A R Hn W NS PJ. destruct (genGuides_merge xg yg nlay horz rects) as [v|] eqn:M; [|destruct (merge_some xg yg nlay horz rects Hn M)].
  destruct (genGuides_spec xg yg nlay horz va G A rects R v M pins walk W allowFT) as (n0 & H). exists n0. intros pick fuel Hf E. specialize (H pick fuel Hf). rewrite E in H. tauto.
Qed.
Print Assumptions C77_connected_guides_are_accepted.
Ltac met_rect i x y := exists i; split; [cbn; auto 10|]; split; [reflexivity|]; exists (mkPt x y); unfold in_rect; cbn; split; [lia|reflexivity].
Lemma ex_m1 : meets ex_g ex_g ex_rects (mkPt 0 0, 2). Proof. met_rect (2, mkBox (mkPt 0 0) (mkPt 10 10)) 0 0. Qed.
Lemma ex_m2 : meets ex_g ex_g ex_rects (mkPt 0 0, 4). Proof. met_rect (4, mkBox (mkPt 0 0) (mkPt 10 30)) 0 0. Qed.
Lemma ex_m3 : meets ex_g ex_g ex_rects (mkPt 0 1, 4). Proof. met_rect (4, mkBox (mkPt 0 0) (mkPt 10 30)) 0 10. Qed.
Lemma ex_m4 : meets ex_g ex_g ex_rects (mkPt 0 2, 4). Proof. met_rect (4, mkBox (mkPt 0 0) (mkPt 10 30)) 0 20. Qed.
Lemma ex_m5 : meets ex_g ex_g ex_rects (mkPt 0 2, 2). Proof. met_rect (2, mkBox (mkPt 0 20) (mkPt 10 30)) 0 20. Qed.
Lemma ex_m6 : meets ex_g ex_g ex_rects (mkPt 1 2, 4). Proof. met_rect (4, mkBox (mkPt 10 20) (mkPt 20 30)) 10 20. Qed.
Lemma ex_all k : meets ex_g ex_g ex_rects k -> In k [(mkPt 0 0, 2); (mkPt 0 0, 4); (mkPt 0 1, 4); (mkPt 0 2, 4); (mkPt 0 2, 2); (mkPt 1 2, 4)].
Proof.
  intros (r & Hr & M). pose proof ex_rects_ok as R. rewrite Forall_forall in R. apply (rcell_meets ex_g ex_g 8 ex_h r k ex_grid (R r Hr)) in M. destruct k as [[x y] l]. destruct M as (El & Hx & Hy). cbn [fst snd px py] in *.
  destruct Hr as [<-|[<-|[<-|[<-|[]]]]]; cbn in El, Hx, Hy; subst l.
  - assert (x = 0) as -> by lia. assert (y = 0) as -> by lia. cbn; auto.
  - assert (x = 0) as -> by lia. assert (y = 0 \/ y = 1 \/ y = 2) as [-> | [-> | ->]] by lia; cbn; auto 10.
  - assert (x = 1) as -> by lia. assert (y = 2) as -> by lia. cbn; auto 10.
  - assert (x = 0) as -> by lia. assert (y = 2) as -> by lia. cbn; auto 10.
Qed.
Lemma ex_path2 : connected (meets ex_g ex_g ex_rects) (rect_step ex_h 2) (mkPt 0 0, 2) (mkPt 0 2, 4).
Proof.
  eapply con_step; [eapply con_step; [eapply con_step; [constructor; exact ex_m1|exact ex_m2|]|exact ex_m3|]|exact ex_m4|].
  - right. split; [reflexivity|cbn; lia].
  - left. split; [cbn; lia|]. left. split; [reflexivity|]. cbn. lia.
  - left. split; [cbn; lia|]. left. split; [reflexivity|]. cbn. lia.
Qed.
Example C77_hyps : no_stray ex_h (meets ex_g ex_g ex_rects) ex_pins /\ pins_joined ex_g ex_g ex_h 2 ex_rects ex_pins.
Proof.
  split.
  - intros k M. assert (U : forall k0 k', stacked k0 k' -> meets ex_g ex_g ex_rects k0 -> meets ex_g ex_g ex_rects k' -> exists k2, connected (meets ex_g ex_g ex_rects) (along ex_h) k0 k2 /\ ((exists q, pin_cells ex_pins q k2) \/ (exists k'', meets ex_g ex_g ex_rects k'' /\ stacked k2 k''))).
    { intros k0 k' S M0 M'. exists k0. split; [constructor; assumption|]. right. eauto. }
    pose proof (ex_all k M) as H. destruct H as [<-|[<-|[<-|[<-|[<-|[<-|[]]]]]]].
    + apply (U _ (mkPt 0 0, 4)); [split; [reflexivity|cbn; lia]|exact ex_m1|exact ex_m2].
    + apply (U _ (mkPt 0 0, 2)); [split; [reflexivity|cbn; lia]|exact ex_m2|exact ex_m1].
    + exists (mkPt 0 2, 4). split; [eapply con_step; [constructor; exact ex_m3|exact ex_m4|split; [reflexivity|cbn; lia]]|]. right. exists (mkPt 0 2, 2). split; [exact ex_m5|]. split; [reflexivity|cbn; lia].
    + apply (U _ (mkPt 0 2, 2)); [split; [reflexivity|cbn; lia]|exact ex_m4|exact ex_m5].
    + apply (U _ (mkPt 0 2, 4)); [split; [reflexivity|cbn; lia]|exact ex_m5|exact ex_m4].
    + exists (mkPt 1 2, 4). split; [constructor; exact ex_m6|]. left. exists 2%nat, [(mkPt 1 2, 4)]. cbn. auto.
  - intros q Hq. cbn in Hq. exists (mkPt 0 0, 2).
    assert (P0 : pin_cells ex_pins 0 (mkPt 0 0, 2)) by (eexists; split; [reflexivity|cbn; auto]).
    destruct q as [|[|[|q]]]; [| | |lia].
    + exists (mkPt 0 0, 2). split; [assumption|]. split; [assumption|]. constructor. exact ex_m1.
    + exists (mkPt 0 2, 2). split; [assumption|]. split; [eexists; split; [reflexivity|cbn; auto]|]. eapply con_step; [exact ex_path2|exact ex_m5|]. right. split; [reflexivity|cbn; lia].
    + exists (mkPt 1 2, 4). split; [assumption|]. split; [eexists; split; [reflexivity|cbn; auto]|]. eapply con_step; [exact ex_path2|exact ex_m6|]. left. split; [cbn; lia|]. right. split; [reflexivity|]. cbn. lia.
Qed.
(* a guide that touches no other guide and no pin stops the program although the pins are connected *)
Theorem C77_stray_guide_refuted : exists rects pins,
  Forall (rect_ok 8) rects /\ pins_joined ex_g ex_g ex_h 2 rects pins /\ ex_run rects pins = None /\ exists r, ex_run (tl rects) pins = Some r.
Proof.
  exists ((6, mkBox (mkPt 80 80) (mkPt 90 90)) :: ex_rects), ex_pins. split; [constructor; [unfold rect_ok; cbn; lia|exact ex_rects_ok]|]. split.
  - intros q Hq. destruct (proj2 C77_hyps q Hq) as (k0 & k & P0 & P & C). exists k0, k. split; [assumption|]. split; [assumption|].
    assert (S : forall k, meets ex_g ex_g ex_rects k -> meets ex_g ex_g ((6, mkBox (mkPt 80 80) (mkPt 90 90)) :: ex_rects) k) by (intros k1 (r & Hr & M); exists r; split; [right; assumption|assumption]).
    clear - C S. induction C; [constructor; auto|econstructor; eauto].
  - split; [vm_compute; reflexivity|eexists; vm_compute; reflexivity].
Qed.
Print Assumptions C77_stray_guide_refuted.

(* ------------------------------------------------------------------ C78 *)
Theorem C78_written_guides xg yg nlay horz va allowFT rects pins walk v :
  grid_pos xg yg -> alternating horz -> Forall (rect_ok nlay) rects ->
  (forall m e, In e (walk m) <-> In e m) ->
  genGuides_merge xg yg nlay horz rects = Some v ->
  exists n0, forall pick fuel out recs, (n0 <= fuel)%nat -> genGuides xg yg nlay horz va allowFT pick fuel walk rects pins = Some (out, recs) ->
  exists ft, guides_ok horz va v pins ft out recs /\
    (* pins other than the first carry connections only where that is allowed or the guides leave no choice *)
    (ft = true -> allowFT = true \/ ~ pins_joined xg yg horz va rects pins) /\
    (ft = false -> length pins <> 1%nat -> forall q, (0 < q < length pins)%nat ->
       exists k0 k, In (0%nat, k0) recs /\ In (q, k) recs /\ connected (covered horz v) (fun a b => along horz a b \/ stacked a b) k0 k).
Proof.
  intros G A R W M. destruct (genGuides_spec xg yg nlay horz va G A rects R v M pins walk W allowFT) as (n0 & H). exists n0. intros pick fuel out recs Hf E. specialize (H pick fuel Hf). rewrite E in H.
  destruct H as (f & Ok & F). exists f. split; [assumption|]. split; [assumption|]. intros -> Hn q Hq. destruct Ok as (O1 & O2 & _).
  pose proof (leads_con horz va v out (fun g Hg => proj1 (O1 g Hg)) (length pins) (fun q k => In (q, k) recs) (Pn q) (O2 Hn q ltac:(lia))) as L.
  destruct q as [|q]; [lia|]. destruct L as (k0 & k & T0 & T & C). exists k0, k. split; [assumption|]. split; [assumption|exact C].
Qed.
Print Assumptions C78_written_guides.
(* the first guide of layer 4 is cut at the pin's gcell, the bridge is on layer 6 *)
Example C78_case : ex_run ex_rects ex_pins =
  Some ([(2, mkBox (mkPt 0 0) (mkPt 0 0)); (2, mkBox (mkPt 0 2) (mkPt 0 2)); (4, mkBox (mkPt 0 0) (mkPt 0 2)); (4, mkBox (mkPt 1 2) (mkPt 1 2)); (6, mkBox (mkPt 0 2) (mkPt 1 2))],
        [(0%nat, (mkPt 0 0, 2)); (1%nat, (mkPt 0 2, 2)); (2%nat, (mkPt 1 2, 4))]).
Proof. vm_compute. reflexivity. Qed.

(* ------------------------------------------------------------------ C79 *)
(* shape b of a pin on layer l *)
Theorem C79_pin_shape_gcells xg yg horz die nonpref l b : grid_pos xg yg -> bleft b <= bright b -> bbottom b <= btop b ->
  let cells := pin_rect_cells xg yg horz die nonpref l b in
  let own := gcell_box die xg yg (gcell_idx xg yg (ll b)) in
  (* every gcell with a point of the shape *)
  (forall p, bleft b <= px p <= bright b -> bbottom b <= py p <= btop b -> In (gcell_idx xg yg p, l) cells) /\
  (* and no other, except that the gcells left and below count as touched too ... *)
  (forall k, In k cells -> snd k = l /\ exists p, bleft b - 1 <= px p <= bright b /\ bbottom b - 1 <= py p <= btop b /\ gcell_idx xg yg p = fst k) /\
  (* ... but not diagonally, nor across the routing direction if that cannot be routed, when the shape only abuts *)
  (ll b = ll own -> forall k, In k cells -> px (gcell_idx xg yg (ll b)) <= px (fst k) \/ py (gcell_idx xg yg (ll b)) <= py (fst k)) /\
  (nonpref = false -> horz l = false -> bleft b = bleft own -> forall k, In k cells -> px (gcell_idx xg yg (ll b)) <= px (fst k)) /\
  (nonpref = false -> horz l = true -> bbottom b = bbottom own -> forall k, In k cells -> py (gcell_idx xg yg (ll b)) <= py (fst k)).
Proof.
  intros [Gx Gy] Bx By cells own. split; [intros p Hx Hy; apply in_pin_cells; assumption|]. split.
  - intros k H. destruct (pin_cells_in xg yg horz die nonpref l b k H) as (E & Hx & Hy). split; [assumption|].
    destruct (idx1_between horz xg (bleft b - 1) (px (fst k)) Gx (Z.to_nat (bright b - bleft b + 1))) as (x & Rx & Ex); [replace (bleft b - 1 + Z.of_nat (Z.to_nat (bright b - bleft b + 1))) with (bright b) by lia; assumption|].
    destruct (idx1_between horz yg (bbottom b - 1) (py (fst k)) Gy (Z.to_nat (btop b - bbottom b + 1))) as (y & Ry & Ey); [replace (bbottom b - 1 + Z.of_nat (Z.to_nat (btop b - bbottom b + 1))) with (btop b) by lia; assumption|].
    exists (mkPt x y). cbn [px py]. split; [lia|]. split; [lia|]. unfold gcell_idx. cbn [px py]. rewrite Ex, Ey. destruct (fst k); reflexivity.
  - assert (N : forall k, In k cells -> _) by exact (fun k H => pin_cells_not xg yg horz die nonpref l b k Gx Gy H). fold own in N.
    split; [|split].
    + intros E k H. apply (N k H). exact E.
    + intros E1 E2 E3 k H. apply (N k H); assumption.
    + intros E1 E2 E3 k H. apply (N k H); assumption.
Qed.
Print Assumptions C79_pin_shape_gcells.
(* a shape at the lower-left corner of gcell (1, 1): the gcell to its left counts on a horizontal layer, the one below does not *)
Example C79_case : pin_rect_cells ex_g ex_g ex_h (mkBox (mkPt 0 0) (mkPt 100 100)) false 2 (mkBox (mkPt 10 10) (mkPt 14 12)) = [(mkPt 0 1, 2); (mkPt 1 1, 2)].
Proof. vm_compute. reflexivity. Qed.

(* ------------------------------------------------------------------ C80 *)
(* with feed-through off and connected guides, every other pin is joined to the first through gcells of guides
   only.  Missing: "the guides written are joined among themselves", which is false, see below *)
Theorem C80_no_feed_through_partial xg yg nlay horz va rects pins walk v :
  grid_pos xg yg -> alternating horz -> Forall (rect_ok nlay) rects ->
  (forall m e, In e (walk m) <-> In e m) ->
  genGuides_merge xg yg nlay horz rects = Some v -> pins_joined xg yg horz va rects pins -> length pins <> 1%nat ->
  exists n0, forall pick fuel out recs, (n0 <= fuel)%nat -> genGuides xg yg nlay horz va false pick fuel walk rects pins = Some (out, recs) ->
  forall q, (0 < q < length pins)%nat ->
    exists k0 k, In (0%nat, k0) recs /\ In (q, k) recs /\ connected (covered horz v) (fun a b => along horz a b \/ stacked a b) k0 k.
Proof.
  intros G A R W M PJ Hn. destruct (C78_written_guides xg yg nlay horz va false rects pins walk v G A R W M) as (n0 & H). exists n0. intros pick fuel out recs Hf E q Hq.
  destruct (H pick fuel out recs Hf E) as (f & _ & F1 & F2). destruct f; [destruct (F1 eq_refl) as [?|N]; [discriminate|tauto]|]. apply F2; auto.
Qed.
Print Assumptions C80_no_feed_through_partial.
(* the first pin has gcells in two separate groups of guides: both groups are written, each tied to the first
   pin, although nothing but the pin joins them *)
Theorem C80_first_pin_refuted : exists rects pins v out recs,
  Forall (rect_ok 8) rects /\ genGuides_merge ex_g ex_g 8 ex_h rects = Some v /\ ex_run rects pins = Some (out, recs) /\
  exists g h, In g out /\ In h out /\ forall k k', g_end g k -> g_end h k' -> ~ connected (covered ex_h v) (fun a b => along ex_h a b \/ across ex_h a b \/ stacked a b) k k'.
Proof.
  exists [(2, mkBox (mkPt 0 0) (mkPt 10 10)); (2, mkBox (mkPt 50 0) (mkPt 60 10)); (4, mkBox (mkPt 0 0) (mkPt 10 20)); (4, mkBox (mkPt 50 0) (mkPt 60 20))],
    [[(mkPt 0 0, 2); (mkPt 5 0, 2)]; [(mkPt 0 1, 4)]; [(mkPt 5 1, 4)]].
  eexists _, _, _. split; [repeat (constructor; [unfold rect_ok; cbn; lia|]); constructor|]. split; [reflexivity|]. split; [vm_compute; reflexivity|].
  exists (4, mkBox (mkPt 0 0) (mkPt 0 1)), (4, mkBox (mkPt 5 0) (mkPt 5 1)). split; [cbn; auto 10|]. split; [cbn; auto 10|].
  intros k k' [_ Hk] [_ Hk'] C. cbn [ll ur snd] in Hk, Hk'.
  assert (Cov : forall k, covered ex_h (fold_left add_touch [] (push_rects ex_g ex_g ex_h [(2, mkBox (mkPt 0 0) (mkPt 10 10)); (2, mkBox (mkPt 50 0) (mkPt 60 10)); (4, mkBox (mkPt 0 0) (mkPt 10 20)); (4, mkBox (mkPt 50 0) (mkPt 60 20))])) k -> px (fst k) = 0 \/ px (fst k) = 5).
  { intros [p l] H. cbn [fst]. cbn [fold_left] in H. apply (push_rects_meets ex_g ex_g 8 ex_h) in H as (r & Hr & M); [|exact ex_grid|repeat (constructor; [unfold rect_ok; cbn; lia|]); constructor].
    assert (R : rect_ok 8 r) by (destruct Hr as [<-|[<-|[<-|[<-|[]]]]]; unfold rect_ok; cbn; lia). apply (rcell_meets ex_g ex_g 8 ex_h r _ ex_grid R) in M. destruct M as (_ & Hx & _).
    destruct Hr as [<-|[<-|[<-|[<-|[]]]]]; cbn in Hx; lia. }
  assert (I : px (fst k') = 0).
  { clear Hk'. induction C as [H|k1 k2 C IH H2 S]; [destruct Hk as [-> | ->]; reflexivity|].
    pose proof (Cov _ H2) as P2. destruct S as [[_ S]|[[_ S]|[S _]]]; [| |rewrite <- S; assumption]; destruct (ex_h (snd k1)); lia. }
  destruct Hk' as [E|E]; rewrite E in I; discriminate.
Qed.
Print Assumptions C80_first_pin_refuted.
