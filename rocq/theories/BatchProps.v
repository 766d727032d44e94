(* C37-C39, C73, C74: clips, parallel groups, thread schedules. *)
From Verif Require Import Base GeomModel GeomSpec GCellModel GCellSpec GCellProofs
  BatchModel BatchSpec BatchProofs BatchProofs2.
From Coq Require Import Permutation.

(* C37: the clips tile the die *)
Theorem C37_clips_tile_die die xg yg size offset :
  grid_ok die xg yg -> offset_ok size offset ->
  (forall p, in_box p die -> exists c, In c (clips xg yg offset size) /\ in_box p (route_box die xg yg size c)) /\
  (forall c, In c (clips xg yg offset size) -> box_within (route_box die xg yg size c) die) /\
  (forall c c', In c (clips xg yg offset size) -> In c' (clips xg yg offset size) -> c <> c' ->
     no_common_interior (route_box die xg yg size c) (route_box die xg yg size c')).
Proof.
  intros H [Hs Ho]. split; [|split].
  - intros p Hp. destruct (gcell_in_clip die xg yg offset size (gcell_idx xg yg p) H Hs Ho (gcell_idx_ok die xg yg p H)) as (c & Hc & Hin).
    exists c. split; [assumption|]. apply Hin. apply gcell_box_contains; assumption.
  - intros c Hc. apply clips_in in Hc; [|assumption]. intros p.
    apply (route_in_die die xg yg offset size c H Hs ltac:(lia) Hc).
  - intros c c' Hc Hc' Hne x2 y2. apply clips_in in Hc, Hc'; [|assumption..].
    apply (clips_disjoint die xg yg offset size c c' H Hs ltac:(lia) Hc Hc' Hne).
Qed.
Print Assumptions C37_clips_tile_die.

(* every gcell belongs to one clip, and to no other unless the gcell is degenerate *)
Theorem C37_gcell_in_one_clip die xg yg size offset idx :
  grid_ok die xg yg -> offset_ok size offset -> idx_ok xg yg idx ->
  exists c, In c (clips xg yg offset size) /\
    box_within (gcell_box die xg yg idx) (route_box die xg yg size c) /\
    forall c', In c' (clips xg yg offset size) -> solid (gcell_box die xg yg idx) ->
      box_within (gcell_box die xg yg idx) (route_box die xg yg size c') -> c' = c.
Proof.
  intros H [Hs Ho] Hi.
  destruct (gcell_in_clip die xg yg offset size idx H Hs Ho Hi) as (c & Hc & Hin).
  exists c. split; [assumption|]. split; [exact Hin|]. intros c' Hc' [Sx Sy] Hin'.
  assert (Hdec : {c' = c} + {c' <> c}).
  { decide equality; try apply Z.eq_dec; apply Nat.eq_dec. }
  destruct Hdec as [|Hne]; [assumption|exfalso].
  set (b := gcell_box die xg yg idx) in *.
  assert (Hn : forall r, box_within b r -> in_interior2 (px (ll b) + px (ur b)) (py (ll b) + py (ur b)) r).
  { intros r Hr. destruct (Hr (ll b)) as [? ?]; [unfold in_box; lia|].
    destruct (Hr (ur b)) as [? ?]; [unfold in_box; lia|]. unfold in_interior2. lia. }
  apply clips_in in Hc, Hc'; [|assumption..].
  exact (clips_disjoint die xg yg offset size c' c H Hs ltac:(lia) Hc' Hc Hne _ _ (Hn _ Hin') (Hn _ Hin)).
Qed.
Print Assumptions C37_gcell_in_one_clip.

(* every clip is run exactly once, in a group of 1 to 1024 clips *)
Theorem C37_each_clip_run_once xg yg size offset :
  Permutation (clips xg yg offset size) (concat (groups xg yg offset size)) /\
  NoDup (concat (groups xg yg offset size)) /\
  forall g, In g (groups xg yg offset size) -> g <> [] /\ (length g <= 1024)%nat.
Proof.
  split; [apply groups_perm|]. split.
  - eapply Permutation_NoDup; [apply groups_perm|apply clips_nodup].
  - intros g Hg. destruct (groups_good _ _ _ _ _ Hg) as (H1 & H2 & _). auto.
Qed.
Print Assumptions C37_each_clip_run_once.

(* the total used for the progress report is the number of clips run *)
Theorem C37_announced_total xg yg size offset :
  offset_ok size offset -> 1 <= gcount xg -> 1 <= gcount yg ->
  Z.of_nat (length (concat (groups xg yg offset size))) = announced_total xg yg offset size.
Proof.
  intros [Hs Ho] Hx Hy. rewrite <- (Permutation_length (groups_perm xg yg offset size)).
  unfold clips. rewrite number_clips_length, !number_length, Nat2Z.inj_mul, !loop_starts_length by lia.
  reflexivity.
Qed.
Print Assumptions C37_announced_total.

(* every pass that detailed routing runs uses an admissible clip size and offset *)
Theorem C37_main_passes_admissible s o : In (s, o) main_passes -> offset_ok s o.
Proof.
  unfold main_passes, seven_offsets. cbn [app].
  intro H. unfold offset_ok.
  repeat (destruct H as [E|H]; [inversion E; subst; lia|]). destruct H.
Qed.
Print Assumptions C37_main_passes_admissible.

(* with a positive offset the first gcells belong to no clip *)
Theorem C37_positive_offset_refuted :
  exists die xg yg size offset p, grid_ok die xg yg /\ 0 < size /\ in_box p die /\
    forall c, In c (clips xg yg offset size) -> ~ in_box p (route_box die xg yg size c).
Proof.
  exists (mkBox (mkPt 0 0) (mkPt 30 30)), (mkGP 0 10 3), (mkGP 0 10 3), 2, 1, (mkPt 5 5).
  split; [unfold grid_ok, axis_ok; cbn; lia|]. split; [lia|]. split; [unfold in_box; cbn; lia|].
  intros c Hc. assert (E : clips (mkGP 0 10 3) (mkGP 0 10 3) 1 2 = [mkClip 1 1 0 0]) by reflexivity.
  rewrite E in Hc. destruct Hc as [<-|[]]. vm_compute. intros [[H _] _]. apply H; reflexivity.
Qed.
Print Assumptions C37_positive_offset_refuted.

(* C38 *)
Theorem C38_parallel_clips_apart die xg yg size offset g c c' :
  grid_ok die xg yg -> offset_ok size offset ->
  In g (groups xg yg offset size) -> In c g -> In c' g -> c <> c' ->
  apart (size * gspacing xg) (size * gspacing yg) (route_box die xg yg size c) (route_box die xg yg size c') /\
  no_common_point (route_box die xg yg size c) (route_box die xg yg size c').
Proof.
  intros H [Hs Ho] Hg Hc Hc' Hne.
  assert (A : apart (size * gspacing xg) (size * gspacing yg) (route_box die xg yg size c) (route_box die xg yg size c'))
    by exact (parallel_apart die xg yg offset size g c c' H Hs ltac:(lia) Hg Hc Hc' Hne).
  split; [exact A|]. intros p [P1 P2] [Q1 Q2].
  assert (0 < gspacing xg) by apply H. assert (0 < gspacing yg) by apply H.
  unfold apart, bleft, bright, bbottom, btop in A.
  assert (0 < size * gspacing xg) by nia. assert (0 < size * gspacing yg) by nia. lia.
Qed.
Print Assumptions C38_parallel_clips_apart.

(* the areas read by parallel workers are disjoint as well when a clip is wider than twice the margin *)
Theorem C38_extended_boxes_apart die xg yg size offset g c c' :
  grid_ok die xg yg -> offset_ok size offset ->
  2 * 2000 < size * gspacing xg -> 2 * 2000 < size * gspacing yg ->
  In g (groups xg yg offset size) -> In c g -> In c' g -> c <> c' ->
  no_common_point (ext_box die xg yg size c) (ext_box die xg yg size c').
Proof.
  intros H Ho Wx Wy Hg Hc Hc' Hne.
  destruct (C38_parallel_clips_apart die xg yg size offset g c c' H Ho Hg Hc Hc' Hne) as [A _].
  destruct Ho as [Hs Ho].
  pose proof (group_clip _ _ _ _ _ _ Hs Hg Hc) as K. pose proof (group_clip _ _ _ _ _ _ Hs Hg Hc') as K'.
  assert (N : forall c, is_clip xg yg offset size c -> normalised (route_box die xg yg size c)).
  { intros d Hd. unfold normalised, route_box, box_set. cbn. zcases; lia. }
  pose proof (N c K) as [N1 N2]. pose proof (N c' K') as [N3 N4].
  unfold ext_box, box_bloat. intros p. unfold in_box, box_set, MTSAFEDIST.
  unfold apart, bleft, bright, bbottom, btop in *. cbn [ll ur px py].
  intros [P1 P2] [Q1 Q2].
  zcases; lia.
Qed.
Print Assumptions C38_extended_boxes_apart.

(* without that width the read areas of parallel workers can meet *)
Theorem C38_extended_boxes_refuted :
  exists die xg yg size offset g c c' p, grid_ok die xg yg /\ offset_ok size offset /\
    In g (groups xg yg offset size) /\ In c g /\ In c' g /\ c <> c' /\
    in_box p (ext_box die xg yg size c) /\ in_box p (ext_box die xg yg size c').
Proof.
  exists (mkBox (mkPt 0 0) (mkPt 9000 9000)), (mkGP 0 1000 9), (mkGP 0 1000 9), 3, 0,
    [mkClip 0 0 0 0; mkClip 0 6 0 2; mkClip 6 0 2 0; mkClip 6 6 2 2], (mkClip 0 0 0 0), (mkClip 0 6 0 2), (mkPt 0 4500).
  split; [unfold grid_ok, axis_ok; cbn; lia|]. split; [unfold offset_ok; lia|].
  split; [vm_compute; left; reflexivity|]. split; [left; reflexivity|]. split; [right; left; reflexivity|].
  split; [discriminate|]. split; vm_compute; repeat split; discriminate.
Qed.
Print Assumptions C38_extended_boxes_refuted.

(* C39: workers of any kind, any interleaving *)
Theorem C39_schedule_independent (D L : Type) (w_init : clip -> L) (w_step : D -> L -> option L) (w_end : L -> D -> D)
    xg yg size offset d d1 d2 :
  pass_exec w_init w_step w_end d (groups xg yg offset size) d1 ->
  pass_exec w_init w_step w_end d (groups xg yg offset size) d2 -> d1 = d2.
Proof. exact (fun H1 H2 => pass_det D L clip w_init w_step w_end d _ d1 H1 d2 H2). Qed.
Print Assumptions C39_schedule_independent.

(* the parallel phase of a group leaves every worker as if it had run alone on the same design *)
Theorem C39_workers_as_if_alone (D L C : Type) (w_init : C -> L) (w_step : D -> L -> option L) d (g : list C) ls :
  par_run w_step d (map w_init g) ls -> all_done w_step d ls ->
  Forall2 (fun c l => runs_alone w_step d (w_init c) l) g ls.
Proof.
  intros R A. pose proof (par_alone D L w_step d _ _ R A) as F. clear R A.
  remember (map w_init g) as m eqn:E. revert g E. induction F as [|a b m' ls' Hab F IH]; intros g E.
  - destruct g; [constructor|discriminate].
  - destruct g as [|c g]; [discriminate|]. cbn in E. inversion E; subst. constructor; [exact Hab|]. apply IH; reflexivity.
Qed.
Print Assumptions C39_workers_as_if_alone.

(* if every worker returns when run alone, then no schedule of a group runs forever or gets stuck:
   all complete schedules have the same length, and every incomplete one can be continued *)
Theorem C39_schedules_finish (D L C : Type) (w_init : C -> L) (w_step : D -> L -> option L) d (g : list C) :
  (forall c, In c g -> exists l, runs_alone w_step d (w_init c) l) ->
  exists N, forall n ls, par_steps w_step d n (map w_init g) ls ->
    (n <= N)%nat /\ (n = N <-> all_done w_step d ls) /\
    exists ls', par_run w_step d ls ls' /\ all_done w_step d ls'.
Proof.
  intro H.
  destruct (works_exist D L w_step d (map w_init g)) as [ns Hns].
  { intros l Hl. apply in_map_iff in Hl as (c & <- & Hc). auto. }
  exists (list_sum ns). intros n ls Hp.
  destruct (par_steps_left D L w_step (fun _ x => x) d n _ _ Hp ns Hns) as (ns' & H' & E).
  split; [lia|]. split.
  - rewrite <- (works_done D L w_step (fun _ x => x) d ns' ls H'). lia.
  - apply par_complete. intros l Hl.
    clear - H' Hl. induction H' as [|n a ns ls Hn Hf IH]; [destruct Hl|].
    destruct Hl as [<-|Hl]; [|auto]. destruct Hn as (b & Hb & E). exists b.
    eapply steps_alone; [exact Hb|]. apply alone_done. exact E.
Qed.
Print Assumptions C39_schedules_finish.

(* C73: track assignment panels *)
Theorem C73_panels_tile_die die xg yg size offset :
  grid_ok die xg yg -> offset_ok size offset ->
  let hs := loop_starts offset (gcount yg) size in
  let vs := loop_starts offset (gcount xg) size in
  (forall p, in_box p die ->
     (exists i, In i hs /\ in_box p (panel_box_h die xg yg size i)) /\
     (exists i, In i vs /\ in_box p (panel_box_v die xg yg size i))) /\
  (forall i j, In i hs -> In j hs -> i <> j ->
     no_common_interior (panel_box_h die xg yg size i) (panel_box_h die xg yg size j)) /\
  (forall i j, In i vs -> In j vs -> i <> j ->
     no_common_interior (panel_box_v die xg yg size i) (panel_box_v die xg yg size j)).
Proof.
  intros H [Hs Ho] hs vs. pose proof H as [Hx Hy]. split; [|split].
  - intros p [Px Py]. unfold bleft, bright, bbottom, btop in *. split.
    + destruct (panel_point yg _ _ offset size (py p) Hy Hs Ho Py) as (i & Hi & B).
      exists i. split; [exact Hi|]. pose proof (start_bounds offset _ size i Hs ltac:(lia) Hi).
      rewrite panel_h_eq by (assumption || lia). split; cbn [ll ur px py]; [exact Px|exact B].
    + destruct (panel_point xg _ _ offset size (px p) Hx Hs Ho Px) as (i & Hi & B).
      exists i. split; [exact Hi|]. pose proof (start_bounds offset _ size i Hs ltac:(lia) Hi).
      rewrite panel_v_eq by (assumption || lia). split; cbn [ll ur px py]; [exact B|exact Py].
  - intros i j Hi Hj Hne x2 y2.
    pose proof (start_bounds offset _ size i Hs ltac:(lia) Hi). pose proof (start_bounds offset _ size j Hs ltac:(lia) Hj).
    rewrite !panel_h_eq by (assumption || lia). unfold in_interior2; cbn [ll ur px py].
    pose proof (panel_apart yg _ _ offset size i j Hy Hs ltac:(lia) Hi Hj Hne). lia.
  - intros i j Hi Hj Hne x2 y2.
    pose proof (start_bounds offset _ size i Hs ltac:(lia) Hi). pose proof (start_bounds offset _ size j Hs ltac:(lia) Hj).
    rewrite !panel_v_eq by (assumption || lia). unfold in_interior2; cbn [ll ur px py].
    pose proof (panel_apart xg _ _ offset size i j Hx Hs ltac:(lia) Hi Hj Hne). lia.
Qed.
Print Assumptions C73_panels_tile_die.

Theorem C73_each_panel_run_once offset size count : 0 < size ->
  concat (ta_groups (loop_starts offset count size)) = loop_starts offset count size /\
  NoDup (loop_starts offset count size) /\
  forall g, In g (ta_groups (loop_starts offset count size)) -> g <> [] /\ (length g <= 8)%nat.
Proof.
  intro Hs. split; [|split].
  - unfold ta_groups. rewrite fold_push_concat by (unfold BATCHSIZETA; lia). reflexivity.
  - apply loop_starts_nodup; assumption.
  - unfold ta_groups. apply (fold_push_good BATCHSIZETA); [unfold BATCHSIZETA; lia|]. intros g [].
Qed.
Print Assumptions C73_each_panel_run_once.

(* C74: panels run one after another (one thread) against groups run in parallel (more threads) *)
Theorem C74_thread_count_partial (D L C : Type) (w_init : C -> L) (w_step : D -> L -> option L) (w_end : L -> D -> D)
    (panels : list C) d d1 d2 :
  (forall d c l c' l', In c panels -> In c' panels ->
     runs_alone w_step d (w_init c) l -> runs_alone w_step d (w_init c') l' ->
     runs_alone w_step (w_end l d) (w_init c') l') ->
  one_by_one w_init w_step w_end d panels d1 ->
  pass_exec w_init w_step w_end d (ta_groups panels) d2 -> d1 = d2.
Proof.
  intros Hind H1 H2.
  assert (E : panels = concat (ta_groups panels))
    by (unfold ta_groups; rewrite fold_push_concat by (unfold BATCHSIZETA; lia); reflexivity).
  assert (Hin : incl (concat (ta_groups panels)) panels) by (rewrite <- E; apply incl_refl).
  rewrite E in H1. revert d1 H1. revert Hin.
  clear E. induction H2 as [d|d g gs ls d2 R A P IH]; intros Hin d1 H1; cbn [concat] in *.
  - inversion H1; reflexivity.
  - apply IH; [intros x Hx; apply Hin; apply in_app_iff; right; exact Hx|].
    pose proof (C39_workers_as_if_alone D L C w_init w_step d g ls R A) as F.
    assert (Hg : incl g panels) by (intros x Hx; apply Hin; apply in_app_iff; left; exact Hx).
    clear - F Hg H1 Hind. revert d F H1. revert ls. induction g as [|c g IHg]; intros ls d F H1.
    + inversion F; subst. exact H1.
    + inversion F as [|c0 y g0 ls0 Hy Fg]; subst. cbn [app] in H1.
      inversion H1 as [|d0 c0 cs0 l d0' Hl Hr]; subst.
      assert (l = y) by (eapply alone_det; eassumption). subst l.
      cbn [commit_all fold_left]. apply (IHg ltac:(intros x Hx; apply Hg; right; exact Hx) ls0 (w_end y d)); [|exact Hr].
      assert (Hc : In c panels) by (apply Hg; left; reflexivity).
      assert (Hg' : incl g panels) by (intros x Hx; apply Hg; right; exact Hx).
      clear - Fg Hy Hind Hc Hg'. induction Fg; constructor.
      * eapply (Hind d c y); [exact Hc|apply Hg'; left; reflexivity|exact Hy|assumption].
      * apply IHFg. intros z Hz. apply Hg'. right; exact Hz.
Qed.
Print Assumptions C74_thread_count_partial.

(* when a panel reads what another panel of its group writes, one thread and several threads differ *)
Theorem C74_thread_count_refuted :
  exists (D L C : Type) (w_init : C -> L) (w_step : D -> L -> option L) (w_end : L -> D -> D) (panels : list C) d d1 d2,
    one_by_one w_init w_step w_end d panels d1 /\
    pass_exec w_init w_step w_end d (ta_groups panels) d2 /\ d1 <> d2.
Proof.
  exists Z, (option Z), unit, (fun _ => None),
    (fun d l => match l with None => Some (Some d) | Some _ => None end),
    (fun l d => match l with None => d | Some v => v + 1 end), [tt; tt], 0, 2, 1.
  split; [|split; [|discriminate]].
  - eapply obo_cons; [eapply alone_step; [reflexivity|apply alone_done; reflexivity]|].
    eapply obo_cons; [eapply alone_step; [reflexivity|apply alone_done; reflexivity]|]. constructor.
  - change (ta_groups [tt; tt]) with [[tt; tt]].
    apply (pass_cons _ _ _ _ _ _ 0 [tt; tt] [] [Some 0; Some 0] 1).
    + eapply (par_step _ _ _ _ _ 1%nat); [reflexivity|reflexivity|].
      eapply (par_step _ _ _ _ _ 0%nat); [reflexivity|reflexivity|]. constructor.
    + intros l [<-|[<-|[]]]; reflexivity.
    + constructor.
Qed.
Print Assumptions C74_thread_count_refuted.

(* concrete cases *)
Example C37_nonvacuous :
  let die := mkBox (mkPt 0 0) (mkPt 95000 61000) in
  let xg := mkGP 0 3000 31 in let yg := mkGP 0 3000 20 in
  grid_ok die xg yg /\ offset_ok 7 (-5) /\
  length (concat (groups xg yg (-5) 7)) = 24%nat /\ length (groups xg yg (-5) 7) = 4%nat /\
  route_box die xg yg 7 (mkClip (-5) 16 0 3) = mkBox (mkPt 0 48000) (mkPt 6000 61000) /\
  2 * 2000 < 7 * gspacing xg.
Proof.
  cbn zeta. split; [unfold grid_ok, axis_ok; cbn; lia|]. split; [unfold offset_ok; lia|].
  split; [reflexivity|]. split; [reflexivity|]. split; [reflexivity|cbn; lia].
Qed.
(* two workers that each add what they read to the design: a run of one group of two clips *)
Example C39_nonvacuous :
  exists d', pass_exec (fun c : clip => (c_i c, false))
    (fun (d : Z) (l : Z * bool) => if snd l then None else Some (fst l + d, true))
    (fun l d => d + fst l) 10 (groups (mkGP 0 10 3) (mkGP 0 10 1) 0 1) d' /\ d' = 65.
Proof.
  eexists. change (groups (mkGP 0 10 3) (mkGP 0 10 1) 0 1)
    with [[mkClip 0 0 0 0; mkClip 2 0 2 0]; [mkClip 1 0 1 0]]. split.
  - eapply pass_cons with (ls := [(10, true); (12, true)]).
    + eapply (par_step _ _ _ _ _ 1%nat); [reflexivity|reflexivity|].
      eapply (par_step _ _ _ _ _ 0%nat); [reflexivity|reflexivity|]. constructor.
    + intros l [<-|[<-|[]]]; reflexivity.
    + eapply pass_cons with (ls := [(33, true)]).
      * eapply (par_step _ _ _ _ _ 0%nat); [reflexivity|reflexivity|]. constructor.
      * intros l [<-|[]]; reflexivity.
      * constructor.
  - reflexivity.
Qed.
(* panels whose results do not depend on each other meet the hypothesis of C74_thread_count_partial *)
Example C74_nonvacuous :
  let init := fun c : Z => (c, false) in
  let step := fun (d : list Z) (l : Z * bool) => if snd l then None else Some (fst l * 2, true) in
  let fin := fun (l : Z * bool) (d : list Z) => fst l :: d in
  (forall d c l c' l', In c [1;2;3] -> In c' [1;2;3] ->
     runs_alone step d (init c) l -> runs_alone step d (init c') l' -> runs_alone step (fin l d) (init c') l') /\
  one_by_one init step fin [] [1;2;3] [6;4;2].
Proof.
  cbn zeta. split.
  - intros d c l c' l' _ _ _ H. inversion H; subst; [discriminate|]. cbn in *.
    inversion H0; subst. inversion H1; subst; [|discriminate].
    eapply alone_step; [reflexivity|]. apply alone_done. reflexivity.
  - do 3 (eapply obo_cons; [eapply alone_step; [reflexivity|apply alone_done; reflexivity]|]). constructor.
Qed.
