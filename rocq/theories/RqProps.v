(* C144: the index of routed shapes and violations always has exactly what is in the design; no deleted object is used.
   C145: a net changed by a clip is looked at by the next connectivity check. *)
From Verif Require Import Base GeomModel GeomSpec GeomProofs FmSpec ClipModel ClipSpec RqModel RqSpec RqProofs RqProofs2.
From Coq Require Import List Permutation.
Open Scope list_scope.

Section Props.
Variable lw : Z -> Z.
Variable pin_at : Z -> point -> Z -> bool.
Variable manuGrid : Z.
Variable vbox vbox1 : Z -> box.
Variable vcut : Z -> Z.
Variable ord : list ient -> list ient.
Hypothesis ordP : forall l, Permutation (ord l) l.
Variable nets : list Z.
Notation hist := (history lw pin_at manuGrid vbox vbox1 vcut ord nets).
Notation init db := (init_ix vbox vcut db).
Notation start db := (mkD (init db) (mkS mobj [] []) []).

Lemma start_sync db : NoDup (map fst db) -> no_patches db -> dsync vbox vcut (start db).
Proof. intros ND NP. split; [apply init_spec; assumption|]. split; [split; [constructor|apply perm_nil]|intros i m []]. Qed.

(* any history of clips and clean-ups from the design as read *)
Theorem C144_in_step db es d : NoDup (map fst db) -> no_patches db -> Forall event_ok es -> hist es (start db) = Some d ->
  in_step (rshape vbox vcut) ord (d_rt d) /\ in_step mshape ord (d_mk d).
Proof.
  intros ND NP OK E. apply (dsync_step lw pin_at vbox vbox1 vcut ord ordP). exact (history_spec lw pin_at manuGrid vbox vbox1 vcut ord ordP nets es _ d OK (start_sync db ND NP) E).
Qed.

(* the end of a clip never uses a deleted object *)
Theorem C144_write_back_safe db es d c : NoDup (map fst db) -> no_patches db -> Forall event_ok es -> hist es (start db) = Some d ->
  event_ok (EClip c) -> exists d', clip_end lw pin_at manuGrid vbox vcut ord c d = Some d'.
Proof.
  intros ND NP OK E OC. destruct (clip_end_spec lw pin_at manuGrid vbox vbox1 vcut ord ordP c d OC) as (d' & E' & _); [|eauto].
  exact (history_spec lw pin_at manuGrid vbox vbox1 vcut ord ordP nets es _ d OK (start_sync db ND NP) E).
Qed.

(* violations: those that touch the checked area are replaced by the ones found in it *)
Theorem C144_violations_replaced db es d c d' : NoDup (map fst db) -> no_patches db -> Forall event_ok es -> hist es (start db) = Some d ->
  event_ok (EClip c) -> clip_end lw pin_at manuGrid vbox vcut ord c d = Some d' -> c_write c = true -> c_drc c = true ->
  forall m, In m (map snd (s_db mobj (d_mk d'))) <->
    (In m (map snd (s_db mobj (d_mk d))) /\ ~ meets (snd m) (c_drcBox c)) \/ (In m (c_best c) /\ meets (snd m) (c_drcBox c)).
Proof.
  intros ND NP OK E OC E' W D m. assert (DS : dsync vbox vcut d) by (exact (history_spec lw pin_at manuGrid vbox vbox1 vcut ord ordP nets es _ d OK (start_sync db ND NP) E)).
  destruct (clip_end_spec lw pin_at manuGrid vbox vbox1 vcut ord ordP c d OC DS) as (d1 & E1 & _ & _ & _ & M). rewrite E' in E1. injection E1 as <-. rewrite M, W, D. cbn [andb].
  unfold event_ok in OC. destruct OC as (_ & PD & PM). destruct DS as (_ & _ & PP). rewrite in_app_iff. split; intros [H|H].
  - left. apply in_map_iff in H as ([i x] & EQ & H). cbn in EQ. subst x. apply filter_In in H as [I T]. cbn in T. apply negb_true_iff, not_true_iff_false in T. split; [apply in_map_iff; exists (i, m); auto|].
    intros H. apply T. apply touch_spec; [eapply PP; exact I|exact PD|exact H].
  - right. apply filter_In in H as [I O]. split; [exact I|]. apply touch_spec; [apply PM; exact I|exact PD|]. unfold touch. clear - O. unfold box_overlaps in O. revert O. unfold bleft, bright, bbottom, btop. zcases; cbn; intros; try discriminate; lia.
  - left. destruct H as [I T]. apply in_map_iff in I as ([i x] & EQ & I). cbn in EQ. subst x. apply in_map_iff. exists (i, m). split; [reflexivity|]. apply filter_In. split; [exact I|]. cbn. apply negb_true_iff, not_true_iff_false. intros H. apply T.
    apply touch_spec; [eapply PP; exact I|exact PD|exact H].
  - right. destruct H as [I T]. apply filter_In. split; [exact I|]. apply touch_spec in T; [|apply PM; exact I|exact PD]. clear - T. unfold touch in T. unfold box_overlaps. revert T. unfold bleft, bright, bbottom, btop. zcases; cbn; intros; try discriminate; try reflexivity; lia.
Qed.

(* C145 *)
Lemma flags_kept es : Forall is_clip es -> Forall event_ok es -> forall d d', dsync vbox vcut d -> hist es d = Some d' ->
  (forall n, In n (d_mod d) -> In n (d_mod d')) /\ forall n, ~ In n (d_mod d') -> objs n d' = objs n d.
Proof.
  induction es as [|e es IH]; intros C OK d d' D E; [injection E as <-; auto|]. inversion C as [|x l Ce C']; subst. inversion OK as [|x l Oe O']; subst. destruct e as [c|]; [|destruct Ce].
  unfold history in E. rewrite each_cons in E. cbn [event_run] in E. destruct (clip_end_spec lw pin_at manuGrid vbox vbox1 vcut ord ordP c d Oe D) as (d1 & E1 & D1 & M1 & F1 & _). rewrite E1 in E.
  destruct (IH C' O' d1 d' D1 E) as [K1 K2]. split.
  - intros n I. apply K1. rewrite M1. apply in_app_iff. auto.
  - intros n N. rewrite (K2 n N). apply F1. intros I. apply N, K1. rewrite M1. apply in_app_iff. auto.
Qed.
(* whatever happened before, clips flag every net of which they change an object *)
Theorem C145_changed_is_flagged db es d clips d' n : NoDup (map fst db) -> no_patches db -> Forall event_ok es -> hist es (start db) = Some d ->
  Forall is_clip clips -> Forall event_ok clips -> hist clips d = Some d' -> objs n d' <> objs n d -> In n (d_mod d').
Proof.
  intros ND NP OK E C OC E' NE. assert (DS : dsync vbox vcut d) by (exact (history_spec lw pin_at manuGrid vbox vbox1 vcut ord ordP nets es _ d OK (start_sync db ND NP) E)).
  destruct (flags_kept clips C OC d d' DS E') as [_ K]. destruct (in_dec Z.eq_dec n (d_mod d')) as [I|I]; [exact I|]. exfalso. apply NE, K, I.
Qed.

(* the check: flagged nets are cleaned up, the others are not touched, the flags are taken back *)
Lemma edits_frame n es d d' : dsync vbox vcut d -> each (edit_run vbox vbox1 vcut n) es d = Some d' -> dsync vbox vcut d' /\ d_mod d' = d_mod d /\ forall m, m <> n -> objs m d' = objs m d.
Proof.
  intros D E. apply (each_keep (fun d' => dsync vbox vcut d' /\ d_mod d' = d_mod d /\ forall m, m <> n -> objs m d' = objs m d)) in E; [exact E| |auto].
  intros e s s' _ (D1 & M1 & F1) ES. destruct (edit_spec lw pin_at manuGrid vbox vbox1 vcut n e s s' D1 ES) as (D2 & M2 & F2). split; [exact D2|]. split; [congruence|]. intros m NM. unfold objs at 1. rewrite <- (F1 m NM). apply F2. exact NM.
Qed.
Lemma todo_frame edits ns d d' : dsync vbox vcut d -> each (fun n => each (edit_run vbox vbox1 vcut n) (edits n)) ns d = Some d' -> dsync vbox vcut d' /\ forall m, ~ In m ns -> objs m d' = objs m d.
Proof.
  intros D E. apply (each_keep (fun d' => dsync vbox vcut d' /\ forall m, ~ In m ns -> objs m d' = objs m d)) in E; [exact E| |auto].
  intros n s s' I (D1 & F1) ES. destruct (edits_frame n (edits n) s s' D1 ES) as (D2 & _ & F2). split; [exact D2|]. intros m NM. rewrite F2; [apply F1; exact NM|]. intros ->. contradiction.
Qed.
Lemma each_app {A S} (f : A -> S -> option S) l1 l2 s : each f (l1 ++ l2) s = match each f l1 s with Some s => each f l2 s | None => None end.
Proof. revert s. induction l1 as [|a l1 IH]; intros s; [reflexivity|]. cbn [app]. rewrite !each_cons. destruct (f a s); [apply IH|reflexivity]. Qed.
Theorem C145_check db es d edits d' : NoDup (map fst db) -> no_patches db -> Forall event_ok es -> hist es (start db) = Some d -> NoDup nets ->
  check_run vbox vbox1 vcut nets edits d = Some d' ->
  (forall n, In n nets -> ~ In n (d_mod d')) /\
  (forall n, ~ (In n nets /\ In n (d_mod d)) -> objs n d' = objs n d) /\
  (forall n, In n nets -> In n (d_mod d) -> exists d1 d2, objs n d1 = objs n d /\ each (edit_run vbox vbox1 vcut n) (edits n) d1 = Some d2 /\ objs n d' = objs n d2).
Proof.
  intros ND NP OK E NN E'. assert (DS : dsync vbox vcut d) by (exact (history_spec lw pin_at manuGrid vbox vbox1 vcut ord ordP nets es _ d OK (start_sync db ND NP) E)).
  destruct (check_spec lw pin_at manuGrid vbox vbox1 vcut nets edits d d' DS E') as (_ & C1 & C2). split; [exact C1|]. split; [intros n; apply C2|].
  intros n IN IM. unfold check_run in E'. destruct (each _ _ d) as [d3|] eqn:E3; [|discriminate E']. cbn [option_map] in E'. injection E' as <-.
  set (todo := filter (fun n => existsb (Z.eqb n) (d_mod d)) nets) in *.
  assert (IT : In n todo) by (apply filter_In; split; [exact IN|apply existsb_exists; exists n; split; [exact IM|apply Z.eqb_refl]]).
  assert (NT : NoDup todo) by (apply NoDup_filter; exact NN).
  apply in_split in IT as (l1 & l2 & ET). rewrite ET in E3, NT. apply NoDup_remove_2 in NT. rewrite each_app in E3. destruct (each _ l1 d) as [d1|] eqn:E1; [|discriminate E3]. rewrite each_cons in E3.
  destruct (each (edit_run vbox vbox1 vcut n) (edits n) d1) as [d2|] eqn:E2; [|discriminate E3].
  destruct (todo_frame edits l1 d d1 DS E1) as [D1 F1]. destruct (edits_frame n (edits n) d1 d2 D1 E2) as (D2 & _). destruct (todo_frame edits l2 d2 d3 D2 E3) as [_ F3].
  exists d1, d2. split; [apply F1; intros I; apply NT, in_app_iff; auto|]. split; [exact E2|]. unfold objs at 1. cbn [d_rt]. apply F3. intros I. apply NT, in_app_iff. auto.
Qed.
End Props.
Print Assumptions C144_in_step.
Print Assumptions C144_write_back_safe.
Print Assumptions C144_violations_replaced.
Print Assumptions C145_changed_is_flagged.
Print Assumptions C145_check.

(* a wire through a clip that is cut, rerouted in the clip and joined again; a via of another net; a second clip with a
   detour and a violation; a clean-up that splits the wire and deletes a piece with a marker *)
Definition ex_bx (a b c d : Z) : box := mkBox (mkPt a b) (mkPt c d).
Definition ex_st : sstyle := mkSt StTruncate 0 StTruncate 0 10.
Definition ex_seg (l x1 y1 x2 y2 : Z) : fig := FSeg (mkW l (mkPt x1 y1) (mkPt x2 y2) ex_st).
Definition ex_db : list (nat * robj) := [(3%nat, (1, ex_seg 2 0 0 100 0)); (7%nat, (2, FVia (mkPt 40 20) 2 4 5))].
Definition ex_clips : list event :=
  [EClip (mkC true true false (ex_bx 20 (-50) 60 50) (ex_bx 10 (-60) 70 60) [mkSub 1 true [ex_seg 2 20 0 60 0]] []);
   EClip (mkC true false true (ex_bx 30 (-50) 80 50) (ex_bx 20 (-60) 90 60) [mkSub 2 true [FVia (mkPt 50 20) 2 4 5; FPatch (mkPt 50 20) 2 (ex_bx (-8) (-8) 8 8)]; mkSub 1 false []] [(2, ex_bx 42 (-5) 58 12)])].
Definition ex_es : list event :=
  ex_clips ++ [ECheck (fun n => if n =? 1 then [KSplit 8 (mkPt 50 0)] else [KDel true 9]);
   EClip (mkC true false true (ex_bx 0 (-50) 80 50) (ex_bx 0 (-60) 90 10) [mkSub 1 true []] [])].
Definition ex_hist := history (fun _ => 10) (fun _ _ _ => false) 5 (fun _ => ex_bx (-5) (-5) 5 5) (fun _ => ex_bx (-4) (-4) 4 4) (fun _ => 3) (@rev ient) [1; 2].
Example C144_ex :
  NoDup (map fst ex_db) /\ no_patches ex_db /\ Forall event_ok ex_es /\
  exists d1 d2, ex_hist ex_clips (mkD (init_ix (fun _ => ex_bx (-5) (-5) 5 5) (fun _ => 3) ex_db) (mkS mobj [] []) []) = Some d1 /\ objs 2 d1 <> filter (fun o => fst (snd o) =? 2) ex_db /\ d_mod d1 = [2; 1] /\
    map (fun o => snd (snd o)) (objs 1 d1) = [ex_seg 2 0 0 100 0] /\ map snd (s_db mobj (d_mk d1)) = [(2, ex_bx 42 (-5) 58 12)] /\
    ex_hist ex_es (mkD (init_ix (fun _ => ex_bx (-5) (-5) 5 5) (fun _ => 3) ex_db) (mkS mobj [] []) []) = Some d2 /\ d_mod d2 = [1] /\ map snd (s_db robj (d_rt d2)) <> [].
Proof.
  split; [repeat constructor; cbn; intuition discriminate|]. split; [intros i n o l off [E|[E|[]]]; discriminate E|]. split.
  - unfold ex_es, ex_clips. cbn [app]. repeat (apply Forall_cons || apply Forall_nil); unfold event_ok, proper; cbn; try exact I; (split; [lia|split; [lia|]]); intros m J; try (destruct J; fail); destruct J as [J|[]]; subst; cbn; lia.
  - destruct (ex_hist ex_clips _) as [d1|] eqn:E1; [|vm_compute in E1; discriminate E1]. destruct (ex_hist ex_es _) as [d2|] eqn:E2; [|vm_compute in E2; discriminate E2].
    vm_compute in E1. injection E1 as <-. vm_compute in E2. injection E2 as <-. eexists _, _. split; [reflexivity|].
    split; [vm_compute; discriminate|]. split; [reflexivity|]. split; [vm_compute; reflexivity|]. split; [vm_compute; reflexivity|]. split; [reflexivity|]. split; [vm_compute; reflexivity|]. vm_compute. discriminate.
Qed.

(* C144: which figures of a changed net a clip takes out of the design: after the first iteration the wires whose centre line meets
   the closed route box, and in the first iteration not those that lie along its right or upper side; vias and patches by their origin *)
Definition in_closed (b : box) (p : point) : Prop := bleft b <= px p <= bright b /\ bbottom b <= py p <= btop b.
Definition on_line (w : wire) (p : point) : Prop := px (wb w) <= px p <= px (we w) /\ py (wb w) <= py p <= py (we w).
Definition along_right (w : wire) (b : box) : Prop := px (wb w) = px (we w) /\ px (wb w) = bright b.
Definition along_top (w : wire) (b : box) : Prop := px (wb w) <> px (we w) /\ py (wb w) = btop b.
Theorem C144_removed_wires : forall isInit b w, RqSpec.proper b -> straight w ->
  taken isInit b (FSeg w) = true <-> (exists p, on_line w p /\ in_closed b p) /\ (isInit = true -> ~ along_right w b /\ ~ along_top w b).
Proof.
  intros isInit b w (B1 & B2) S. unfold taken, on_line, in_closed, along_right, along_top. destruct S as [(E & L)|(E & L)].
  - destruct (Z.eqb_spec (px (wb w)) (px (we w))) as [_|N]; [|contradiction]. rewrite !andb_true_iff, negb_true_iff, orb_false_iff, Z.leb_le, Z.ltb_ge, Z.gtb_ltb, Z.ltb_ge. split.
    + intros ((A & C) & D & F). split; [|intros ->; apply Z.ltb_lt in C; lia]. exists (mkPt (px (wb w)) (Z.max (py (wb w)) (bbottom b))). cbn [px py]. destruct isInit; [apply Z.ltb_lt in C|apply Z.leb_le in C]; lia.
    + intros ((p & P & Q) & R). split; [|lia]. split; [lia|]. destruct isInit; [apply Z.ltb_lt; specialize (R eq_refl); lia|apply Z.leb_le; lia].
  - destruct (Z.eqb_spec (px (wb w)) (px (we w))) as [E2|N].
    + rewrite !andb_true_iff, negb_true_iff, orb_false_iff, Z.leb_le, Z.ltb_ge, Z.gtb_ltb, Z.ltb_ge. split.
      * intros ((A & C) & D & F). split; [|intros ->; apply Z.ltb_lt in C; lia]. exists (mkPt (px (wb w)) (py (wb w))). cbn [px py]. destruct isInit; [apply Z.ltb_lt in C|apply Z.leb_le in C]; lia.
      * intros ((p & P & Q) & R). split; [|lia]. split; [lia|]. destruct isInit; [apply Z.ltb_lt; specialize (R eq_refl); lia|apply Z.leb_le; lia].
    + destruct (Z.eqb_spec (py (wb w)) (py (we w))) as [_|N2]; [|contradiction]. rewrite !andb_true_iff, negb_true_iff, orb_false_iff, Z.leb_le, Z.ltb_ge, Z.gtb_ltb, Z.ltb_ge. split.
      * intros ((A & C) & D & F). split; [|intros ->; apply Z.ltb_lt in C; lia]. exists (mkPt (Z.max (px (wb w)) (bleft b)) (py (wb w))). cbn [px py]. destruct isInit; [apply Z.ltb_lt in C|apply Z.leb_le in C]; lia.
      * intros ((p & P & Q) & R). split; [|lia]. split; [lia|]. destruct isInit; [apply Z.ltb_lt; specialize (R eq_refl); lia|apply Z.leb_le; lia].
Qed.
Print Assumptions C144_removed_wires.
Theorem C144_removed_vias : forall isInit b o l1 l2 d, taken isInit b (FVia o l1 l2 d) = true <-> in_closed b o /\ (isInit = true -> px o <> bright b /\ py o <> btop b).
Proof.
  intros isInit b o l1 l2 d. unfold taken, origin_in, in_closed. rewrite !andb_true_iff, !Z.geb_le. destruct isInit; rewrite andb_true_iff, ?Z.ltb_lt, ?Z.leb_le; split; intros H; try (split; [lia|intros; lia]); try (split; [lia|discriminate]); destruct H as [H1 H2]; try specialize (H2 eq_refl); lia.
Qed.
Print Assumptions C144_removed_vias.
Example c144_removed : let b := mkBox (mkPt 0 0) (mkPt 100 100) in let w := mkW 2 (mkPt 100 (-50)) (mkPt 100 50) (mkSt StTruncate 0 StTruncate 0 10) in
  taken false b (FSeg w) = true /\ taken true b (FSeg w) = false.
Proof. split; reflexivity. Qed.
