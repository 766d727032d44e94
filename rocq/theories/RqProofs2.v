(* Proofs about the index of routed shapes: ends of clips, clean-up. *)
From Verif Require Import Base GeomModel GeomSpec GeomProofs FmModel FmSpec FmProofs FmProofs2 GiModel GiProofs GiProofs2 ClipModel RqModel RqSpec RqProofs.
From Coq Require Import List Permutation.
Open Scope list_scope.

Lemma each_none {A S} (f : A -> S -> option S) l : fold_left (fun o a => match o with Some s => f a s | None => None end) l None = None.
Proof. induction l; [reflexivity|exact IHl]. Qed.
Lemma each_cons {A S} (f : A -> S -> option S) a l s : each f (a :: l) s = match f a s with Some s => each f l s | None => None end.
Proof. unfold each. cbn [fold_left]. destruct (f a s); [reflexivity|apply each_none]. Qed.
Lemma each_inv {A S} (I : S -> Prop) (f : A -> S -> option S) l : (forall a s, In a l -> I s -> exists s', f a s = Some s' /\ I s') -> forall s, I s -> exists s', each f l s = Some s' /\ I s'.
Proof.
  induction l as [|a l IH]; intros H s IS; [exists s; split; [reflexivity|exact IS]|]. destruct (H a s (or_introl eq_refl) IS) as (s1 & E & I1). rewrite each_cons, E.
  apply IH; [|exact I1]. intros b t J. apply H. right. exact J.
Qed.
Lemma each_keep {A S} (I : S -> Prop) (f : A -> S -> option S) l : (forall a s s', In a l -> I s -> f a s = Some s' -> I s') -> forall s s', I s -> each f l s = Some s' -> I s'.
Proof.
  induction l as [|a l IH]; intros H s s' IS E; [injection E as <-; exact IS|]. rewrite each_cons in E. destruct (f a s) as [s1|] eqn:E1; [|discriminate E].
  apply (IH (fun b t t' J => H b t t' (or_intror J)) s1 s'); [|exact E]. eapply H; [left; reflexivity|exact IS|exact E1].
Qed.

Lemma nodup_filter {A} (h : nat * A -> bool) (l : list (nat * A)) : NoDup (map fst l) -> NoDup (map fst (filter h l)).
Proof.
  induction l as [|x l IH]; intros N; [constructor|]. cbn in N. inversion N as [|y m NI N']; subst. cbn. destruct (h x); [|apply IH; exact N']. cbn. constructor; [|apply IH; exact N'].
  intros J. apply NI. apply in_map_iff in J as (z & EZ & J). apply filter_In in J as [J _]. rewrite <- EZ. apply in_map. exact J.
Qed.
Section R.
Variable lw : Z -> Z.
Variable pin_at : Z -> point -> Z -> bool.
Variable manuGrid : Z.
Variable vbox vbox1 : Z -> box.
Variable vcut : Z -> Z.
Variable ord : list ient -> list ient.
Hypothesis ordP : forall l, Permutation (ord l) l.
Notation entry := (entry_of vbox vcut).
Notation rsync := (sync robj entry). Notation msync := (sync mobj mentry).
Notation rdb := (s_db robj).

Definition ofnet (n : Z) (s : store robj) : list (nat * robj) := filter (fun o => fst (snd o) =? n) (rdb s).
(* the objects of the nets without [X] are as before *)
Definition frame (X : Z -> Prop) (s s' : store robj) : Prop := forall n, ~ X n -> ofnet n s' = ofnet n s.
Lemma frame_refl X s : frame X s s. Proof. intros n _. reflexivity. Qed.
Lemma frame_trans X s1 s2 s3 : frame X s1 s2 -> frame X s2 s3 -> frame X s1 s3.
Proof. intros A B n N. rewrite (B n N). apply A. exact N. Qed.
Lemma add_frame (X : Z -> Prop) t s : X (fst t) -> frame X s (add robj entry t s).
Proof. intros XT n N. unfold ofnet. cbn [add s_db]. rewrite filter_app. cbn. destruct (Z.eqb_spec (fst t) n) as [E|E]; [rewrite E in XT; contradiction|]. apply app_nil_r. Qed.
Lemma adds_frame (X : Z -> Prop) ts : (forall t, In t ts -> X (fst t)) -> forall s, frame X s (fold_left (fun s t => add robj entry t s) ts s).
Proof.
  induction ts as [|t ts IH]; intros H s; [apply frame_refl|]. cbn [fold_left]. eapply frame_trans; [apply add_frame; apply H; left; reflexivity|]. apply IH. intros u I. apply H. right. exact I.
Qed.
Lemma del_frame (X : Z -> Prop) i t s : NoDup (map fst (rdb s)) -> In (i, t) (rdb s) -> X (fst t) -> forall n, ~ X n -> filter (fun o => fst (snd o) =? n) (filter (fun o => negb (Nat.eqb (fst o) i)) (rdb s)) = ofnet n s.
Proof.
  intros ND I XT n N. unfold ofnet. revert ND I. generalize (rdb s) as d. induction d as [|[j u] d IH]; intros ND I; [reflexivity|]. cbn in ND. inversion ND as [|x l NI ND']; subst. cbn [filter fst snd].
  destruct (Nat.eqb j i) eqn:E.
  - apply Nat.eqb_eq in E. subst j. cbn [negb]. destruct I as [I|I].
    + injection I as ->. destruct (Z.eqb_spec (fst t) n) as [EN|EN]; [rewrite EN in XT; contradiction|].
      f_equal. apply filter_all. intros [k v] J. cbn. destruct (Nat.eqb k i) eqn:EK; [|reflexivity]. apply Nat.eqb_eq in EK. subst k. exfalso. apply NI. apply (in_map fst) in J. exact J.
    + exfalso. apply NI. apply (in_map fst) in I. exact I.
  - cbn [negb filter fst snd]. destruct I as [I|I]; [injection I as -> _; rewrite Nat.eqb_refl in E; discriminate E|]. rewrite (IH ND' I). reflexivity.
Qed.
Lemma del_ok (X : Z -> Prop) i t s : rsync s -> In (i, t) (rdb s) -> X (fst t) ->
  exists s', del robj entry i s = Some s' /\ rsync s' /\ frame X s s' /\ forall o, In o (rdb s') <-> In o (rdb s) /\ fst o <> i.
Proof.
  intros S I XT. destruct (del_sync robj entry i s S) as (s' & E & S' & D); [apply (in_map fst) in I; exact I|]. exists s'. split; [exact E|]. split; [exact S'|]. split.
  - intros n N. unfold ofnet at 1. rewrite D. apply (del_frame X i t s (proj1 S) I XT n N).
  - intros o. rewrite D, filter_In, negb_true_iff, Nat.eqb_neq. tauto.
Qed.
Lemma change_ok (X : Z -> Prop) i t f s : rsync s -> In (i, t) (rdb s) -> X (fst t) -> (forall t, fst (f t) = fst t) ->
  exists s', change robj entry i f s = Some s' /\ rsync s' /\ frame X s s'.
Proof.
  intros S I XT F. destruct (change_sync robj entry i f s S) as (s' & t' & E & S' & I' & D); [apply (in_map fst) in I; exact I|]. exists s'. split; [exact E|]. split; [exact S'|].
  assert (ET : t' = t). { apply (look_in robj i s t' (proj1 S)) in I'. apply (look_in robj i s t (proj1 S)) in I. congruence. }
  subst t'. intros n N. unfold ofnet. rewrite D. assert (NT : fst t <> n) by (intros EN; rewrite EN in XT; contradiction).
  assert (U : forall u, In (i, u) (rdb s) -> u = t). { intros u J. apply (look_in robj i s u (proj1 S)) in J. apply (look_in robj i s t (proj1 S)) in I. congruence. }
  revert U. generalize (rdb s) as d. induction d as [|[j u] d IH]; intros U; [reflexivity|]. cbn [map filter fst snd]. destruct (Nat.eqb j i) eqn:EJ.
  - apply Nat.eqb_eq in EJ. subst j. rewrite (U u (or_introl eq_refl)). cbn [fst snd]. rewrite F. rewrite (proj2 (Z.eqb_neq _ _) NT). apply IH. intros v J. apply U. right. exact J.
  - cbn [fst snd]. rewrite IH; [reflexivity|]. intros v J. apply U. right. exact J.
Qed.

(* ---- removal ---- *)
Lemma mod_net_in subs n : mod_net subs n = true -> In n (map sn_net (filter sn_mod subs)).
Proof. unfold mod_net. intros H. apply existsb_exists in H as (s & I & H). apply andb_true_iff in H as [M E]. apply Z.eqb_eq in E. subst n. apply in_map. apply filter_In. auto. Qed.
Section W.
Variables (isInit : bool) (b : box) (subs : list subnet).
Let X (n : Z) : Prop := mod_net subs n = true.
Definition bps_ok (bp : list (Z * (point * Z))) : Prop := forall x, In x bp -> X (fst x).
Lemma end_remove_spec i st : rsync (fst st) -> bps_ok (snd st) -> In i (map fst (rdb (fst st))) ->
  exists st', end_remove lw vbox vcut isInit b subs i st = Some st' /\ rsync (fst st') /\ bps_ok (snd st') /\ frame X (fst st) (fst st') /\
    forall j, j <> i -> In j (map fst (rdb (fst st))) -> In j (map fst (rdb (fst st'))).
Proof.
  intros S BP I. destruct (look_some robj i (fst st) I) as ([n f] & E). unfold end_remove. rewrite E.
  destruct (mod_net subs n && taken isInit b f) eqn:C.
  - apply andb_true_iff in C as [MN _]. apply look_in in E; [|exact (proj1 S)].
    assert (EF : forall gs s, fold_left (fun s g => add robj entry (n, g) s) gs s = fold_left (fun s t => add robj entry t s) (map (fun g => (n, g)) gs) s).
    { induction gs as [|g gs IHg]; intros s; [reflexivity|]. cbn. apply IHg. }
    rewrite EF. set (gs := map (fun g => (n, g)) (fst (remove_fig isInit b lw f))).
    destruct (adds_sync robj entry gs (fst st) S) as (S1 & D1 & _).
    assert (F1 : frame X (fst st) (fold_left (fun s t => add robj entry t s) gs (fst st))).
    { apply adds_frame. intros t IT. apply in_map_iff in IT as (g & <- & _). exact MN. }
    destruct (del_ok X i (n, f) _ S1 (D1 _ E) MN) as (s2 & E2 & S2 & F2 & D2). rewrite E2.
    eexists. split; [reflexivity|]. cbn [fst snd]. split; [exact S2|]. split; [|split; [eapply frame_trans; eassumption|]].
    + intros x J. apply in_app_iff in J as [J|J]; [apply BP; exact J|]. apply in_map_iff in J as (p & <- & _). exact MN.
    + intros j NJ J. apply in_map_iff in J as (o & <- & J). apply in_map. apply D2. auto.
  - exists st. split; [reflexivity|]. split; [exact S|]. split; [exact BP|]. split; [apply frame_refl|auto].
Qed.
Lemma end_removes_spec is : forall st, rsync (fst st) -> bps_ok (snd st) -> NoDup is -> (forall i, In i is -> In i (map fst (rdb (fst st)))) ->
  exists st', each (end_remove lw vbox vcut isInit b subs) is st = Some st' /\ rsync (fst st') /\ bps_ok (snd st') /\ frame X (fst st) (fst st').
Proof.
  induction is as [|i is IH]; intros st S BP ND P.
  - exists st. split; [reflexivity|]. split; [exact S|]. split; [exact BP|apply frame_refl].
  - inversion ND as [|x l NI ND']; subst. destruct (end_remove_spec i st S BP (P i (or_introl eq_refl))) as (s1 & E1 & S1 & B1 & F1 & K1).
    destruct (IH s1 S1 B1 ND') as (s2 & E2 & S2 & B2 & F2).
    { intros j J. apply K1; [intros ->; contradiction|apply P; right; exact J]. }
    exists s2. rewrite each_cons, E1. split; [exact E2|]. split; [exact S2|]. split; [exact B2|eapply frame_trans; eassumption].
Qed.
Lemma end_add_spec s : rsync s -> rsync (end_add vbox vcut subs s) /\ frame X s (end_add vbox vcut subs s).
Proof.
  intros S. unfold end_add. destruct (adds_sync robj entry (added subs) s S) as (S1 & _ & _). split; [exact S1|]. apply adds_frame.
  intros t I. unfold added in I. apply in_flat_map in I as (u & _ & I). destruct (mod_net subs (sn_net u)) eqn:M; [|destruct I]. apply in_map_iff in I as (g & <- & _). exact M.
Qed.
(* ---- merge ---- *)
Lemma look_all_spec is s : rsync s -> (forall i, In i is -> In i (map fst (rdb s))) -> exists os, look_all is s = Some os /\ map fst os = is /\ forall o, In o os -> In o (rdb s).
Proof.
  intros S. induction is as [|i is IH]; intros P; [exists []; split; [reflexivity|split; [reflexivity|intros o []]]|].
  destruct (look_some robj i s (P i (or_introl eq_refl))) as (t & E). destruct IH as (os & EO & M & D); [intros j J; apply P; right; exact J|].
  exists ((i, t) :: os). cbn [look_all]. rewrite E, EO. split; [reflexivity|]. split; [cbn; rewrite M; reflexivity|]. intros o [<-|J]; [apply look_in in E; [exact E|exact (proj1 S)]|apply D; exact J].
Qed.
Lemma join_two_spec n jf a c s : rsync s -> In a (rdb s) -> In c (rdb s) -> fst a <> fst c -> fst (snd a) = n -> fst (snd c) = n -> X n ->
  (exists w, snd (snd a) = FSeg w) -> (exists w, snd (snd c) = FSeg w) ->
  exists s', join_two vbox vcut n jf a c s = Some s' /\ rsync s' /\ frame X s s'.
Proof.
  intros S IA IC NE NA NC XN (wa & EA) (wc & EC). unfold join_two. rewrite EA, EC. destruct a as [i t], c as [j u]. cbn [fst snd] in *.
  destruct (del_ok X i t s S IA) as (s1 & E1 & S1 & F1 & D1); [rewrite NA; exact XN|]. rewrite E1.
  destruct (del_ok X j u s1 S1) as (s2 & E2 & S2 & F2 & D2); [apply D1; split; [exact IC|cbn; congruence]|rewrite NC; exact XN|]. rewrite E2.
  eexists. split; [reflexivity|]. split; [apply add_sync; exact S2|]. eapply frame_trans; [exact F1|]. eapply frame_trans; [exact F2|]. apply add_frame. exact XN.
Qed.
Lemma two_distinct {A} (f g : nat * A -> bool) (os : list (nat * A)) a c : NoDup (map fst os) -> filter f (filter g os) = [a; c] -> fst a <> fst c.
Proof.
  intros ND E EQ.
  pose proof (nodup_filter f _ (nodup_filter g _ ND)) as N. rewrite E in N. cbn in N. inversion N as [|x l NI _]; subst. apply NI. left. congruence.
Qed.
Lemma end_merge_spec n pl s : X n -> rsync s -> exists s', end_merge pin_at manuGrid vbox vcut ord n pl s = Some s' /\ rsync s' /\ frame X s s'.
Proof.
  intros XN S. destruct pl as [p l]. unfold end_merge. destruct (skip_pt pin_at manuGrid n p l); [exists s; split; [reflexivity|split; [exact S|apply frame_refl]]|].
  destruct (queried robj entry ord ordP (fun e => (fst (fst e) =? l) && touch (snd (fst e)) (mkBox p p)) s S) as [ND Q].
  destruct (look_all_spec (query robj ord l (mkBox p p) s) s S) as (os & EO & MO & DO).
  { intros i I. apply Q in I as (t & I & _). apply (in_map fst) in I. exact I. }
  rewrite EO. assert (NO : NoDup (map fst os)) by (rewrite MO; exact ND).
  set (mine := filter (fun o => fst (snd o) =? n) os).
  set (ends := filter (fun o => match snd (snd o) with FSeg w => pt_eq (wb w) p || pt_eq (we w) p | _ => false end) mine).
  set (patch := existsb _ mine).
  assert (NM : NoDup (map fst mine)).
  { apply nodup_filter. exact NO. }
  assert (DE : forall o, In o ends -> In o (rdb s) /\ fst (snd o) = n /\ exists w, snd (snd o) = FSeg w).
  { intros o I. unfold ends in I. apply filter_In in I as [I C]. unfold mine in I. apply filter_In in I as [I C']. apply Z.eqb_eq in C'. split; [apply DO; exact I|]. split; [exact C'|]. destruct (snd (snd o)); [eauto|discriminate C|discriminate C]. }
  assert (NOOP : exists s', Some s = Some s' /\ rsync s' /\ frame X s s') by (exists s; split; [reflexivity|split; [exact S|apply frame_refl]]).
  destruct (filter (fun o => negb (is_vert (snd (snd o)))) ends) as [|a [|c [|? ?]]] eqn:EH; destruct (filter (fun o => is_vert (snd (snd o))) ends) as [|a' [|c' [|? ?]]] eqn:EV; destruct patch; try exact NOOP.
  - assert (IA : In a' ends) by (apply (proj1 (filter_In (fun o => is_vert (snd (snd o))) a' ends)); rewrite EV; left; reflexivity).
    assert (IC : In c' ends) by (apply (proj1 (filter_In (fun o => is_vert (snd (snd o))) c' ends)); rewrite EV; right; left; reflexivity).
    destruct (DE a' IA) as (A1 & A2 & A3). destruct (DE c' IC) as (C1 & C2 & C3). apply join_two_spec; auto. unfold ends in EV. eapply two_distinct; [exact NM|exact EV].
  - assert (IA : In a ends) by (apply (proj1 (filter_In (fun o => negb (is_vert (snd (snd o)))) a ends)); rewrite EH; left; reflexivity).
    assert (IC : In c ends) by (apply (proj1 (filter_In (fun o => negb (is_vert (snd (snd o)))) c ends)); rewrite EH; right; left; reflexivity).
    destruct (DE a IA) as (A1 & A2 & A3). destruct (DE c IC) as (C1 & C2 & C3). apply join_two_spec; auto. unfold ends in EH. eapply two_distinct; [exact NM|exact EH].
Qed.
Lemma end_merges_spec bp s : bps_ok bp -> rsync s -> exists s', end_merges pin_at manuGrid vbox vcut ord bp s = Some s' /\ rsync s' /\ frame X s s'.
Proof.
  intros BP S. unfold end_merges.
  destruct (each_inv (fun s' => rsync s' /\ frame X s s') (fun n s => each (end_merge pin_at manuGrid vbox vcut ord n) (fold_left (fun t a => bp_ins a t) (map snd (filter (fun x => fst x =? n) bp)) []) s) (nodup Z.eq_dec (map fst bp))) with (s := s) as (s' & E & I).
  - intros n s1 IN [S1 F1]. apply nodup_In in IN. apply in_map_iff in IN as (x & <- & IX). apply BP in IX.
    apply (each_inv (fun s' => rsync s' /\ frame X s s')); [|auto]. intros pl s2 _ [S2 F2]. destruct (end_merge_spec (fst x) pl s2 IX S2) as (s3 & E3 & S3 & F3).
    exists s3. split; [exact E3|]. split; [exact S3|eapply frame_trans; eassumption].
  - split; [exact S|apply frame_refl].
  - exists s'. split; [exact E|exact I].
Qed.
End W.
(* ---- markers ---- *)
Lemma end_markers_spec drcBox best s : msync s -> exists s', end_markers ord drcBox best s = Some s' /\ msync s' /\
  map snd (s_db mobj s') = map snd (filter (fun o => negb (touch (snd (snd o)) drcBox)) (s_db mobj s)) ++ filter (fun m => box_overlaps drcBox (snd m) true) best.
Proof.
  intros S. unfold end_markers. destruct (query_present mobj mentry ord ordP drcBox s S) as [ND P].
  destruct (dels_sync mobj mentry _ s S ND P) as (s1 & E1 & S1 & D1). rewrite E1. eexists. split; [reflexivity|].
  destruct (adds_sync mobj mentry (filter (fun m => box_overlaps drcBox (snd m) true) best) s1 S1) as (S2 & _ & D2). split; [exact S2|]. rewrite D2, D1. f_equal. f_equal. apply filter_ext_in.
  intros [i m] I. f_equal. cbn [fst snd]. destruct (queried mobj mentry ord ordP (fun e => touch (snd (fst e)) drcBox) s S) as [_ Q]. cbn [fst snd] in Q.
  destruct (touch (snd m) drcBox) eqn:T.
  - apply existsb_exists. exists i. split; [|apply Nat.eqb_refl]. apply Q. exists m. auto.
  - apply not_true_is_false. intros H. apply existsb_exists in H as (j & J & EJ). apply Nat.eqb_eq in EJ. subst j. apply Q in J as (m' & I' & T').
    apply (look_in mobj i s m' (proj1 S)) in I'. apply (look_in mobj i s m (proj1 S)) in I. assert (m' = m) by congruence. subst m'. unfold mentry in T'. rewrite T in T'. discriminate T'.
Qed.
(* ---- designs ---- *)
Definition dsync (d : design) : Prop := rsync (d_rt d) /\ msync (d_mk d) /\ forall i m, In (i, m) (s_db mobj (d_mk d)) -> proper (snd m).
Lemma clip_end_spec c d : event_ok (EClip c) -> dsync d -> exists d', clip_end lw pin_at manuGrid vbox vcut ord c d = Some d' /\ dsync d' /\
  d_mod d' = map sn_net (filter sn_mod (c_subs c)) ++ d_mod d /\ frame (fun n => In n (map sn_net (filter sn_mod (c_subs c)))) (d_rt d) (d_rt d') /\
  map snd (s_db mobj (d_mk d')) = (if c_write c && c_drc c then map snd (filter (fun o => negb (touch (snd (snd o)) (c_drcBox c))) (s_db mobj (d_mk d))) ++ filter (fun m => box_overlaps (c_drcBox c) (snd m) true) (c_best c)
     else map snd (s_db mobj (d_mk d))).
Proof.
  intros (PR & PD & PM) (S & M & PP). unfold clip_end. destruct (c_write c); cbn [negb andb].
  - destruct (query_present robj entry ord ordP (c_route c) (d_rt d) S) as [ND P].
    destruct (end_removes_spec (c_init c) (c_route c) (c_subs c) _ (d_rt d, []) S (fun x (I : In x []) => match I with end) ND P) as ([s1 bp] & E1 & S1 & B1 & F1). cbn [fst snd] in *. rewrite E1.
    destruct (end_add_spec (c_subs c) s1 S1) as [S2 F2].
    destruct (end_merges_spec (c_subs c) bp _ B1 S2) as (s3 & E3 & S3 & F3). rewrite E3.
    assert (FR : frame (fun n => In n (map sn_net (filter sn_mod (c_subs c)))) (d_rt d) s3).
    { intros n N. assert (N' : ~ mod_net (c_subs c) n = true) by (intros H; apply N, mod_net_in, H). rewrite (F3 n N'), (F2 n N'). apply F1. exact N'. }
    destruct (c_drc c).
    + destruct (end_markers_spec (c_drcBox c) (c_best c) (d_mk d) M) as (m & EM & SM & DM). rewrite EM. cbn [option_map]. eexists. split; [reflexivity|]. cbn [d_rt d_mk d_mod]. split; [|auto].
      split; [exact S3|]. split; [exact SM|]. intros i x I0. assert (I : In x (map snd (s_db mobj m))) by (apply in_map_iff; exists (i, x); auto). rewrite DM in I. apply in_app_iff in I as [I|I].
      * apply in_map_iff in I as ([j y] & EQ & I). cbn in EQ. subst y. apply filter_In in I as [I _]. eapply PP. exact I.
      * apply filter_In in I as [I _]. apply PM. exact I.
    + eexists. split; [reflexivity|]. cbn [d_rt d_mk d_mod]. split; [split; [exact S3|split; [exact M|exact PP]]|auto].
  - eexists. split; [reflexivity|]. cbn [d_rt d_mk d_mod]. split; [split; [exact S|split; [exact M|exact PP]]|]. split; [reflexivity|]. split; [apply frame_refl|reflexivity].
Qed.
Lemma mark_proper f : proper (snd (mark_of vbox1 f)).
Proof.
  assert (B : forall a b c d, proper (box_set a b c d)).
  { intros. rewrite box_set_minmax. unfold proper, bleft, bright, bbottom, btop. cbn. lia. }
  destruct f as [w|o l1 l2 k|o l off]; cbn [mark_of snd].
  - unfold seg_box. destruct (negb _); apply B.
  - unfold box_transform, box_of_pts. apply B.
  - unfold box_transform, box_of_pts. apply B.
Qed.
Lemma entry_proper t : proper (snd (entry t)).
Proof.
  assert (B : forall a b c d, proper (box_set a b c d)).
  { intros. rewrite box_set_minmax. unfold proper, bleft, bright, bbottom, btop. cbn. lia. }
  unfold entry_of. destruct (snd t); cbn [snd]; [unfold seg_box; destruct (negb _); apply B|unfold box_transform, box_of_pts; apply B|unfold box_transform, box_of_pts; apply B].
Qed.
Lemma edit_spec n e d d' : dsync d -> edit_run vbox vbox1 vcut n e d = Some d' -> dsync d' /\ d_mod d' = d_mod d /\ frame (fun m => m = n) (d_rt d) (d_rt d').
Proof.
  intros (S & M & PP) E. unfold edit_run in E.
  set (i := match e with KDel _ i => i | KEnds _ i _ _ => i | KSplit i _ => i end) in *. set (mark := match e with KDel m _ => m | KEnds m _ _ _ => m | KSplit _ _ => false end) in *.
  destruct (look robj i (d_rt d)) as [t|] eqn:EL; [|discriminate E]. destruct (fst t =? n) eqn:EN; [|discriminate E]. apply Z.eqb_eq in EN. cbn [negb] in E. apply look_in in EL; [|exact (proj1 S)].
  set (mk := if mark then add mobj mentry (mark_of vbox1 (snd t)) (d_mk d) else d_mk d) in *.
  assert (MK : msync mk /\ forall i m, In (i, m) (s_db mobj mk) -> proper (snd m)).
  { unfold mk. destruct mark; [|auto]. destruct (add_sync mobj mentry (mark_of vbox1 (snd t)) (d_mk d) M) as [M1 D1]. split; [exact M1|]. intros j m I. rewrite D1 in I. apply in_app_iff in I as [I|[I|[]]]; [eapply PP; exact I|]. injection I as _ <-. apply mark_proper. }
  assert (R : exists s, match e with KDel _ _ => del robj entry i (d_rt d) | KEnds _ _ p q => change robj entry i (set_ends p q) (d_rt d) | KSplit _ p => option_map (add robj entry (split_hi p t)) (change robj entry i (split_lo p) (d_rt d)) end = Some s /\ rsync s /\ frame (fun m => m = n) (d_rt d) s).
  { destruct e as [m j|m j p q|j p]; cbn in i; subst i.
    - destruct (del_ok (fun m => m = n) j t (d_rt d) S EL EN) as (s & E1 & S1 & F1 & _). eauto.
    - apply (change_ok (fun m => m = n) j t); [exact S|exact EL|exact EN|]. intros [k f]. unfold set_ends. destruct f; reflexivity.
    - destruct (change_ok (fun m => m = n) j t (split_lo p) (d_rt d) S EL EN) as (s & E1 & S1 & F1); [intros [k f]; unfold split_lo; destruct f; reflexivity|]. rewrite E1. cbn [option_map]. eexists. split; [reflexivity|].
      split; [apply add_sync; exact S1|]. eapply frame_trans; [exact F1|]. apply add_frame. rewrite <- EN. destruct t as [k f]. unfold split_hi. destruct f; reflexivity. }
  destruct R as (s & ER & SR & FR). rewrite ER in E. cbn [option_map] in E. injection E as <-. cbn [d_rt d_mk d_mod]. split; [split; [exact SR|exact MK]|auto].
Qed.
Lemma check_spec nets edits d d' : dsync d -> check_run vbox vbox1 vcut nets edits d = Some d' ->
  dsync d' /\ (forall n, In n nets -> ~ In n (d_mod d')) /\ frame (fun n => In n nets /\ In n (d_mod d)) (d_rt d) (d_rt d').
Proof.
  intros D E. unfold check_run in E. destruct (each _ _ d) as [d1|] eqn:E1; [|discriminate E]. cbn [option_map] in E. injection E as <-.
  set (X := fun n => In n nets /\ In n (d_mod d)) in *.
  assert (K : dsync d1 /\ frame X (d_rt d) (d_rt d1)).
  { apply (each_keep (fun d1 => dsync d1 /\ frame X (d_rt d) (d_rt d1)) _ _ ) in E1; [exact E1| |split; [exact D|apply frame_refl]].
    intros n s s' IN [D1 F1] ES. apply filter_In in IN as [IN C]. assert (XN : X n). { split; [exact IN|]. apply existsb_exists in C as (m & IM & EM). apply Z.eqb_eq in EM. subst m. exact IM. }
    apply (each_keep (fun d1 => dsync d1 /\ frame X (d_rt d) (d_rt d1)) _ _ ) in ES; [exact ES| |auto].
    intros e t t' _ [D2 F2] EE. destruct (edit_spec n e t t' D2 EE) as (D3 & _ & F3). split; [exact D3|]. eapply frame_trans; [exact F2|]. intros k NK. apply F3. intros ->. exact (NK XN). }
  destruct K as [K1 K2]. cbn [d_rt d_mk d_mod]. split; [exact K1|]. split; [|exact K2].
  intros n IN I. apply filter_In in I as [_ C]. apply negb_true_iff in C. apply not_true_iff_false in C. apply C. apply existsb_exists. exists n. split; [exact IN|apply Z.eqb_refl].
Qed.
Lemma event_spec nets e d d' : event_ok e -> dsync d -> event_run lw pin_at manuGrid vbox vbox1 vcut ord nets e d = Some d' -> dsync d'.
Proof.
  intros OK D E. destruct e as [c|edits]; cbn [event_run] in E.
  - destruct (clip_end_spec c d OK D) as (d1 & E1 & D1 & _). rewrite E1 in E. injection E as <-. exact D1.
  - apply check_spec in E as [E _]; assumption.
Qed.
Lemma history_spec nets es d d' : Forall event_ok es -> dsync d -> history lw pin_at manuGrid vbox vbox1 vcut ord nets es d = Some d' -> dsync d'.
Proof.
  intros OK D E. apply (each_keep dsync) in E; [exact E| |exact D]. intros e s s' I DS ES. apply (event_spec nets e s s'); [|exact DS|exact ES]. rewrite Forall_forall in OK. apply OK. exact I.
Qed.
Lemma init_spec db : NoDup (map fst db) -> no_patches db -> rsync (init_ix vbox vcut db).
Proof.
  intros ND NP. split; [exact ND|]. cbn [s_ix s_db init_ix]. clear ND. induction db as [|[i [n f]] db IH]; [apply Permutation_refl|]. cbn [flat_map]. unfold ents in *. cbn [map]. cbn [fst snd].
  assert (T : Permutation (flat_map (fun o : nat * robj => match snd (snd o) with FPatch _ _ _ => [] | _ => [(entry (snd o), fst o)] end) db) (map (fun o => (entry (snd o), fst o)) db)).
  { apply IH. intros j m o l off J. apply (NP j m o l off). right. exact J. }
  destruct f as [w|o l1 l2 k|o l off]; [constructor; exact T|constructor; exact T|]. exfalso. apply (NP i n o l off). left. reflexivity.
Qed.
(* to the specification *)
Lemma shape_entry t l r : shape vbox vcut (snd t) l r <-> entry t = (l, r).
Proof.
  destruct t as [n [w|o l1 l2 k|o l' off]]; unfold entry_of; cbn [shape snd].
  - rewrite wire_box_is. replace (FmModel.seg_box (wb w) (we w) (sWid (ws w)) (bExt (ws w)) (eExt (ws w))) with (seg_box w).
    + split; [intros [-> ->]; reflexivity|intros E; injection E as <- <-; auto].
    + unfold seg_box, FmModel.seg_box. destruct (px (wb w) =? px (we w)); reflexivity.
  - rewrite patch_box_is. split; [intros [-> ->]; reflexivity|intros E; injection E as <- <-; auto].
  - rewrite patch_box_is. split; [intros [-> ->]; reflexivity|intros E; injection E as <- <-; auto].
Qed.
Lemma dsync_step d : dsync d -> in_step (rshape vbox vcut) ord (d_rt d) /\ in_step mshape ord (d_mk d).
Proof.
  intros (S & M & PP). split.
  - apply (sync_in_step robj entry ord ordP (rshape vbox vcut) (fun _ => True)); [intros t l r _; apply shape_entry|intros t _; apply entry_proper|auto|exact S].
  - apply (sync_in_step mobj mentry ord ordP mshape (fun m => proper (snd m))); [intros t l r _; unfold mshape, mentry; reflexivity|auto|exact PP|exact M].
Qed.
End R.
