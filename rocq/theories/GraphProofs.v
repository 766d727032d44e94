From Verif Require Import Base Stl GeomModel GeomSpec GridModel GridSpec GraphModel GraphSpec.

(* --- tracks ------------------------------------------------------------------------------ *)
Lemma first_track_spec tp low : 0 < tp_step tp ->
  let k := first_track tp low in
  0 <= k /\ forall j, 0 <= j -> (low <= tp_start tp + j * tp_step tp <-> k <= j).
Proof.
  intros Hs. unfold first_track. cbn zeta.
  set (s := tp_step tp) in *. set (a := tp_start tp).
  destruct (Z_lt_le_dec (low - a) 0) as [Hn|Hp].
  - assert (Hq : Z.quot (low - a) s <= 0) by (
      replace (low - a) with (- (a - low)) by lia; rewrite Z.quot_opp_l by lia;
      pose proof (Z.quot_pos (a - low) s); lia).
    set (q := Z.quot (low - a) s) in *.
    assert (E : (if q <? 0 then 0 else q) = 0) by (destruct (q <? 0) eqn:E0; lia). rewrite E.
    rewrite (proj2 (Z.ltb_ge _ _)) by lia. split; [lia|]. intros j Hj. split; intros; [lia|nia].
  - rewrite Z.quot_div_nonneg by lia.
    pose proof (Z.div_mod (low - a) s ltac:(lia)) as D. pose proof (Z.mod_pos_bound (low - a) s Hs) as M.
    pose proof (Z.div_pos (low - a) s Hp Hs) as P. set (q := (low - a) / s) in *.
    rewrite (proj2 (Z.ltb_ge q 0)) by lia.
    destruct (q * s + a <? low) eqn:E; [apply Z.ltb_lt in E|apply Z.ltb_ge in E];
      (split; [lia|]; intros j Hj; split; intros HH; nia).
Qed.
Lemma track_loop_in tp high incl fuel : forall k c, 0 < tp_step tp -> tp_num tp - k <= Z.of_nat fuel ->
  (In c (track_loop fuel tp k high incl) <->
   exists j, k <= j < tp_num tp /\ c = tp_start tp + j * tp_step tp /\ (if incl then c <= high else c < high)).
Proof.
  induction fuel as [|f IH]; intros k c Hs Hf.
  { cbn. split; [tauto|]. intros (j & Hj & _). lia. }
  cbn [track_loop]. cbn zeta.
  destruct ((k <? tp_num tp) && (if incl then k * tp_step tp + tp_start tp <=? high else k * tp_step tp + tp_start tp <? high)) eqn:E.
  - apply andb_true_iff in E as [E1 E2]. cbn [In]. rewrite IH by lia. split.
    + intros [<- | (j & Hj & -> & Hh)].
      * exists k. split; [lia|]. split; [lia|]. destruct incl; lia.
      * exists j. split; [lia|]. split; [reflexivity|exact Hh].
    + intros (j & Hj & -> & Hh). destruct (Z.eq_dec j k) as [-> |N]; [left; lia|].
      right. exists j. split; [lia|]. split; [reflexivity|exact Hh].
  - split; [intros []|]. intros (j & Hj & -> & Hh). exfalso.
    apply andb_false_iff in E as [E|E]; [lia|]. destruct incl; nia.
Qed.
Lemma pattern_tracks_in tp low high incl : 0 < tp_step tp ->
  exists l, pattern_tracks tp low high incl = Some l /\
    forall c, In c l <-> on_pattern tp c /\ in_range incl low high c.
Proof.
  intros Hs. unfold pattern_tracks. rewrite (proj2 (Z.eqb_neq _ _)) by lia.
  eexists. split; [reflexivity|]. intros c.
  destruct (first_track_spec tp low Hs) as [F0 F1].
  rewrite track_loop_in by lia. unfold on_pattern, in_range. split.
  - intros (j & Hj & -> & Hh). split; [exists j; split; [lia|reflexivity]|]. split; [|exact Hh].
    apply F1; lia.
  - intros ((j & Hj & ->) & Hl & Hh). exists j. split; [|split; [reflexivity|exact Hh]].
    apply F1 in Hl; lia.
Qed.
Lemma set_ins_in c l a : In a (set_ins c l) <-> a = c \/ In a l.
Proof.
  induction l as [|b r IH]; cbn [set_ins]; [cbn; intuition|].
  destruct (c <? b); [cbn [In]; intuition|]. destruct (c =? b) eqn:E.
  - apply Z.eqb_eq in E. subst. cbn [In]. intuition.
  - cbn [In]. rewrite IH. intuition.
Qed.
Lemma set_ins_sorted c l : sorted_lt l -> sorted_lt (set_ins c l).
Proof.
  induction l as [|b r IH]; intros S; cbn [set_ins].
  { apply sorted_lt_cons; [intros x []|apply sorted_lt_nil]. }
  destruct (c <? b) eqn:E.
  - apply sorted_lt_cons; [|assumption]. intros x [<- |Hx]; [lia|]. pose proof (sorted_lt_head _ _ _ S Hx). lia.
  - destruct (c =? b) eqn:E2; [assumption|]. apply sorted_lt_cons; [|apply IH; eapply sorted_lt_tail; exact S].
    intros x Hx. apply set_ins_in in Hx as [-> |Hx]; [lia|]. exact (sorted_lt_head _ _ _ S Hx).
Qed.
Lemma set_ins_all_in cs : forall l a, In a (set_ins_all cs l) <-> In a cs \/ In a l.
Proof.
  induction cs as [|c cs IH]; intros l a; unfold set_ins_all in *; cbn [fold_left]; [cbn; tauto|].
  rewrite IH, set_ins_in. cbn [In]. intuition.
Qed.
Lemma set_ins_all_sorted cs : forall l, sorted_lt l -> sorted_lt (set_ins_all cs l).
Proof.
  induction cs as [|c cs IH]; intros l S; unfold set_ins_all in *; cbn [fold_left]; [assumption|].
  apply IH, set_ins_sorted, S.
Qed.
Lemma along_dec tp horz :
  (horz && negb (tp_isX tp)) || (negb horz && tp_isX tp) = true <-> along tp horz.
Proof. unfold along. destruct horz, (tp_isX tp); cbn; intuition congruence. Qed.
Lemma along_dec2 tp horz :
  (tp_isX tp && negb horz) || (negb (tp_isX tp) && horz) = true <-> along tp horz.
Proof. unfold along. destruct horz, (tp_isX tp); cbn; intuition congruence. Qed.

Lemma ta_tracks_spec tps layer horz low high : forall acc, steps_positive tps -> sorted_lt acc ->
  exists l, ta_tracks tps layer horz low high acc = Some l /\ sorted_lt l /\
    forall c, In c l <-> In c acc \/
      exists tp, In tp tps /\ tp_layer tp = layer /\ along tp horz /\ on_pattern tp c /\ in_range false low high c.
Proof.
  induction tps as [|tp r IH]; intros acc Hs Hsa.
  { exists acc. split; [reflexivity|]. split; [assumption|]. intros c. split; [tauto|].
    intros [?|(? & [] & _)]; assumption. }
  assert (Hr : steps_positive r) by (intros t Ht; apply Hs; right; exact Ht).
  cbn [ta_tracks].
  destruct ((tp_layer tp =? layer) && ((horz && negb (tp_isX tp)) || (negb horz && tp_isX tp))) eqn:E.
  - apply andb_true_iff in E as [E1 E2]. apply along_dec in E2. apply Z.eqb_eq in E1.
    destruct (pattern_tracks_in tp low high false (Hs tp (or_introl eq_refl))) as (cs & -> & Hcs).
    destruct (IH (set_ins_all cs acc) Hr (set_ins_all_sorted cs acc Hsa)) as (l & -> & Sl & Hl).
    exists l. split; [reflexivity|]. split; [assumption|]. intros c. rewrite Hl, set_ins_all_in, Hcs. split.
    + intros [[[Ho Hi]|Ha]|(tp' & Hi & HH)]; [right; exists tp; cbn [In]; tauto|tauto|].
      right; exists tp'; cbn [In]; tauto.
    + intros [Ha|(tp' & [<- |Hi] & HH)]; [tauto|tauto|]. right. exists tp'. tauto.
  - destruct (IH acc Hr Hsa) as (l & -> & Sl & Hl).
    exists l. split; [reflexivity|]. split; [assumption|]. intros c. rewrite Hl. split.
    + intros [?|(tp' & Hi & HH)]; [tauto|]. right. exists tp'. cbn [In]. tauto.
    + intros [?|(tp' & [<- |Hi] & HH)]; [tauto| |right; exists tp'; tauto].
      exfalso. destruct HH as (H1 & H2 & _). apply along_dec in H2.
      rewrite H1, Z.eqb_refl, H2 in E. discriminate.
Qed.
Lemma dr_track_locs_spec tps layer horz low high : forall acc, steps_positive tps -> sorted_lt acc ->
  exists l, dr_track_locs tps layer horz low high acc = Some l /\ sorted_lt l /\
    forall c, In c l <-> In c acc \/
      exists tp, In tp tps /\ tp_layer tp = layer /\ along tp horz /\ on_pattern tp c /\ in_range true low high c.
Proof.
  induction tps as [|tp r IH]; intros acc Hs Hsa.
  { exists acc. split; [reflexivity|]. split; [assumption|]. intros c. split; [tauto|].
    intros [?|(? & [] & _)]; assumption. }
  assert (Hr : steps_positive r) by (intros t Ht; apply Hs; right; exact Ht).
  cbn [dr_track_locs].
  destruct ((tp_layer tp =? layer) && ((tp_isX tp && negb horz) || (negb (tp_isX tp) && horz))) eqn:E.
  - apply andb_true_iff in E as [E1 E2]. apply along_dec2 in E2. apply Z.eqb_eq in E1.
    destruct (pattern_tracks_in tp low high true (Hs tp (or_introl eq_refl))) as (cs & -> & Hcs).
    destruct (IH (set_ins_all cs acc) Hr (set_ins_all_sorted cs acc Hsa)) as (l & -> & Sl & Hl).
    exists l. split; [reflexivity|]. split; [assumption|]. intros c. rewrite Hl, set_ins_all_in, Hcs. split.
    + intros [[[Ho Hi]|Ha]|(tp' & Hi & HH)]; [right; exists tp; cbn [In]; tauto|tauto|].
      right; exists tp'; cbn [In]; tauto.
    + intros [Ha|(tp' & [<- |Hi] & HH)]; [tauto|tauto|]. right. exists tp'. tauto.
  - destruct (IH acc Hr Hsa) as (l & -> & Sl & Hl).
    exists l. split; [reflexivity|]. split; [assumption|]. intros c. rewrite Hl. split.
    + intros [?|(tp' & Hi & HH)]; [tauto|]. right. exists tp'. cbn [In]. tauto.
    + intros [?|(tp' & [<- |Hi] & HH)]; [tauto| |right; exists tp'; tauto].
      exfalso. destruct HH as (H1 & H2 & _). apply along_dec2 in H2.
      rewrite H1, Z.eqb_refl, H2 in E. discriminate.
Qed.

(* --- the maps ---------------------------------------------------------------------------- *)
Definition tm_get (m : tmap) (c l : Z) : option bool :=
  match find (fun e => fst e =? c) m with Some (_, s) => sub_get s l | None => None end.
Lemma sub_set_get s l v l' : sub_get (sub_set s l v) l' = if l' =? l then Some v else sub_get s l'.
Proof.
  induction s as [|[k w] r IH]; cbn [sub_set sub_get].
  - reflexivity.
  - destruct (l =? k) eqn:E; cbn [sub_get].
    + apply Z.eqb_eq in E. subst k. destruct (l' =? l) eqn:E2; reflexivity.
    + destruct (l' =? k) eqn:E2; [|exact IH]. destruct (l' =? l) eqn:E3; [lia|reflexivity].
Qed.
Lemma tm_set_get m : forall c l v c' l', sorted_lt (map fst m) ->
  tm_get (tm_set m c l v) c' l' = if (c' =? c) && (l' =? l) then Some v else tm_get m c' l'.
Proof.
  induction m as [|[k s] r IH]; intros c l v c' l' S; cbn [tm_set].
  - unfold tm_get. cbn. destruct (c' =? c) eqn:E.
    + apply Z.eqb_eq in E. subst. rewrite Z.eqb_refl. cbn. destruct (l' =? l); reflexivity.
    + rewrite Z.eqb_sym, E. reflexivity.
  - cbn [map fst] in S. pose proof (sorted_lt_tail _ _ S) as S'.
    destruct (c <? k) eqn:E.
    + unfold tm_get. cbn [find fst]. destruct (c =? c') eqn:E2.
      * apply Z.eqb_eq in E2. subst c'. rewrite Z.eqb_refl. cbn [sub_get].
        assert (Hn : find (fun e : Z * list (Z * bool) => fst e =? c) ((k, s) :: r) = None).
        { cbn [find fst]. rewrite (proj2 (Z.eqb_neq k c)) by lia.
          destruct (find _ r) as [[kk ss]|] eqn:Ef; [|reflexivity]. apply find_some in Ef as [Hin Heq].
          cbn in Heq. apply (in_map fst) in Hin. pose proof (sorted_lt_head _ _ _ S Hin) as F. cbn in F. lia. }
        cbn [find fst] in Hn. rewrite Hn. destruct (l' =? l); reflexivity.
      * rewrite Z.eqb_sym in E2. rewrite E2. reflexivity.
    + destruct (c =? k) eqn:E1.
      * apply Z.eqb_eq in E1. subst k. unfold tm_get. cbn [find fst].
        destruct (c =? c') eqn:E2.
        -- apply Z.eqb_eq in E2. subst. rewrite Z.eqb_refl. cbn [andb]. apply sub_set_get.
        -- rewrite Z.eqb_sym in E2. rewrite E2. reflexivity.
      * unfold tm_get in *. cbn [find fst]. destruct (k =? c') eqn:E2.
        -- apply Z.eqb_eq in E2. subst. rewrite (proj2 (Z.eqb_neq c' c)) by lia. reflexivity.
        -- exact (IH c l v c' l' S').
Qed.
Lemma tm_set_keys_in m : forall c l v a, In a (map fst (tm_set m c l v)) <-> a = c \/ In a (map fst m).
Proof.
  induction m as [|[k s] r IH]; intros c l v a; cbn [tm_set]; [cbn; intuition|].
  destruct (c <? k); [cbn; intuition|]. destruct (c =? k) eqn:E.
  - apply Z.eqb_eq in E. subst. cbn. intuition.
  - cbn [map fst In]. rewrite IH. intuition.
Qed.
Lemma tm_set_sorted m : forall c l v, sorted_lt (map fst m) -> sorted_lt (map fst (tm_set m c l v)).
Proof.
  induction m as [|[k s] r IH]; intros c l v S; cbn [tm_set].
  { cbn. apply sorted_lt_cons; [intros x []|apply sorted_lt_nil]. }
  cbn [map fst] in S. pose proof (sorted_lt_tail _ _ S) as S'.
  destruct (c <? k) eqn:E; [|destruct (c =? k) eqn:E1]; cbn [map fst].
  - apply sorted_lt_cons; [|exact S]. intros x [<- |Hx]; [lia|]. pose proof (sorted_lt_head _ _ _ S Hx). lia.
  - exact S.
  - apply sorted_lt_cons; [|apply IH, S'].
    intros a Ha. apply tm_set_keys_in in Ha as [-> |Ha]; [lia|]. exact (sorted_lt_head _ _ _ S Ha).
Qed.
Definition sel (isx : bool) (mm : tmap * tmap) : tmap := if isx then fst mm else snd mm.
Definition mm_ok (mm : tmap * tmap) : Prop := forall isx, sorted_lt (map fst (sel isx mm)).
Lemma apply_entry_ok mm e : mm_ok mm -> mm_ok (apply_entry mm e).
Proof.
  intros H isx. specialize (H isx). unfold apply_entry. destruct (te_x e), isx; cbn in *;
    try exact H; apply tm_set_sorted, H.
Qed.
Lemma apply_entry_get mm e isx c l : mm_ok mm ->
  tm_get (sel isx (apply_entry mm e)) c l =
  if Bool.eqb isx (te_x e) && (c =? te_c e) && (l =? te_l e) then Some (te_v e) else tm_get (sel isx mm) c l.
Proof.
  intros H. unfold apply_entry. destruct (te_x e), isx; cbn [sel fst snd Bool.eqb andb]; try reflexivity.
  - apply tm_set_get, (H true).
  - apply tm_set_get, (H false).
Qed.
Lemma apply_entry_keys mm e isx c :
  In c (map fst (sel isx (apply_entry mm e))) <-> (isx = te_x e /\ c = te_c e) \/ In c (map fst (sel isx mm)).
Proof.
  unfold apply_entry. destruct (te_x e), isx; cbn [sel fst snd]; rewrite ?tm_set_keys_in; intuition congruence.
Qed.
Lemma fold_entries_ok es : forall mm, mm_ok mm -> mm_ok (fold_left apply_entry es mm).
Proof. induction es as [|e es IH]; intros mm H; cbn [fold_left]; [assumption|]. apply IH, apply_entry_ok, H. Qed.
Lemma fold_entries_keys es : forall mm isx c,
  In c (map fst (sel isx (fold_left apply_entry es mm))) <->
  (exists e, In e es /\ isx = te_x e /\ c = te_c e) \/ In c (map fst (sel isx mm)).
Proof.
  induction es as [|e es IH]; intros mm isx c; cbn [fold_left].
  - split; [tauto|]. intros [(? & [] & _)|?]; assumption.
  - rewrite IH, apply_entry_keys. split.
    + intros [(e' & H & E)|[E|H]]; [left; exists e'; cbn [In]; tauto|left; exists e; cbn [In]; tauto|tauto].
    + intros [(e' & [<- |H] & E)|H]; [tauto|left; exists e'; tauto|tauto].
Qed.
(* a run of entries all with the same flag *)
Lemma fold_entries_get es v : forall mm isx c l, mm_ok mm -> Forall (fun e => te_v e = v) es ->
  tm_get (sel isx (fold_left apply_entry es mm)) c l =
  if existsb (fun e => Bool.eqb isx (te_x e) && (c =? te_c e) && (l =? te_l e)) es then Some v
  else tm_get (sel isx mm) c l.
Proof.
  induction es as [|e es IH]; intros mm isx c l H F; cbn [fold_left existsb]; [reflexivity|].
  inversion F as [|? ? F1 F2]; subst. rewrite IH by (try assumption; apply apply_entry_ok, H).
  rewrite apply_entry_get by assumption.
  destruct (existsb _ es); [rewrite orb_true_r; reflexivity|]. rewrite orb_false_r. reflexivity.
Qed.
Lemma existsb_entry es isx c l :
  existsb (fun e => Bool.eqb isx (te_x e) && (c =? te_c e) && (l =? te_l e)) es = true <->
  exists e, In e es /\ te_x e = isx /\ te_c e = c /\ te_l e = l.
Proof.
  rewrite existsb_exists. split; intros (e & Hi & H); exists e; split; try assumption.
  - apply andb_true_iff in H as [H H3]. apply andb_true_iff in H as [H1 H2].
    apply eqb_prop in H1. lia.
  - destruct H as (-> & -> & ->). rewrite !Z.eqb_refl, Bool.eqb_reflx. reflexivity.
Qed.
