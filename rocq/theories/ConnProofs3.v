(* Merging of overlapping wires: the whole net. *)
From Verif Require Import Base GeomModel ConnModel ConnSpec ConnProofs ConnProofs2.
From Coq Require Import Permutation Sorted.

Lemma set_nth_length {A} i (v : A) l : length (set_nth i v l) = length l.
Proof. revert i; induction l; intros [|i]; cbn; auto. Qed.
Lemma set_nth_nth {A} i (v : A) l d j : (i < length l)%nat -> nth j (set_nth i v l) d = if Nat.eqb j i then v else nth j l d.
Proof.
  revert i j; induction l as [|a l IH]; cbn; intros i j Hi; [lia|]. destruct i, j; cbn; auto. apply IH. lia.
Qed.
Lemma commit_nth t : forall vs ss objs, NoDup vs -> (forall v, In v vs -> (v < length objs)%nat) ->
  length (merge_commit t vs ss objs) = length objs /\
  (forall i, ~ In i vs -> nth i (merge_commit t vs ss objs) None = nth i objs None) /\
  (forall j v, nth_error vs j = Some v -> nth v (merge_commit t vs ss objs) None =
     match nth_error ss j with Some s => set_span t s (nth v objs None) | None => None end).
Proof.
  induction vs as [|w vs IH]; intros ss objs Hn Hl.
  { cbn [merge_commit]. repeat split; auto. intros [|j] v H; discriminate. }
  inversion Hn as [|? ? Hw Hd]; subst.
  assert (St : forall ss' o, (length (merge_commit t vs ss' (set_nth w o objs)) = length objs /\
     (forall i, ~ In i (w :: vs) -> nth i (merge_commit t vs ss' (set_nth w o objs)) None = nth i objs None) /\
     nth w (merge_commit t vs ss' (set_nth w o objs)) None = o /\
     (forall j v, nth_error vs j = Some v -> nth v (merge_commit t vs ss' (set_nth w o objs)) None =
     match nth_error ss' j with Some s => set_span t s (nth v objs None) | None => None end))).
  { intros ss' o. destruct (IH ss' (set_nth w o objs) Hd) as (I1 & I2 & I3).
    { intros v Hv. rewrite set_nth_length. apply Hl. cbn; auto. }
    assert (Lw : (w < length objs)%nat) by (apply Hl; cbn; auto).
    rewrite set_nth_length in I1. split; [assumption|]. split; [|split].
    - intros i Hi. cbn in Hi. rewrite I2 by tauto. rewrite set_nth_nth by assumption. destruct (Nat.eqb_spec i w); [subst; tauto|reflexivity].
    - rewrite I2 by assumption. rewrite set_nth_nth by assumption. rewrite Nat.eqb_refl. reflexivity.
    - intros j v Hv. rewrite (I3 j v Hv). rewrite set_nth_nth by assumption. destruct (Nat.eqb_spec v w); [subst; apply nth_error_In in Hv; contradiction|reflexivity]. }
  cbn [merge_commit]. destruct ss as [|s ss].
  - destruct (St [] None) as (I1 & I2 & I3 & I4). repeat split; auto.
    intros [|j] v Hv; cbn in *; [injection Hv as <-; assumption|]. rewrite (I4 j v Hv). destruct j; reflexivity.
  - destruct (St ss (set_span t s (nth w objs None))) as (I1 & I2 & I3 & I4). repeat split; auto.
    intros [|j] v Hv; cbn in *; [injection Hv as <-; assumption|]. apply I4. assumption.
Qed.

Lemma track_eqb_eq a b : track_eqb a b = true <-> a = b.
Proof.
  destruct a as [[a1 a2] a3], b as [[b1 b2] b3]. cbn. rewrite !andb_true_iff, eqb_true_iff, !Z.eqb_eq. split; [intros [[-> ->] ->]; reflexivity|intros H; injection H as -> -> ->; auto].
Qed.
Lemma track_eq_dec (a b : track) : {a = b} + {a <> b}.
Proof. destruct (track_eqb a b) eqn:E; [left; apply track_eqb_eq; assumption|right; intros ->; rewrite (proj2 (track_eqb_eq b b) eq_refl) in E; discriminate]. Qed.
Lemma on_track_iff t o : on_track t o = true <-> track_of o = Some t.
Proof.
  unfold on_track. destruct (track_of o) as [t'|]; [|intuition discriminate]. rewrite track_eqb_eq. split; congruence.
Qed.

Lemma tracks_of_spec objs : forall seen, NoDup seen -> NoDup (tracks_of objs seen) /\ (forall t, In t (tracks_of objs seen) <-> In t seen \/ exists o, In o objs /\ track_of o = Some t).
Proof.
  induction objs as [|o objs IH]; intros seen Hn; cbn [tracks_of].
  - split; [assumption|]. intros t. split; [auto|]. intros [?|(o & [] & _)]. assumption.
  - destruct (track_of o) as [t0|] eqn:E.
    + set (seen' := if existsb (track_eqb t0) seen then seen else seen ++ [t0]).
      assert (Hi : forall t, In t seen' <-> In t seen \/ t = t0).
      { intros t. unfold seen'. destruct (existsb (track_eqb t0) seen) eqn:Ex.
        - apply existsb_exists in Ex as (t1 & H1 & H2). apply track_eqb_eq in H2. subst t1. split; [auto|]. intros [?| ->]; assumption.
        - rewrite in_app_iff. cbn. intuition. }
      assert (Hn' : NoDup seen').
      { unfold seen'. destruct (existsb (track_eqb t0) seen) eqn:Ex; [assumption|]. apply NoDup_Add with (a := t0) (l := seen).
        - rewrite <- (app_nil_r seen) at 1. apply Add_app.
        - split; [assumption|]. intros Hi'. assert (existsb (track_eqb t0) seen = true) by (apply existsb_exists; exists t0; split; [assumption|apply track_eqb_eq; reflexivity]). congruence. }
      destruct (IH seen' Hn') as [I1 I2]. split; [assumption|]. intros t. rewrite I2, Hi. split.
      * intros [[?| ->]|(o' & ? & ?)]; [auto|right; exists o; cbn; auto|right; exists o'; cbn; auto].
      * intros [?|(o' & [<-|Ho] & Ht)]; [auto|left; right; congruence|right; eauto].
    + destruct (IH seen Hn) as [I1 I2]. split; [assumption|]. intros t. rewrite I2. split.
      * intros [?|(o' & ? & ?)]; [auto|right; exists o'; cbn; auto].
      * intros [?|(o' & [<-|Ho] & Ht)]; [auto|congruence|right; eauto].
Qed.

Lemma in_numbered {A} (l : list A) i x : In (i, x) (numbered l) <-> nth_error l i = Some x.
Proof.
  unfold numbered. enough (H : forall k, In (i, x) (combine (seq k (length l)) l) <-> (k <= i)%nat /\ nth_error l (i - k) = Some x).
  { rewrite H. rewrite Nat.sub_0_r. intuition lia. }
  induction l as [|a l IH]; intros k; cbn [length seq combine In].
  - destruct (i - k)%nat; cbn; intuition discriminate.
  - rewrite IH. split.
    + intros [H|[H1 H2]]; [injection H as -> ->; rewrite Nat.sub_diag; cbn; auto|]. replace (i - k)%nat with (S (i - S k)) by lia. cbn. split; [lia|assumption].
    + intros [H1 H2]. destruct (Nat.eq_dec i k) as [->|]; [left; rewrite Nat.sub_diag in H2; cbn in H2; congruence|].
      right. split; [lia|]. replace (i - k)%nat with (S (i - S k)) in H2 by lia. assumption.
Qed.
Lemma numbered_fst {A} (l : list A) : map fst (numbered l) = seq 0 (length l).
Proof.
  unfold numbered. generalize 0%nat. induction l as [|a l IH]; intros k; cbn; [reflexivity|]. f_equal. apply IH.
Qed.

Section Net.
Variable net : list robj.
Hypothesis ok : Forall wire_ok net.
Let objs0 := map Some net.
Let V t := fst (merge_perform t objs0).
Let N t := snd (merge_perform t objs0).

Lemma nth_objs0 i o : nth i objs0 None = Some o <-> nth_error net i = Some o.
Proof.
  unfold objs0. revert i; induction net as [|a l IH]; intros [|i]; cbn; try (intuition congruence); apply IH. now inversion ok.
Qed.
Lemma spans_in t s : In s (obj_spans t objs0) <-> exists o, nth_error net (si s) = Some o /\ track_of o = Some t /\ span_of o = (sb s, se s).
Proof.
  unfold obj_spans. rewrite in_flat_map. split.
  - intros ([i [o|]] & Hi & Hs); [|destruct Hs]. apply in_numbered in Hi.
    destruct (on_track t o) eqn:E; [|destruct Hs]. destruct Hs as [<-|[]]. exists o. cbn. split.
    + apply nth_objs0. apply nth_error_nth with (d := None) in Hi. assumption.
    + split; [apply on_track_iff; assumption|]. apply surjective_pairing.
  - intros (o & H1 & H2 & H3). exists (si s, Some o). split.
    + apply in_numbered. unfold objs0. apply map_nth_error. assumption.
    + rewrite (proj2 (on_track_iff t o) H2). rewrite H3. destruct s as [[b e] i]. cbn. auto.
Qed.
Lemma spans_nodup t : NoDup (map si (obj_spans t objs0)).
Proof.
  unfold obj_spans.
  assert (H : forall l : list (nat * option robj), NoDup (map fst l) -> NoDup (map si (flat_map (fun '(i, o) => match o with
     | Some o => if on_track t o then [(fst (span_of o), snd (span_of o), i)] else []
     | None => [] end) l)) /\ forall i, In i (map si (flat_map (fun '(i, o) => match o with
     | Some o => if on_track t o then [(fst (span_of o), snd (span_of o), i)] else []
     | None => [] end) l)) -> In i (map fst l)).
  { induction l as [|[i [o|]] l IH]; cbn [map flat_map fst]; intros Hn.
    - split; [constructor|easy].
    - inversion Hn as [|? ? Hi Hd]; subst. destruct (IH Hd) as [I1 I2]. destruct (on_track t o); cbn [app map].
      + split; [constructor; [intros Hc; apply Hi, I2, Hc|assumption]|]. intros j [<-|Hj]; [cbn; auto|right; auto].
      + split; [assumption|]. intros j Hj. right. auto.
    - inversion Hn; subst. destruct (IH H2) as [I1 I2]. cbn [app]. split; [assumption|]. intros j Hj. right. auto. }
  apply H. rewrite numbered_fst. apply seq_NoDup.
Qed.
Lemma spans_lt t s : In s (obj_spans t objs0) -> sb s < se s.
Proof.
  intros Hs. apply spans_in in Hs as (o & H1 & H2 & H3).
  apply nth_error_In in H1. rewrite Forall_forall in ok. specialize (ok o H1). destruct o as [bp ep l tb te|]; [|discriminate].
  cbn in *. destruct (px bp =? px ep) eqn:E; injection H3 as <- <-; lia.
Qed.

Lemma V_track t i : In i (V t) -> exists o, nth_error net i = Some o /\ track_of o = Some t.
Proof.
  intros Hi. destruct (vic_from (obj_spans t objs0) (spans_lt t) (spans_nodup t) i Hi) as (s & Hs & <-).
  apply spans_in in Hs as (o & ? & ? & _). eauto.
Qed.
Lemma V_nodup t : NoDup (V t).
Proof. apply vic_nodup; [apply spans_lt|apply spans_nodup]. Qed.
Lemma V_len t v : In v (V t) -> (v < length objs0)%nat.
Proof.
  intros Hv. destruct (V_track t v Hv) as (o & Ho & _). unfold objs0. rewrite map_length. apply nth_error_Some. congruence.
Qed.

(* what happens to the object at position i *)
Definition fate (t : track) (i : nat) : option robj := nth i (merge_commit t (V t) (N t) objs0) None.
Definition otrack (i : nat) : option track := match nth_error net i with Some o => track_of o | None => None end.
Lemma fold_commit : forall ts cur, NoDup ts -> length cur = length objs0 ->
  (forall i t, In t ts -> otrack i = Some t -> nth i cur None = nth i objs0 None) ->
  forall i, nth i (fold_left commit_one (merge_plan objs0 ts) cur) None =
    match otrack i with Some t => if in_dec track_eq_dec t ts then fate t i else nth i cur None | None => nth i cur None end.
Proof.
  induction ts as [|t ts IH]; intros cur Hn Hl Hc i; cbn [merge_plan map fold_left].
  - destruct (otrack i); reflexivity.
  - inversion Hn as [|? ? Ht Hd]; subst.
    unfold commit_one at 2. cbn [fst snd]. fold (V t) (N t).
    destruct (commit_nth t (V t) (N t) cur (V_nodup t) ltac:(intros v Hv; rewrite Hl; apply (V_len t v Hv))) as (C1 & C2 & C3).
    assert (Hout : forall j, otrack j <> Some t -> nth j (merge_commit t (V t) (N t) cur) None = nth j cur None).
    { intros j Hj. apply C2. intros Hv. destruct (V_track t j Hv) as (o & Ho & Hto). apply Hj. unfold otrack. rewrite Ho. assumption. }
    assert (Hin : forall j, otrack j = Some t -> nth j (merge_commit t (V t) (N t) cur) None = fate t j).
    { intros j Hj. assert (E : nth j cur None = nth j objs0 None) by (apply (Hc j t); cbn; auto).
      unfold fate. destruct (commit_nth t (V t) (N t) objs0 (V_nodup t) (V_len t)) as (_ & D2 & D3).
      destruct (in_dec Nat.eq_dec j (V t)) as [Hv|Hv].
      - apply In_nth_error in Hv as (k & Hk). rewrite (C3 k j Hk), (D3 k j Hk), E. reflexivity.
      - rewrite (C2 j Hv), (D2 j Hv). assumption. }
    change (map (fun t0 => (t0, merge_perform t0 objs0)) ts) with (merge_plan objs0 ts).
    rewrite IH; [|assumption|rewrite C1; assumption|].
    2:{ intros j t' Ht' Hj. rewrite Hout; [apply (Hc j t'); cbn; auto|]. rewrite Hj. intros E. injection E as ->. contradiction. }
    destruct (otrack i) as [t'|] eqn:E.
    + destruct (in_dec track_eq_dec t' (t :: ts)) as [Hi|Hi], (in_dec track_eq_dec t' ts) as [Hi'|Hi']; try reflexivity.
      * destruct Hi as [<-|Hi]; [|contradiction]. apply Hin. assumption.
      * exfalso. apply Hi. cbn. auto.
      * apply Hout. rewrite E. intros Ec. injection Ec as ->. apply Hi. cbn. auto.
    + apply Hout. rewrite E. discriminate.
Qed.
Definition merged : list (option robj) := fold_left commit_one (merge_plan objs0 (tracks_of net [])) objs0.
Lemma merged_length : length merged = length net.
Proof.
  unfold merged. replace (length net) with (length objs0) by (unfold objs0; apply map_length).
  assert (H : forall ts cur, length cur = length objs0 -> length (fold_left commit_one (merge_plan objs0 ts) cur) = length objs0); [|apply H; reflexivity].
  induction ts as [|t ts IH]; intros cur Hl; cbn [merge_plan map fold_left]; [assumption|]. apply IH.
  unfold commit_one. cbn [fst snd]. fold (V t) (N t).
  destruct (commit_nth t (V t) (N t) cur (V_nodup t) ltac:(intros v Hv; rewrite Hl; apply (V_len t v Hv))) as (C1 & _). congruence.
Qed.
Lemma merged_nth i : nth i merged None = match otrack i with Some t => fate t i | None => nth i objs0 None end.
Proof.
  unfold merged. rewrite fold_commit; [|apply (proj1 (tracks_of_spec net [] (NoDup_nil _)))|reflexivity|auto].
  destruct (otrack i) as [t|] eqn:E; [|reflexivity]. destruct (in_dec track_eq_dec t (tracks_of net [])) as [Hi|Hi]; [reflexivity|].
  exfalso. apply Hi. apply (proj2 (tracks_of_spec net [] (NoDup_nil _))). right. unfold otrack in E. destruct (nth_error net i) as [o|] eqn:Eo; [|discriminate]. apply nth_error_In in Eo. eauto.
Qed.
Lemma fate_spec t i o : nth_error net i = Some o -> track_of o = Some t ->
  (~ In i (V t) /\ fate t i = Some o) \/
  (exists j s, nth_error (V t) j = Some i /\ nth_error (N t) j = Some s /\ fate t i = set_span t s (Some o)) \/
  (exists j, nth_error (V t) j = Some i /\ nth_error (N t) j = None /\ fate t i = None).
Proof.
  intros Ho Ht. unfold fate. destruct (commit_nth t (V t) (N t) objs0 (V_nodup t) (V_len t)) as (_ & D2 & D3).
  apply nth_objs0 in Ho. destruct (in_dec Nat.eq_dec i (V t)) as [Hv|Hv].
  - right. apply In_nth_error in Hv as (j & Hj). specialize (D3 j i Hj). destruct (nth_error (N t) j) as [s|] eqn:E.
    + left. exists j, s. rewrite D3, Ho. auto.
    + right. exists j. auto.
  - left. split; [assumption|]. rewrite D2 by assumption. assumption.
Qed.

(* position on a track *)
Definition along (t : track) (x y : Z) : Z := if fst (fst t) then y else x.
Definition across (t : track) (x y : Z) : Z := if fst (fst t) then x else y.
Lemma covers_track o t l x y : wire_ok o -> track_of o = Some t ->
  covers o l x y <-> l = snd (fst t) /\ across t x y = 2 * snd t /\ 2 * fst (span_of o) <= along t x y <= 2 * snd (span_of o).
Proof.
  destruct o as [bp ep l' tb te|]; [|discriminate]. unfold covers, track_of, span_of, wire_ok, along, across. intros Hok Ht.
  destruct (px bp =? px ep) eqn:E; [injection Ht as <-; cbn [fst snd]; lia|]. destruct (py bp =? py ep) eqn:E2; [|discriminate]. injection Ht as <-. cbn [fst snd]. lia.
Qed.
Lemma set_span_ok t s o : wire_ok o -> track_of o = Some t -> fst s < snd s ->
  exists o', set_span t s (Some o) = Some o' /\ wire_ok o' /\ track_of o' = Some t /\ span_of o' = s.
Proof.
  destruct o as [bp ep l' tb te|]; [|discriminate]. cbn. intros Hok Ht Hs. destruct s as [b e]. cbn [fst snd] in *.
  destruct (px bp =? px ep) eqn:E.
  - injection Ht as <-. eexists. split; [reflexivity|]. cbn. rewrite Z.eqb_refl. auto.
  - destruct (py bp =? py ep) eqn:E2; [|discriminate]. injection Ht as <-. eexists. split; [reflexivity|]. cbn. rewrite Z.eqb_refl.
    replace (b =? e) with false by lia. auto.
Qed.
Lemma N_lt t s : In s (N t) -> fst s < snd s.
Proof. apply merge_new_lt; [apply spans_lt|apply spans_nodup]. Qed.
Lemma net_ok i o : nth_error net i = Some o -> wire_ok o.
Proof. intros H. apply nth_error_In in H. rewrite Forall_forall in ok. auto. Qed.

(* survivors: vias, untouched wires, and wires that took over a merged span *)
Lemma merged_some i o' : nth i merged None = Some o' ->
  exists o, nth_error net i = Some o /\ wire_ok o' /\ track_of o' = track_of o /\
   ((o' = o /\ forall t, track_of o = Some t -> ~ In i (V t)) \/
    exists t j s, track_of o = Some t /\ nth_error (V t) j = Some i /\ nth_error (N t) j = Some s /\ span_of o' = s).
Proof.
  intros H. rewrite merged_nth in H. unfold otrack in H. destruct (nth_error net i) as [o|] eqn:Eo.
  - exists o. split; [reflexivity|]. pose proof (net_ok i o Eo) as Ho. destruct (track_of o) as [t|] eqn:Et.
    + destruct (fate_spec t i o Eo Et) as [(Hv & F)|[(j & s & Hj & Hs & F)|(j & _ & _ & F)]].
      * rewrite F in H. injection H as <-. split; [assumption|]. split; [assumption|]. left. split; [reflexivity|]. intros t' Ht'. congruence.
      * rewrite F in H. destruct (set_span_ok t s o Ho Et) as (o2 & E2 & K1 & K2 & K3); [apply (N_lt t); eapply nth_error_In; eassumption|].
        rewrite E2 in H. injection H as <-. split; [assumption|]. split; [assumption|]. right. exists t, j, s. auto.
      * congruence.
    + apply nth_objs0 in H. assert (o' = o) as -> by congruence. split; [assumption|]. split; [assumption|]. left. split; [reflexivity|congruence].
  - apply nth_objs0 in H. congruence.
Qed.
Lemma in_live (l : list (option robj)) o : In o (live l) <-> exists i, nth i l None = Some o.
Proof.
  induction l as [|[a|] l IH]; cbn [live].
  - split; [easy|]. intros ([|i] & H); discriminate.
  - cbn. rewrite IH. split; [intros [->|(i & H)]; [exists 0%nat; reflexivity|exists (S i); assumption]|].
    intros ([|i] & H); [left; congruence|right; eauto].
  - rewrite IH. split; [intros (i & H); exists (S i); assumption|]. intros ([|i] & H); [discriminate|eauto].
Qed.
Lemma merge_net_in o : In o (merge_net net) <-> exists i, nth i merged None = Some o.
Proof. unfold merge_net. fold objs0. fold merged. apply in_live. Qed.

Lemma merged_kept i o t : nth_error net i = Some o -> track_of o = Some t -> ~ In i (V t) -> nth i merged None = Some o.
Proof.
  intros Ho Ht Hv. rewrite merged_nth. unfold otrack. rewrite Ho, Ht.
  destruct (fate_spec t i o Ho Ht) as [(_ & F)|[(j & s & Hj & _)|(j & Hj & _)]]; [assumption| |]; apply nth_error_In in Hj; contradiction.
Qed.
Lemma merged_new t s : In s (N t) -> exists i o o', nth_error net i = Some o /\ track_of o = Some t /\ nth i merged None = Some o' /\ wire_ok o' /\ track_of o' = Some t /\ span_of o' = s.
Proof.
  intros Hs. pose proof (N_lt t s Hs) as Hlt. apply In_nth_error in Hs as (j & Hj).
  assert (Lj : (j < length (N t))%nat) by (apply nth_error_Some; congruence).
  pose proof (merge_count (obj_spans t objs0) (spans_lt t) (spans_nodup t)) as Hc. fold (merge_perform t objs0) in Hc. fold (V t) (N t) in Hc.
  destruct (nth_error (V t) j) as [i|] eqn:Ei; [|apply nth_error_None in Ei; lia].
  destruct (V_track t i (nth_error_In _ _ Ei)) as (o & Ho & Ht).
  destruct (set_span_ok t s o (net_ok i o Ho) Ht Hlt) as (o' & E1 & E2 & E3 & E4).
  exists i, o, o'. split; [assumption|]. split; [assumption|]. split; [|auto].
  rewrite merged_nth. unfold otrack. rewrite Ho, Ht. unfold fate.
  destruct (commit_nth t (V t) (N t) objs0 (V_nodup t) (V_len t)) as (_ & _ & D3). rewrite (D3 j i Ei), Hj. apply nth_objs0 in Ho. rewrite Ho. assumption.
Qed.

Lemma merge_metal l x y : metal (merge_net net) l x y <-> metal net l x y.
Proof.
  pose proof (fun t => merge_cover (obj_spans t objs0) (spans_lt t) (spans_nodup t) (along t x y)) as Cov.
  split.
  - intros (o' & Ho' & Hc). apply merge_net_in in Ho' as (i & Hi).
    destruct (merged_some i o' Hi) as (o & Ho & K1 & K2 & [(-> & Hv)|(t & j & s & Ht & Hj & Hs & E)]).
    + exists o. split; [eapply nth_error_In; eassumption|assumption].
    + rewrite Ht in K2. apply (covers_track o' t) in Hc as (Hl & Ha & Hx); auto. rewrite E in Hx.
      destruct (proj2 (Cov t)) as (s' & Hs' & Hx'); [right; exists s; split; [eapply nth_error_In; exact Hs|assumption]|].
      apply spans_in in Hs' as (o2 & H1 & H2 & H3). exists o2. split; [eapply nth_error_In; eassumption|].
      apply (covers_track o2 t); [eapply net_ok; eassumption|assumption|]. rewrite H3. auto.
  - intros (o & Ho & Hc). apply In_nth_error in Ho as (i & Hi). pose proof (net_ok i o Hi) as Hok.
    destruct (track_of o) as [t|] eqn:Et; [|destruct o as [bp ep l' tb te|]; [cbn in Et, Hok; destruct (px bp =? px ep) eqn:?; [discriminate|]; destruct (py bp =? py ep) eqn:?; [discriminate|lia]|destruct Hc]].
    apply (covers_track o t) in Hc as (Hl & Ha & Hx); auto.
    destruct (proj1 (Cov t)) as [(s & Hs & Hv & Hx')|(n & Hn & Hx')].
    + exists (fst (span_of o), snd (span_of o), i). split; [apply spans_in; exists o; cbn; repeat split; auto; apply surjective_pairing|exact Hx].
    + apply spans_in in Hs as (o2 & H1 & H2 & H3). exists o2. split; [apply merge_net_in; exists (si s); eapply merged_kept; eassumption|].
      apply (covers_track o2 t); [eapply net_ok; eassumption|assumption|]. rewrite H3. auto.
    + destruct (merged_new t n Hn) as (k & o1 & o2 & _ & _ & E & W & T & S). exists o2. split; [apply merge_net_in; eauto|].
      apply (covers_track o2 t); [assumption|assumption|]. rewrite S. auto.
Qed.

Lemma merge_wires_ok : Forall wire_ok (merge_net net).
Proof.
  apply Forall_forall. intros o Ho. apply merge_net_in in Ho as (i & Hi). destruct (merged_some i o Hi) as (? & _ & H & _). assumption.
Qed.
Lemma live_length l : (length (live l) <= length l)%nat.
Proof. induction l as [|[a|] l IH]; cbn; lia. Qed.
Lemma merge_length : (length (merge_net net) <= length net)%nat.
Proof. unfold merge_net. fold objs0. fold merged. rewrite <- merged_length. apply live_length. Qed.

Lemma overlap_track a b : wire_ok a -> wire_ok b -> overlap a b ->
  exists t, track_of a = Some t /\ track_of b = Some t /\ fst (span_of a) < snd (span_of b) /\ fst (span_of b) < snd (span_of a).
Proof.
  destruct a as [p1 q1 l1 t1 u1|v1 v2 v3], b as [p2 q2 l2 t2 u2|w1 w2 w3]; cbn; try contradiction. intros H1 H2 (-> & [(A & B & C & D & E)|(A & B & C & D & E)]).
  - replace (px p1 =? px q1) with true by lia. replace (px p2 =? px q2) with true by lia. rewrite C. eexists. cbn. auto.
  - replace (px p1 =? px q1) with false by lia. replace (px p2 =? px q2) with false by lia. replace (py p1 =? py q1) with true by lia. replace (py p2 =? py q2) with true by lia. rewrite C. eexists. cbn. auto.
Qed.
Lemma track_overlap a b t : track_of a = Some t -> track_of b = Some t -> fst (span_of a) < snd (span_of b) -> fst (span_of b) < snd (span_of a) -> overlap a b.
Proof.
  destruct a as [p1 q1 l1 t1 u1|v1 v2 v3], b as [p2 q2 l2 t2 u2|w1 w2 w3]; cbn; try discriminate.
  destruct (px p1 =? px q1) eqn:E1, (px p2 =? px q2) eqn:E2; try (destruct (py p1 =? py q1) eqn:E3; [|discriminate]); try (destruct (py p2 =? py q2) eqn:E4; [|discriminate]);
  intros H1 H2; rewrite <- H2 in H1; injection H1; intros; subst; cbn in *; try discriminate; (split; [congruence|]); [left|right]; lia.
Qed.
Lemma merged_apart i j a b : i <> j -> nth i merged None = Some a -> nth j merged None = Some b -> ~ overlap a b.
Proof.
  intros Hij Ha Hb Ho.
  destruct (merged_some i a Ha) as (oa & Ea & Wa & Ta & Ca). destruct (merged_some j b Hb) as (ob & Eb & Wb & Tb & Cb).
  destruct (overlap_track a b Wa Wb Ho) as (t & T1 & T2 & O1 & O2).
  rewrite T1 in Ta. rewrite T2 in Tb.
  assert (SI : forall k o, nth_error net k = Some o -> track_of o = Some t -> In (fst (span_of o), snd (span_of o), k) (obj_spans t objs0)).
  { intros k o H1 H2. apply spans_in. exists o. cbn. repeat split; auto. apply surjective_pairing. }
  destruct Ca as [(-> & Va)|(ta & ja & sa & Tta & Ja & Na & Sa)], Cb as [(-> & Vb)|(tb & jb & sb' & Ttb & Jb & Nb & Sb)].
  - destruct (merge_sep_kept (obj_spans t objs0) (spans_lt t) (spans_nodup t) _ _ (SI i oa Ea T1) (SI j ob Eb T2) (Va t T1) (Vb t T2) Hij) as [H|H]; unfold sb, se in H; cbn [fst snd] in H; lia.
  - assert (tb = t) as -> by congruence. apply nth_error_In in Nb.
    destruct (merge_sep_new (obj_spans t objs0) (spans_lt t) (spans_nodup t) _ sb' (SI i oa Ea T1) (Va t T1) Nb) as [H|H]; rewrite Sb in *; unfold sb, se in H; cbn [fst snd] in H; lia.
  - assert (ta = t) as -> by congruence. apply nth_error_In in Na.
    destruct (merge_sep_new (obj_spans t objs0) (spans_lt t) (spans_nodup t) _ sa (SI j ob Eb T2) (Vb t T2) Na) as [H|H]; rewrite Sa in *; unfold sb, se in H; cbn [fst snd] in H; lia.
  - assert (ta = t) as -> by congruence. assert (tb = t) as -> by congruence. rewrite Sa in *. rewrite Sb in *.
    pose proof (merge_sep_news (obj_spans t objs0) (spans_lt t) (spans_nodup t)) as F. fold (merge_perform t objs0) in F. fold (N t) in F.
    assert (Hne : ja <> jb) by (intros ->; congruence).
    assert (O : forall (l : list (Z * Z)) j1 j2 x y, ForallOrdPairs (fun n n' => snd n <= fst n') l -> (j1 < j2)%nat -> nth_error l j1 = Some x -> nth_error l j2 = Some y -> snd x <= fst y).
    { induction l as [|c l IH]; intros j1 j2 x y Hf Hl H1 H2; [destruct j1; discriminate|]. inversion Hf as [|? ? Hh Ht]; subst. destruct j2 as [|j2]; [lia|].
      destruct j1 as [|j1]; cbn in H1, H2.
      - injection H1 as <-. rewrite Forall_forall in Hh. apply Hh. eapply nth_error_In; eassumption.
      - apply (IH j1 j2); auto. lia. }
    destruct (Nat.lt_ge_cases ja jb) as [L|L].
    + pose proof (O _ _ _ _ _ F L Na Nb). lia.
    + assert (L' : (jb < ja)%nat) by lia. pose proof (O _ _ _ _ _ F L' Nb Na). lia.
Qed.
(* positions among the survivors are positions in the net *)
Lemma live_nth (l : list (option robj)) : exists f, (forall i j, (i < j)%nat -> (j < length (live l))%nat -> (f i < f j)%nat) /\ forall i o, nth_error (live l) i = Some o -> nth (f i) l None = Some o.
Proof.
  induction l as [|[a|] l (f & F1 & F2)]; cbn [live].
  - exists (fun i => i). split; [auto|]. intros [|i] o H; discriminate.
  - exists (fun i => match i with O => O | S i => S (f i) end). split.
    + intros [|i] [|j] Hij Hj; cbn in *; try lia. specialize (F1 i j). lia.
    + intros [|i] o H; cbn in *; [assumption|auto].
  - exists (fun i => S (f i)). split; [intros i j Hij Hj; specialize (F1 i j Hij Hj); lia|]. intros i o H. cbn. auto.
Qed.
Lemma overlap_sym a b : overlap a b -> overlap b a.
Proof. destruct a, b; cbn; try tauto. intros (-> & H). split; [reflexivity|]. lia. Qed.
Lemma merge_no_overlap : no_overlap (merge_net net).
Proof.
  intros i j a b Hij Ha Hb. change (merge_net net) with (live merged) in Ha, Hb.
  destruct (live_nth merged) as (f & F1 & F2).
  assert (Li : (i < length (live merged))%nat) by (apply nth_error_Some; congruence).
  assert (Lj : (j < length (live merged))%nat) by (apply nth_error_Some; congruence).
  apply (merged_apart (f i) (f j)); auto.
  destruct (Nat.lt_ge_cases i j) as [L|L]; [specialize (F1 i j L Lj)|specialize (F1 j i ltac:(lia) Li)]; lia.
Qed.
Lemma merge_untouched i o : nth_error net i = Some o -> (forall j o', j <> i -> nth_error net j = Some o' -> ~ overlap o o') -> In o (merge_net net).
Proof.
  intros Hi Hn. apply merge_net_in. exists i. destruct (track_of o) as [t|] eqn:Et.
  - eapply merged_kept; eauto. intros Hv.
    assert (Hs : In (fst (span_of o), snd (span_of o), i) (obj_spans t objs0)) by (apply spans_in; exists o; cbn; repeat split; auto; apply surjective_pairing).
    destruct (merge_partner (obj_spans t objs0) (spans_lt t) (spans_nodup t) _ Hs Hv) as (s' & Hs' & Hne & O1 & O2).
    apply spans_in in Hs' as (o' & H1 & H2 & H3). cbn in Hne. apply (Hn (si s') o' Hne H1). apply (track_overlap o o' t); auto; rewrite H3; assumption.
  - rewrite merged_nth. unfold otrack. rewrite Hi, Et. apply nth_objs0. assumption.
Qed.
Definition is_via (o : robj) : bool := match o with RVia _ _ _ => true | RSeg _ _ _ _ _ => false end.
Lemma merge_vias : filter is_via (merge_net net) = filter is_via net.
Proof.
  unfold merge_net. fold objs0. fold merged.
  assert (H : forall i, match nth_error net i with Some (RVia p l1 l2) => nth i merged None = Some (RVia p l1 l2)
     | Some (RSeg _ _ _ _ _) => match nth i merged None with Some (RVia _ _ _) => False | _ => True end | None => True end).
  { intros i. destruct (nth_error net i) as [[bp ep l tb te|p l1 l2]|] eqn:E; [| |exact I].
    - destruct (nth i merged None) as [o'|] eqn:E'; [|exact I]. destruct (merged_some i o' E') as (o & Ho & _ & T & _).
      destruct o'; [exact I|]. rewrite E in Ho. injection Ho as <-. pose proof (net_ok i _ E) as W. cbn in T, W.
      destruct (px bp =? px ep) eqn:?; [discriminate|]. destruct (py bp =? py ep) eqn:?; [discriminate|lia].
    - rewrite merged_nth. unfold otrack. rewrite E. cbn. apply nth_objs0. assumption. }
  pose proof merged_length as L. revert H L. generalize merged. induction net as [|o net' IH]; intros [|m ms] H L; cbn in L; try lia; [reflexivity|].
  specialize (IH ltac:(now inversion ok) ms ltac:(intros i; exact (H (S i))) ltac:(lia)). specialize (H 0%nat). cbn [nth_error nth] in H.
  destruct o as [bp ep l tb te|p l1 l2].
  - cbn [filter is_via]. destruct m as [[? ? ? ? ?|? ? ?]|]; cbn [live filter is_via]; [assumption|contradiction|assumption].
  - rewrite H. cbn [live filter is_via]. f_equal. assumption.
Qed.
End Net.
