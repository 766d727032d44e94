(* The node map: which objects and pins are seen at which locations. *)
From Verif Require Import Base GeomModel TreeModel TreeSpec ConnModel ConnSpec ConnProofs3.

Lemma pt_eq_iff a b : pt_eq a b = true <-> a = b.
Proof. destruct a, b. unfold pt_eq. cbn. rewrite andb_true_iff, !Z.eqb_eq. split; [intros [-> ->]; reflexivity|intros E; injection E; auto]. Qed.
Lemma loc_eqb_iff (a b : loc) : loc_eqb a b = true <-> a = b.
Proof. destruct a, b. unfold loc_eqb. cbn. rewrite andb_true_iff, pt_eq_iff, Z.eqb_eq. split; [intros [-> ->]; reflexivity|intros E; injection E; auto]. Qed.

Definition at_node (m : nmap) (k : loc) (i : nat) : Prop := exists s, In (k, s) m /\ In i s.
Lemma nset_ins_in i s j : In j (nset_ins i s) <-> j = i \/ In j s.
Proof.
  induction s as [|a s IH]; cbn [nset_ins In]; [intuition|]. destruct (i <? a)%nat; cbn [In]; [intuition|]. destruct (Nat.eqb_spec i a) as [E|E]; cbn [In]; [subst; intuition|]. rewrite IH. intuition.
Qed.
Lemma nm_ins_at k i m k' j : at_node (nm_ins k i m) k' j <-> (k' = k /\ j = i) \/ at_node m k' j.
Proof.
  unfold at_node. induction m as [|[k0 s] m IH]; cbn.
  - split; [intros (s & [E|[]] & Hj); injection E as <- <-; destruct Hj as [<-|[]]; auto|]. intros [[-> ->]|(s & [] & _)]. exists [i]. cbn. auto.
  - destruct (loc_eqb k k0) eqn:E; cbn [In].
    + apply loc_eqb_iff in E as <-. split.
      * intros (s' & [E|H] & Hj); [injection E as <- <-; apply nset_ins_in in Hj as [->|Hj]; [auto|right; exists s; auto]|right; exists s'; auto].
      * intros [[-> ->]|(s' & [E|H] & Hj)]; [exists (nset_ins i s); rewrite nset_ins_in; auto|injection E as <- <-; exists (nset_ins i s); rewrite nset_ins_in; auto|exists s'; auto].
    + split.
      * intros (s' & [E'|H] & Hj); [injection E' as <- <-; right; exists s; auto|]. destruct (proj1 IH (ex_intro _ s' (conj H Hj))) as [?|(s2 & ? & ?)]; [auto|right; exists s2; auto].
      * intros [H|(s' & [E'|H] & Hj)]; [destruct (proj2 IH (or_introl H)) as (s2 & ? & ?); exists s2; auto|injection E' as <- <-; exists s; auto|].
        destruct (proj2 IH) as (s2 & ? & ?); [right; exists s'; auto|exists s2; auto].
Qed.
Lemma nm_ins_keys k i m : NoDup (map fst m) -> NoDup (map fst (nm_ins k i m)) /\ (forall k', In k' (map fst (nm_ins k i m)) -> k' = k \/ In k' (map fst m)).
Proof.
  induction m as [|[k0 s] m IH]; cbn; intros Hn.
  - split; [constructor; [easy|constructor]|]. intros k' [->|[]]; auto.
  - inversion Hn as [|? ? H1 H2]; subst. destruct (loc_eqb k k0) eqn:E.
    + cbn. split; [assumption|]. auto.
    + destruct (IH H2) as [I1 I2]. cbn. split.
      * constructor; [|assumption]. intros Hc. destruct (I2 k0 Hc) as [->|]; [|contradiction]. rewrite (proj2 (loc_eqb_iff k k) eq_refl) in E. discriminate.
      * intros k' [<-|Hk]; [auto|]. destruct (I2 k' Hk); auto.
Qed.
Definition nm_ok (m : nmap) : Prop := NoDup (map fst m).
Lemma nm_ins_ok k i m : nm_ok m -> nm_ok (nm_ins k i m).
Proof. intros H. apply (nm_ins_keys k i m H). Qed.

(* ---- ends *)
Lemma nm_end_at m x k j : at_node (nm_end m x) k j <-> at_node m k j \/ (j = fst x /\ is_end (snd x) k).
Proof.
  destruct x as [i [bp ep l tb te|p l1 l2]]; cbn; rewrite !nm_ins_at; intuition.
Qed.
Lemma fold_end_at L : forall m k j, at_node (fold_left nm_end L m) k j <-> at_node m k j \/ exists o, In (j, o) L /\ is_end o k.
Proof.
  induction L as [|[i o] L IH]; intros m k j; cbn [fold_left].
  - split; [auto|]. intros [?|(o & [] & _)]. assumption.
  - rewrite IH, nm_end_at. cbn [fst snd]. split.
    + intros [[?|[-> ?]]|(o' & ? & ?)]; [auto|right; exists o; cbn; auto|right; exists o'; cbn; auto].
    + intros [?|(o' & [E|H] & ?)]; [auto|injection E as -> ->; auto|right; exists o'; auto].
Qed.
Lemma routeObjEnd_at objs m k j : at_node (routeObjEnd objs m) k j <-> at_node m k j \/ exists o, nth_error objs j = Some o /\ is_end o k.
Proof. unfold routeObjEnd. rewrite fold_end_at. setoid_rewrite in_numbered. reflexivity. Qed.
Lemma nm_end_ok m x : nm_ok m -> nm_ok (nm_end m x).
Proof. intros H. destruct x as [i [? ? ? ? ?|? ? ?]]; cbn; auto using nm_ins_ok. Qed.
Lemma routeObjEnd_ok objs m : nm_ok m -> nm_ok (routeObjEnd objs m).
Proof. unfold routeObjEnd. revert m. induction (numbered objs) as [|x L IH]; intros m H; cbn; auto using nm_end_ok. Qed.

(* ---- the sorted maps of segments *)
Lemma mh_key_iff a b : mh_key a b = true <-> a = b.
Proof. destruct a as [[a1 a2] a3], b as [[b1 b2] b3]. cbn. rewrite !andb_true_iff, !Z.eqb_eq. split; [intros [[-> ->] ->]; reflexivity|intros E; injection E; auto]. Qed.
Lemma mh_set_in k v m x : (forall v', ~ In (k, v') m) -> In x (mh_set k v m) <-> x = (k, v) \/ In x m.
Proof.
  induction m as [|[k' v'] m IH]; cbn; intros H; [intuition|].
  destruct (mh_key k k') eqn:E; [apply mh_key_iff in E as <-; exfalso; apply (H v'); auto|].
  cbn. rewrite IH; [intuition|]. intros v2 H2. apply (H v2). auto.
Qed.
Lemma mh_lower_spec l t c m :
  match mh_lower l t c m with
  | Some (e, v) => In ((l, t, e), v) m /\ c <= e /\ forall e' v', In ((l, t, e'), v') m -> c <= e' -> e <= e'
  | None => forall e' v', In ((l, t, e'), v') m -> e' < c
  end.
Proof.
  induction m as [|[[[l' t'] e'] v] m IH]; cbn [mh_lower]; [intros e' v' []|].
  destruct ((l' =? l) && (t' =? t) && (c <=? e')) eqn:E.
  - assert (l' = l) as -> by lia. assert (t' = t) as -> by lia.
    destruct (mh_lower l t c m) as [[e w]|].
    + destruct IH as (I1 & I2 & I3). destruct (e <? e') eqn:E'.
      * split; [cbn; auto|]. split; [assumption|]. intros e2 v2 [H|H] Hc; [injection H as -> ->; lia|eauto].
      * split; [cbn; auto|]. split; [lia|]. intros e2 v2 [H|H] Hc; [injection H as -> ->; lia|]. specialize (I3 _ _ H Hc). lia.
    + split; [cbn; auto|]. split; [lia|]. intros e2 v2 [H|H] Hc; [injection H as -> ->; lia|]. specialize (IH _ _ H). lia.
  - destruct (mh_lower l t c m) as [[e w]|].
    + destruct IH as (I1 & I2 & I3). split; [cbn; auto|]. split; [assumption|]. intros e2 v2 [H|H] Hc; [injection H as -> -> -> ->; lia|eauto].
    + intros e2 v2 [H|H]; [injection H as -> -> -> ->; lia|eauto].
Qed.
Definition mh_good (h : mhelp) : Prop :=
  forall l t e b i e' b' i', In ((l, t, e), (b, i)) h -> In ((l, t, e'), (b', i')) h ->
    b < e /\ ((e = e' /\ b = b' /\ i = i') \/ e <= b' \/ e' <= b).
Lemma split_helper_at p t c l h m k j : mh_good h ->
  at_node (split_helper p t c l h m) k j <-> at_node m k j \/ (k = (p, l) /\ exists b e, In ((l, t, e), (b, j)) h /\ b < c < e).
Proof.
  intros G. unfold split_helper. pose proof (mh_lower_spec l t c h) as L. destruct (mh_lower l t c h) as [[e0 [b0 i0]]|].
  - destruct L as (L1 & L2 & L3). destruct ((c <? e0) && (b0 <? c)) eqn:E.
    + rewrite nm_ins_at. split.
      * intros [[-> ->]|H]; [right; split; [reflexivity|]; exists b0, e0; split; [assumption|lia]|auto].
      * intros [H|(-> & b & e & H & Hc)]; [auto|]. left. split; [reflexivity|].
        pose proof (L3 e (b, j) H ltac:(lia)) as Le. destruct (G _ _ _ _ _ _ _ _ L1 H) as (A & [(_ & _ & ->)|B]); [reflexivity|lia].
    + split; [auto|]. intros [H|(-> & b & e & H & Hc)]; [assumption|]. exfalso.
      pose proof (L3 e (b, j) H ltac:(lia)) as Le. destruct (G _ _ _ _ _ _ _ _ L1 H) as (A & [(-> & -> & ->)|B]); lia.
  - split; [auto|]. intros [H|(-> & b & e & H & Hc)]; [assumption|]. specialize (L _ _ H). lia.
Qed.
Lemma split_helper_ok p t c l h m : nm_ok m -> nm_ok (split_helper p t c l h m).
Proof. intros H. unfold split_helper. destruct (mh_lower l t c h) as [[e [b i]]|]; [|assumption]. destruct (_ && _); [apply nm_ins_ok|]; assumption. Qed.
Lemma nm_split_ok hz vt m o : nm_ok m -> nm_ok (nm_split hz vt m o).
Proof. intros H. destruct o as [bp ep l tb te|p l1 l2]; cbn; [destruct (px bp =? px ep)|]; auto 10 using split_helper_ok. Qed.
Lemma routeObjSplit_ok objs m : nm_ok m -> nm_ok (routeObjSplit objs m).
Proof.
  unfold routeObjSplit. destruct (fold_left mh_fill (numbered objs) ([], [])) as [hz vt]. revert m. induction objs as [|o objs IH]; intros m H; cbn; auto using nm_split_ok.
Qed.

(* strictly inside a horizontal or vertical wire *)
Definition inside_h (o : robj) (k : loc) : Prop :=
  match o with RSeg bp ep l _ _ => px bp <> px ep /\ snd k = l /\ py (fst k) = py bp /\ px bp < px (fst k) < px ep | RVia _ _ _ => False end.
Definition inside_v (o : robj) (k : loc) : Prop :=
  match o with RSeg bp ep l _ _ => px bp = px ep /\ snd k = l /\ px (fst k) = px bp /\ py bp < py (fst k) < py ep | RVia _ _ _ => False end.
Definition vert (o : robj) : Prop := match o with RSeg bp ep _ _ _ => px bp = px ep | RVia _ _ _ => True end.
Definition horz (o : robj) : Prop := match o with RSeg bp ep _ _ _ => px bp <> px ep | RVia _ _ _ => True end.

Section Objs.
Variable objs : list robj.
Hypothesis ok : Forall wire_ok objs.
Hypothesis apart : no_overlap objs.

Definition h_entry (o : robj) (x : Z * Z * Z * Z) : Prop := (* l, t, e, b *)
  match o with RSeg bp ep l _ _ => px bp <> px ep /\ x = (l, py bp, px ep, px bp) | RVia _ _ _ => False end.
Definition v_entry (o : robj) (x : Z * Z * Z * Z) : Prop :=
  match o with RSeg bp ep l _ _ => px bp = px ep /\ x = (l, px bp, py ep, py bp) | RVia _ _ _ => False end.
Lemma entries_good (E : robj -> Z * Z * Z * Z -> Prop) : (E = h_entry \/ E = v_entry) ->
  forall i i' o o' l t e b e' b', nth_error objs i = Some o -> nth_error objs i' = Some o' -> E o (l, t, e, b) -> E o' (l, t, e', b') ->
  b < e /\ ((e = e' /\ b = b' /\ i = i') \/ e <= b' \/ e' <= b).
Proof.
  intros HE i i' o o' l t e b e' b' Ho Ho' He He'.
  assert (W : wire_ok o) by (eapply net_ok; eauto). assert (W' : wire_ok o') by (eapply net_ok; eauto).
  destruct (Nat.eq_dec i i') as [<-|Hne].
  - rewrite Ho in Ho'. injection Ho' as <-. destruct o as [bp ep l0 tb te|]; destruct HE as [-> | ->]; cbn in *; try contradiction; destruct He as [H1 H2], He' as [_ H3]; injection H2 as -> -> -> ->; injection H3 as -> ->; lia.
  - pose proof (apart i i' o o' Hne Ho Ho') as A.
    destruct o as [bp ep l0 tb te|]; [|destruct HE as [-> | ->]; destruct He]. destruct o' as [bp' ep' l0' tb' te'|]; [|destruct HE as [-> | ->]; destruct He'].
    destruct HE as [-> | ->]; cbn in *; destruct He as [H1 H2], He' as [H3 H4]; injection H2 as -> -> -> ->; injection H4 as -> H5 -> ->; lia.
Qed.
Lemma fill_spec : forall L, (forall i o, In (i, o) L -> nth_error objs i = Some o) -> NoDup (map fst L) ->
  let st := fold_left mh_fill L ([], []) in
  (forall l t e b i, In ((l, t, e), (b, i)) (fst st) <-> exists o, In (i, o) L /\ h_entry o (l, t, e, b)) /\
  (forall l t e b i, In ((l, t, e), (b, i)) (snd st) <-> exists o, In (i, o) L /\ v_entry o (l, t, e, b)).
Proof.
  induction L as [|[i o] L IH] using rev_ind; intros HL Hn.
  - cbn. split; intros; (split; [intros []|intros (o & [] & _)]).
  - rewrite map_app in Hn. cbn in Hn. pose proof (NoDup_remove _ _ _ Hn) as [Hn1 Hn2]. rewrite app_nil_r in Hn1, Hn2.
    destruct (IH ltac:(intros; apply HL, in_or_app; auto) Hn1) as [I1 I2]. cbv zeta in *. rewrite fold_left_app. cbn [fold_left].
    destruct (fold_left mh_fill L ([], [])) as [hz vt]. cbn [fst snd] in I1, I2.
    assert (Ho : nth_error objs i = Some o) by (apply HL, in_or_app; cbn; auto).
    assert (Hd : forall i' o', In (i', o') L -> nth_error objs i' = Some o' /\ i' <> i).
    { intros i' o' H. split; [apply HL, in_or_app; auto|]. intros ->. apply Hn2. apply (in_map fst) in H. assumption. }
    destruct o as [bp ep l0 tb te|p l1 l2]; cbn [mh_fill snd fst].
    + destruct (px bp =? px ep) eqn:E; cbn [fst snd].
      * split; intros l t e b j.
        -- rewrite I1. split; intros (o' & H & He); exists o'; (split; [|assumption]); [apply in_or_app; auto|]. apply in_app_or in H as [H|[H|[]]]; [assumption|]. injection H as <- <-. cbn in He. lia.
        -- rewrite mh_set_in.
           2:{ intros [b' j'] H. apply I2 in H as (o' & H & He). destruct (Hd _ _ H) as [Ho' Hne].
               assert (He2 : v_entry (RSeg bp ep l0 tb te) (l0, px bp, py ep, py bp)) by (cbn; split; [lia|reflexivity]).
               pose proof (entries_good v_entry (or_intror eq_refl) _ _ _ _ _ _ _ _ _ _ Ho' Ho He He2). pose proof (entries_good v_entry (or_intror eq_refl) _ _ _ _ _ _ _ _ _ _ Ho Ho' He2 He). lia. }
           rewrite I2. split.
           ++ intros [H|(o' & H & He)]; [injection H as -> -> -> -> ->; exists (RSeg bp ep l0 tb te); cbn; split; [apply in_or_app; cbn; auto|split; [lia|reflexivity]]|exists o'; split; [apply in_or_app; auto|assumption]].
           ++ intros (o' & H & He). apply in_app_or in H as [H|[H|[]]]; [eauto|]. injection H as <- <-. cbn in He. destruct He as [_ He]. injection He as -> -> -> ->. auto.
      * split; intros l t e b j.
        -- rewrite mh_set_in.
           2:{ intros [b' j'] H. apply I1 in H as (o' & H & He). destruct (Hd _ _ H) as [Ho' Hne].
               assert (He2 : h_entry (RSeg bp ep l0 tb te) (l0, py bp, px ep, px bp)) by (cbn; split; [lia|reflexivity]).
               pose proof (entries_good h_entry (or_introl eq_refl) _ _ _ _ _ _ _ _ _ _ Ho' Ho He He2). pose proof (entries_good h_entry (or_introl eq_refl) _ _ _ _ _ _ _ _ _ _ Ho Ho' He2 He). lia. }
           rewrite I1. split.
           ++ intros [H|(o' & H & He)]; [injection H as -> -> -> -> ->; exists (RSeg bp ep l0 tb te); cbn; split; [apply in_or_app; cbn; auto|split; [lia|reflexivity]]|exists o'; split; [apply in_or_app; auto|assumption]].
           ++ intros (o' & H & He). apply in_app_or in H as [H|[H|[]]]; [eauto|]. injection H as <- <-. cbn in He. destruct He as [_ He]. injection He as -> -> -> ->. auto.
        -- rewrite I2. split; intros (o' & H & He); exists o'; (split; [|assumption]); [apply in_or_app; auto|]. apply in_app_or in H as [H|[H|[]]]; [assumption|]. injection H as <- <-. cbn in He. lia.
    + split; intros l t e b j; [rewrite I1|rewrite I2]; (split; intros (o' & H & He); exists o'; (split; [|assumption]); [apply in_or_app; auto|]; apply in_app_or in H as [H|[H|[]]]; [assumption|]; injection H as <- <-; destruct He).
Qed.
Lemma nm_split_at hz vt m o k j :
  (forall l t e b i, In ((l, t, e), (b, i)) hz <-> exists o, nth_error objs i = Some o /\ h_entry o (l, t, e, b)) ->
  (forall l t e b i, In ((l, t, e), (b, i)) vt <-> exists o, nth_error objs i = Some o /\ v_entry o (l, t, e, b)) ->
  wire_ok o ->
  at_node (nm_split hz vt m o) k j <-> at_node m k j \/
    (is_end o k /\ exists o', nth_error objs j = Some o' /\ ((vert o /\ inside_h o' k) \/ (horz o /\ inside_v o' k))).
Proof.
  intros Hh Hv Wo.
  assert (Gh : mh_good hz).
  { intros l t e b i e' b' i' H1 H2. apply Hh in H1 as (o1 & N1 & E1). apply Hh in H2 as (o2 & N2 & E2). eapply (entries_good h_entry); eauto. }
  assert (Gv : mh_good vt).
  { intros l t e b i e' b' i' H1 H2. apply Hv in H1 as (o1 & N1 & E1). apply Hv in H2 as (o2 & N2 & E2). eapply (entries_good v_entry); eauto. }
  assert (Ph : forall p l, (exists b e, In ((l, py p, e), (b, j)) hz /\ b < px p < e) <-> exists o', nth_error objs j = Some o' /\ inside_h o' (p, l)).
  { intros p l. split.
    - intros (b & e & H & Hc). apply Hh in H as (o' & N & E). exists o'. split; [assumption|]. destruct o' as [bp ep l0 tb te|]; [|destruct E]. cbn in *. destruct E as [E1 E2]. injection E2 as -> E3 -> ->. auto.
    - intros (o' & N & I). destruct o' as [bp ep l0 tb te|]; [|destruct I]. cbn in I. destruct I as (I1 & <- & I2 & I3). exists (px bp), (px ep). split; [|assumption]. apply Hh. exists (RSeg bp ep l tb te). split; [assumption|]. cbn. rewrite I2. auto. }
  assert (Pv : forall p l, (exists b e, In ((l, px p, e), (b, j)) vt /\ b < py p < e) <-> exists o', nth_error objs j = Some o' /\ inside_v o' (p, l)).
  { intros p l. split.
    - intros (b & e & H & Hc). apply Hv in H as (o' & N & E). exists o'. split; [assumption|]. destruct o' as [bp ep l0 tb te|]; [|destruct E]. cbn in *. destruct E as [E1 E2]. injection E2 as -> E3 -> ->. auto.
    - intros (o' & N & I). destruct o' as [bp ep l0 tb te|]; [|destruct I]. cbn in I. destruct I as (I1 & <- & I2 & I3). exists (py bp), (py ep). split; [|assumption]. apply Hv. exists (RSeg bp ep l tb te). split; [assumption|]. cbn. rewrite I2. auto. }
  destruct o as [bp ep l tb te|p l1 l2]; cbn [nm_split is_end vert horz].
  - destruct (px bp =? px ep) eqn:E; rewrite !split_helper_at by assumption; rewrite ?Ph, ?Pv; split.
    + intros [[?|(-> & o' & ? & ?)]|(-> & o' & ? & ?)]; [auto| |]; right; (split; [auto|]); exists o'; (split; [assumption|]); left; (split; [lia|assumption]).
    + intros [?|([-> | ->] & o' & N & [[_ H]|[H _]])]; [auto|left; right; split; [reflexivity|eauto]|lia|right; split; [reflexivity|eauto]|lia].
    + intros [[?|(-> & o' & ? & ?)]|(-> & o' & ? & ?)]; [auto| |]; right; (split; [auto|]); exists o'; (split; [assumption|]); right; (split; [lia|assumption]).
    + intros [?|([-> | ->] & o' & N & [[H _]|[_ H]])]; [auto|lia|left; right; split; [reflexivity|eauto]|lia|right; split; [reflexivity|eauto]].
  - rewrite !split_helper_at by assumption. rewrite !Ph, !Pv. split.
    + intros [[[[?|(-> & o' & ? & ?)]|(-> & o' & ? & ?)]|(-> & o' & ? & ?)]|(-> & o' & ? & ?)]; [auto| | | |]; right; (split; [auto|]); exists o'; (split; [assumption|]); tauto.
    + intros [?|([-> | ->] & o' & N & [[_ H]|[_ H]])]; [auto| | | |].
      * left; left; left; right. eauto.
      * left; left; right. eauto.
      * left; right. eauto.
      * right. eauto.
Qed.
Lemma fold_split_at hz vt : 
  (forall l t e b i, In ((l, t, e), (b, i)) hz <-> exists o, nth_error objs i = Some o /\ h_entry o (l, t, e, b)) ->
  (forall l t e b i, In ((l, t, e), (b, i)) vt <-> exists o, nth_error objs i = Some o /\ v_entry o (l, t, e, b)) ->
  forall L m k j, Forall wire_ok L -> at_node (fold_left (nm_split hz vt) L m) k j <-> at_node m k j \/
    exists o, In o L /\ is_end o k /\ exists o', nth_error objs j = Some o' /\ ((vert o /\ inside_h o' k) \/ (horz o /\ inside_v o' k)).
Proof.
  intros Hh Hv. induction L as [|o L IH]; intros m k j HL; cbn [fold_left].
  - split; [auto|]. intros [?|(o & [] & _)]. assumption.
  - inversion HL; subst. rewrite IH, nm_split_at by assumption. split.
    + intros [[?|?]|(o1 & ? & ?)]; [auto|right; exists o; cbn; tauto|right; exists o1; cbn; tauto].
    + intros [?|(o1 & [<-|?] & ?)]; [auto|tauto|right; exists o1; tauto].
Qed.

Definition some_end (k : loc) : Prop := exists o, In o objs /\ is_end o k.
Lemma end_lies o k : wire_ok o -> is_end o k -> lies_on o k.
Proof. destruct o as [bp ep l tb te|]; cbn; [|auto]. intros W [-> | ->]; cbn; lia. Qed.
Lemma inside_lies o k : wire_ok o -> inside_h o k \/ inside_v o k -> lies_on o k.
Proof. destruct o as [bp ep l tb te|]; cbn; [|tauto]. lia. Qed.
Theorem objs_at k j : at_node (routeObjSplit objs (routeObjEnd objs [])) k j <-> some_end k /\ exists o, nth_error objs j = Some o /\ lies_on o k.
Proof.
  unfold routeObjSplit.
  pose proof (fill_spec (numbered objs) ltac:(intros i o; apply in_numbered) ltac:(rewrite numbered_fst; apply seq_NoDup)) as [Hh Hv]. cbv zeta in *.
  destruct (fold_left mh_fill (numbered objs) ([], [])) as [hz vt]. cbn [fst snd] in *. setoid_rewrite in_numbered in Hh. setoid_rewrite in_numbered in Hv.
  rewrite (fold_split_at hz vt Hh Hv _ _ _ _ ok), routeObjEnd_at. split.
  - intros [[(s & [] & _)|(o & Ho & He)]|(o & Ho & He & o' & Ho' & Hi)].
    + split; [exists o; split; [eapply nth_error_In; eassumption|assumption]|]. exists o. split; [assumption|]. apply end_lies; [eapply net_ok; eauto|assumption].
    + split; [exists o; auto|]. exists o'. split; [assumption|]. apply inside_lies; [eapply net_ok; eauto|tauto].
  - intros ((o & Ho & He) & o' & Ho' & Hl). apply In_nth_error in Ho as (i & Ho).
    assert (W : wire_ok o) by (eapply net_ok; eauto). assert (W' : wire_ok o') by (eapply net_ok; eauto).
    assert (D : is_end o' k \/ inside_h o' k \/ inside_v o' k).
    { destruct o' as [bp ep l tb te|]; cbn in *; [|auto]. destruct k as [[x y] lk], bp as [bx by_], ep as [ex ey]. cbn in *. destruct Hl as (-> & H1 & H2).
      destruct (Z.eq_dec bx ex).
      - destruct (Z.eq_dec y by_); [left; left; repeat f_equal; lia|]. destruct (Z.eq_dec y ey); [left; right; repeat f_equal; lia|]. right; right. lia.
      - destruct (Z.eq_dec x bx); [left; left; repeat f_equal; lia|]. destruct (Z.eq_dec x ex); [left; right; repeat f_equal; lia|]. right; left. lia. }
    destruct D as [D|D]; [left; right; eauto|].
    destruct (Nat.eq_dec i j) as [->|Hne].
    { assert (o' = o) as -> by congruence. left. right. eauto. }
    pose proof (apart i j o o' Hne Ho Ho') as A.
    right. exists o. split; [eapply nth_error_In; eassumption|]. split; [assumption|]. exists o'. split; [assumption|].
    destruct o as [bp ep l tb te|p l1 l2]; [|cbn; tauto]. destruct o' as [bp' ep' l' tb' te'|]; [|destruct D; contradiction].
    cbn in *. destruct k as [[x y] lk]. cbn in *. 
    destruct (Z.eq_dec (px bp) (px ep)) as [Ev|Ev].
    + left. split; [assumption|]. destruct D as [D|D]; [assumption|]. exfalso. apply A. destruct D as (D1 & -> & D3 & D4).
      destruct He as [He|He]; injection He as He1 ->; subst; cbn in *; (split; [reflexivity|]); left; lia.
    + right. split; [assumption|]. destruct D as [D|D]; [|assumption]. exfalso. apply A. destruct D as (D1 & -> & D3 & D4).
      destruct He as [He|He]; injection He as He1 ->; subst; cbn in *; (split; [reflexivity|]); right; lia.
Qed.
End Objs.
