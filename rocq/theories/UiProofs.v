(* Groups of instances, and the indices they get. *)
From Verif Require Import Base GeomModel ApModel UiModel UiSpec.

Section P.
Variable E : uenv.

(* --- sets and groups ----------------------------------------------------------------------------- *)
Lemma set_insert_in i l x : (forall y, In y l -> i_id y <> i_id i) -> (In x (set_insert i l) <-> x = i \/ In x l).
Proof.
  induction l as [|a r IH]; intros H; cbn.
  { firstorder. }
  assert (Ha := H a (or_introl eq_refl)).
  destruct (i_id i <? i_id a) eqn:Q; cbn; [firstorder|].
  destruct (i_id i =? i_id a) eqn:Q2; [lia|]. cbn. rewrite IH; [firstorder|].
  intros y Hy; apply H; right; exact Hy.
Qed.
Lemma set_insert_ne i l : set_insert i l <> [].
Proof. destruct l; cbn; [easy|]. zcases; easy. Qed.

Record ginv (done : list inst) (gs : list (key * list inst)) : Prop := {
  g_nodup : NoDup (map fst gs);
  g_all : forall i, In i done -> exists k l, key_of E i = Some k /\ In (k, l) gs /\ In i l;
  g_sound : forall k l, In (k, l) gs -> l <> [] /\ forall x, In x l -> In x done /\ key_of E x = Some k }.

Lemma grp_insert_fst k i gs : forall k', In k' (map fst (grp_insert k i gs)) <-> k' = k \/ In k' (map fst gs).
Proof.
  induction gs as [|[k1 l1] r IH]; intros k'; cbn.
  { firstorder. }
  destruct (key_eq_dec k1 k) as [Q|Q]; cbn.
  - subst. firstorder.
  - rewrite IH. firstorder.
Qed.
Lemma grp_insert_nodup k i gs : NoDup (map fst gs) -> NoDup (map fst (grp_insert k i gs)).
Proof.
  induction gs as [|[k1 l1] r IH]; cbn; intros H.
  { constructor; [easy|constructor]. }
  inversion H; subst. destruct (key_eq_dec k1 k) as [Q|Q]; cbn.
  - constructor; assumption.
  - constructor; [|apply IH; assumption]. rewrite grp_insert_fst. intros [-> | X]; [now apply Q|contradiction].
Qed.
Lemma grp_insert_new k i gs : exists l, In (k, l) (grp_insert k i gs) /\
  ((l = [i] /\ ~ In k (map fst gs)) \/ exists l0, In (k, l0) gs /\ l = set_insert i l0).
Proof.
  induction gs as [|[k1 l1] r IH]; cbn.
  { exists [i]. split; [left; reflexivity|left; split; [reflexivity|tauto]]. }
  destruct (key_eq_dec k1 k) as [Q|Q]; cbn.
  - subst. exists (set_insert i l1). split; [left; reflexivity|]. right. exists l1. split; [left; reflexivity|reflexivity].
  - destruct IH as [l [H1 [[-> H2]|[l0 [H2 ->]]]]].
    + exists [i]. split; [right; exact H1|]. left. split; [reflexivity|]. intros [X|X]; [now apply Q|contradiction].
    + exists (set_insert i l0). split; [right; exact H1|]. right. exists l0. split; [right; exact H2|reflexivity].
Qed.
Lemma grp_insert_keep k i gs k' l : In (k', l) gs -> k' <> k -> In (k', l) (grp_insert k i gs).
Proof.
  induction gs as [|[k1 l1] r IH]; cbn; [easy|]. intros [X|X] N.
  - injection X as -> ->. destruct (key_eq_dec k' k); [contradiction|]. left; reflexivity.
  - destruct (key_eq_dec k1 k); [right; exact X|right; apply IH; assumption].
Qed.
Lemma grp_insert_old k i gs k' l : In (k', l) (grp_insert k i gs) ->
  In (k', l) gs \/ (k' = k /\ (l = [i] \/ exists l0, In (k, l0) gs /\ l = set_insert i l0)).
Proof.
  induction gs as [|[k1 l1] r IH]; cbn.
  { intros [X|X]; [|easy]. injection X as <- <-. right. split; [reflexivity|left; reflexivity]. }
  destruct (key_eq_dec k1 k) as [Q|Q]; cbn; intros [X|X].
  - injection X as <- <-. subst. right. split; [reflexivity|]. right. exists l1. split; [left; reflexivity|reflexivity].
  - left; right; exact X.
  - left; left; exact X.
  - destruct (IH X) as [H|[H1 [H2|[l0 [H2 H3]]]]]; [left; right; exact H| |].
    + right. split; [exact H1|left; exact H2].
    + right. split; [exact H1|right; exists l0; split; [right; exact H2|exact H3]].
Qed.
Lemma nodup_fst_unique (gs : list (key * list inst)) k l l' : NoDup (map fst gs) -> In (k, l) gs -> In (k, l') gs -> l = l'.
Proof.
  induction gs as [|[k1 l1] r IH]; cbn; [easy|]. intros N. inversion N; subst.
  intros [X|X] [Y|Y].
  - congruence.
  - injection X as -> ->. exfalso. apply H1. change k with (fst (k, l')). apply in_map; exact Y.
  - injection Y as -> ->. exfalso. apply H1. change k with (fst (k, l)). apply in_map; exact X.
  - apply IH; assumption.
Qed.

Lemma ginv_step done gs i k : ginv done gs -> ~ In (i_id i) (map i_id done) -> key_of E i = Some k ->
  ginv (done ++ [i]) (grp_insert k i gs).
Proof.
  intros [N A S] F K.
  assert (FR : forall k0 l0, In (k0, l0) gs -> forall y, In y l0 -> i_id y <> i_id i).
  { intros k0 l0 H y Hy Q. destruct (S _ _ H) as [_ S2]. destruct (S2 y Hy) as [D _]. apply F. rewrite <- Q. apply in_map; exact D. }
  destruct (grp_insert_new k i gs) as [l [L1 L2]]. constructor.
  - apply grp_insert_nodup; exact N.
  - intros x Hx. apply in_app_iff in Hx. destruct Hx as [Hx|[<- |[]]].
    + destruct (A x Hx) as [k' [l' [K' [I' X']]]]. destruct (key_eq_dec k' k) as [-> |Q].
      * destruct L2 as [[-> L2]|[l0 [L2 ->]]].
        { exfalso. apply L2. change k with (fst (k, l')). apply in_map; exact I'. }
        exists k, (set_insert i l0). repeat split; [exact K'|exact L1|]. rewrite (nodup_fst_unique gs k l' l0 N I' L2) in X'.
        apply set_insert_in; [exact (FR k l0 L2)|right; exact X'].
      * exists k', l'. repeat split; [exact K'|apply grp_insert_keep; assumption|exact X'].
    + exists k, l. repeat split; [exact K|exact L1|]. destruct L2 as [[-> _]|[l0 [L2 ->]]]; [left; reflexivity|].
      apply set_insert_in; [exact (FR k l0 L2)|left; reflexivity].
  - intros k' l' H. destruct (grp_insert_old _ _ _ _ _ H) as [O|[-> O]].
    + destruct (S _ _ O) as [S1 S2]. split; [exact S1|]. intros x Hx. destruct (S2 x Hx) as [D Kx]. split; [apply in_app_iff; left; exact D|exact Kx].
    + destruct O as [-> |[l0 [O ->]]].
      * split; [easy|]. intros x [<- |[]]. split; [apply in_app_iff; right; left; reflexivity|exact K].
      * split; [apply set_insert_ne|]. intros x Hx. apply set_insert_in in Hx; [|exact (FR k l0 O)].
        destruct Hx as [-> |Hx]; [split; [apply in_app_iff; right; left; reflexivity|exact K]|].
        destruct (S _ _ O) as [_ S2]. destruct (S2 x Hx) as [D Kx]. split; [apply in_app_iff; left; exact D|exact Kx].
Qed.
Lemma groups_inv is : forall done gs0 gs, ginv done gs0 -> NoDup (map i_id (done ++ is)) -> groups E is gs0 = Some gs ->
  ginv (done ++ is) gs.
Proof.
  induction is as [|i r IH]; cbn [groups]; intros done gs0 gs G N H.
  { injection H as <-. rewrite app_nil_r. exact G. }
  destruct (key_of E i) as [k|] eqn:K; [|discriminate].
  assert (F : ~ In (i_id i) (map i_id done)).
  { rewrite map_app in N. cbn in N. apply NoDup_remove_2 in N. intros X. apply N. apply in_app_iff. left; exact X. }
  replace (done ++ i :: r) with ((done ++ [i]) ++ r) by (rewrite <- app_assoc; reflexivity).
  eapply IH; [|rewrite <- app_assoc; exact N|exact H]. apply ginv_step; assumption.
Qed.
Lemma ginv_nil : ginv [] [].
Proof. constructor; [constructor|easy|easy]. Qed.
Lemma groups_some is : forall gs0, (forall i, In i is -> key_of E i <> None) -> exists gs, groups E is gs0 = Some gs.
Proof.
  induction is as [|i r IH]; cbn [groups]; intros gs0 H; [exists gs0; reflexivity|].
  destruct (key_of E i) as [k|] eqn:K; [|exfalso; apply (H i (or_introl eq_refl) K)].
  apply IH. intros j Hj. apply H. right; exact Hj.
Qed.

(* the representative of an instance is the first of the group with its key *)
Lemma inj_id is i j : NoDup (map i_id is) -> In i is -> In j is -> i_id i = i_id j -> i = j.
Proof.
  induction is as [|a r IH]; cbn; [easy|]. intros N. inversion N; subst. intros [<- |X] [<- |Y] Q; [reflexivity| | |].
  - exfalso. apply H1. rewrite Q. apply in_map; exact Y.
  - exfalso. apply H1. rewrite <- Q. apply in_map; exact X.
  - apply IH; assumption.
Qed.
Lemma unique_of_spec is gs i : ginv is gs -> NoDup (map i_id is) -> In i is ->
  exists k l u, key_of E i = Some k /\ In (k, l) gs /\ In i l /\ unique_of gs i = Some u /\ hd_error l = Some u.
Proof.
  intros [N A S] NI Hi. destruct (A i Hi) as [k [l [K [I X]]]].
  assert (Q : forall gs', (forall g, In g gs' -> In g gs) -> In (k, l) gs' -> unique_of gs' i = hd_error l).
  { induction gs' as [|[k1 l1] r IH]; cbn; [easy|]. intros Sub [Y|Y].
    - injection Y as -> ->. replace (existsb (fun x => i_id x =? i_id i) l) with true; [reflexivity|].
      symmetry. apply existsb_exists. exists i. split; [exact X|lia].
    - destruct (existsb (fun x => i_id x =? i_id i) l1) eqn:EX; [|apply IH; [intros g Hg; apply Sub; right; exact Hg|exact Y]].
      apply existsb_exists in EX. destruct EX as [x [Hx Qx]].
      assert (I1 : In (k1, l1) gs) by (apply Sub; left; reflexivity).
      destruct (S _ _ I1) as [_ S2]. destruct (S2 x Hx) as [D Kx].
      assert (x = i) by (apply (inj_id is); [exact NI|exact D|exact Hi|lia]). subst x.
      assert (k1 = k) by congruence. subst k1. rewrite (nodup_fst_unique gs k l1 l N I1 I). reflexivity. }
  destruct l as [|u l]; [destruct X|]. exists k, (u :: l), u. split; [exact K|]. split; [exact I|]. split; [exact X|].
  split; [|reflexivity]. rewrite (Q gs (fun _ h => h) I). reflexivity.
Qed.
Lemma in_uniques gs u : In u (uniques gs) <-> exists k l, In (k, l) gs /\ hd_error l = Some u.
Proof.
  unfold uniques. rewrite in_flat_map. split.
  - intros [[k l] [H1 H2]]. exists k, l. split; [exact H1|]. destruct l as [|a l]; cbn in *; [easy|]. destruct H2 as [-> |[]]. reflexivity.
  - intros [k [l [H1 H2]]]. exists (k, l). split; [exact H1|]. destruct l as [|a l]; cbn in *; [easy|]. injection H2 as ->. left; reflexivity.
Qed.
Lemma hd_in {A} (l : list A) u : hd_error l = Some u -> In u l.
Proof. destruct l; cbn; [easy|]. intros [= ->]. left; reflexivity. Qed.
Lemma uniques_nodup is : forall gs, ginv is gs -> NoDup (map i_id is) -> NoDup (map i_id (uniques gs)).
Proof.
  intros gs [N A S] NI.
  enough (Q : forall gs', (forall g, In g gs' -> In g gs) -> NoDup (map fst gs') -> NoDup (map i_id (uniques gs'))).
  { apply Q; [easy|exact N]. }
  induction gs' as [|[k1 l1] r IH]; cbn [uniques flat_map map fst snd]; intros Sub N'; [constructor|].
  inversion N'; subst. specialize (IH (fun g h => Sub g (or_intror h)) H2).
  assert (I1 : In (k1, l1) gs) by (apply Sub; left; reflexivity). destruct (S _ _ I1) as [S1 S2].
  destruct l1 as [|u l1]; [congruence|]. cbn. constructor; [|exact IH].
  rewrite in_map_iff. intros [v [Q Hv]]. change (In v (uniques r)) in Hv. apply in_uniques in Hv. destruct Hv as [k [l [I2 Hv]]].
  destruct (S _ _ (Sub _ (or_intror I2))) as [_ S3]. destruct (S3 v (hd_in _ _ Hv)) as [Dv Kv]. destruct (S2 u (or_introl eq_refl)) as [Du Ku].
  assert (u = v) by (apply (inj_id is); [exact NI|exact Du|exact Dv|congruence]). subst v.
  assert (k1 = k) by congruence. subst k1. apply H1. change k with (fst (k, l)). apply in_map; exact I2.
Qed.

(* --- indices -------------------------------------------------------------------------------------- *)
Hypothesis PN : forall m, NoDup (u_pins E m).
Hypothesis PD : forall m m' p, In p (u_pins E m) -> In p (u_pins E m') -> m = m'.

Lemma pa_pins_some ps : forall cnt c, NoDup ps -> (forall p, In p ps -> cnt p = c) -> forall k, k = None \/ k = Some c ->
  exists cnt', pa_pins ps cnt k = Some (cnt', match ps with [] => k | _ => Some c end) /\
    forall q, (In q ps -> cnt' q = cnt q + 1) /\ (~ In q ps -> cnt' q = cnt q).
Proof.
  induction ps as [|p r IH]; intros cnt c N C k Hk.
  { exists cnt. split; [reflexivity|]. easy. }
  inversion N; subst. assert (Cp := C p (or_introl eq_refl)).
  assert (IH2 : exists cnt', pa_pins r (fun q => if q =? p then cnt q + 1 else cnt q) (Some c) = Some (cnt', Some c) /\
    forall q, (In q r -> cnt' q = cnt q + 1) /\ (~ In q r -> cnt' q = (if q =? p then cnt q + 1 else cnt q))).
  { destruct (IH (fun q => if q =? p then cnt q + 1 else cnt q) c H2) with (k := Some c) as [cnt' [R1 R2]].
    - intros q Hq. destruct (q =? p) eqn:Q; [|apply C; right; exact Hq].
      assert (q = p) by lia. subst. contradiction.
    - right; reflexivity.
    - exists cnt'. split; [rewrite R1; destruct r; reflexivity|]. intros q. destruct (R2 q) as [R3 R4]. split; [|exact R4].
      intros Hq. rewrite (R3 Hq). destruct (q =? p) eqn:Q; [|reflexivity]. assert (q = p) by lia. subst. contradiction. }
  destruct IH2 as [cnt' [R1 R2]]. exists cnt'. split.
  - destruct Hk as [-> | ->]; cbn [pa_pins].
    + rewrite Cp. exact R1.
    + rewrite Cp, Z.eqb_refl. exact R1.
  - intros q. destruct (R2 q) as [R3 R4]. split.
    + intros [<- |Hq]; [|exact (R3 Hq)]. rewrite (R4 H1), Z.eqb_refl. reflexivity.
    + intros Hq. assert (A : ~ In q r) by (intros X; apply Hq; right; exact X). rewrite (R4 A).
      destruct (q =? p) eqn:Q; [|reflexivity]. exfalso. apply Hq. left. lia.
Qed.

Fixpoint idxs (us : list inst) (c : Z -> Z) : list (Z * Z) :=
  match us with
  | [] => []
  | u :: r => (i_id u, match u_pins E (i_master u) with [] => 0 | _ => c (i_master u) end) ::
              idxs r (fun m => if m =? i_master u then c m + 1 else c m)
  end.
Lemma pa_uniques_some us : forall cnt c acc, (forall m p, In p (u_pins E m) -> cnt p = c m) ->
  pa_uniques E us cnt acc = Some (acc ++ idxs us c).
Proof.
  induction us as [|u r IH]; intros cnt c acc H; cbn [pa_uniques idxs].
  { rewrite app_nil_r. reflexivity. }
  destruct (pa_pins_some (u_pins E (i_master u)) cnt (c (i_master u)) (PN _)) with (k := @None Z) as [cnt' [R1 R2]].
  { intros p Hp. apply H; exact Hp. }
  { left; reflexivity. }
  rewrite R1. erewrite IH with (c := fun m => if m =? i_master u then c m + 1 else c m).
  - rewrite <- app_assoc. destruct (u_pins E (i_master u)); reflexivity.
  - intros m p Hp. destruct (R2 p) as [R3 R4]. destruct (m =? i_master u) eqn:Q.
    + assert (m = i_master u) by lia. subst m. rewrite (R3 Hp). rewrite (H _ _ Hp). reflexivity.
    + rewrite R4; [apply H; exact Hp|]. intros X. assert (m = i_master u) by (apply (PD _ _ p); assumption). lia.
Qed.
Lemma idxs_lower us : forall c u, In u us -> u_pins E (i_master u) <> [] -> NoDup (map i_id us) ->
  exists k, lookup (idxs us c) (i_id u) = Some k /\ c (i_master u) <= k.
Proof.
  induction us as [|a r IH]; [easy|]. intros c u Hu P N. cbn [map] in N. inversion N; subst. cbn [idxs lookup].
  destruct Hu as [-> |Hu].
  - rewrite Z.eqb_refl. eexists. split; [reflexivity|]. destruct (u_pins E (i_master u)); [congruence|lia].
  - destruct (i_id a =? i_id u) eqn:Q.
    + exfalso. apply H1. replace (i_id a) with (i_id u) by lia. apply in_map; exact Hu.
    + destruct (IH (fun m => if m =? i_master a then c m + 1 else c m) u Hu P H2) as [k [K1 K2]]. exists k. split; [exact K1|].
      destruct (i_master u =? i_master a); lia.
Qed.
Lemma idxs_inj us : forall c u v k, In u us -> In v us -> NoDup (map i_id us) -> u_pins E (i_master u) <> [] ->
  i_master u = i_master v -> lookup (idxs us c) (i_id u) = Some k -> lookup (idxs us c) (i_id v) = Some k -> i_id u = i_id v.
Proof.
  induction us as [|a r IH]; [easy|]. intros c u v k Hu Hv N P M. cbn [map] in N. inversion N; subst. cbn [idxs lookup].
  destruct (i_id a =? i_id u) eqn:Q1; destruct (i_id a =? i_id v) eqn:Q2; intros K1 K2; [lia| | |].
  - destruct Hv as [-> |Hv]; [lia|]. destruct Hu as [-> |Hu]; [|exfalso; apply H1; replace (i_id a) with (i_id u) by lia; apply in_map; exact Hu].
    destruct (idxs_lower r (fun m => if m =? i_master u then c m + 1 else c m) v Hv) as [k' [L1 L2]]; [congruence|assumption|].
    rewrite K2 in L1. injection L1 as <-. rewrite M, Z.eqb_refl in L2. destruct (u_pins E (i_master u)) eqn:PU; [congruence|].
    injection K1 as <-. rewrite M in L2. lia.
  - destruct Hu as [-> |Hu]; [lia|]. destruct Hv as [-> |Hv]; [|exfalso; apply H1; replace (i_id a) with (i_id v) by lia; apply in_map; exact Hv].
    destruct (idxs_lower r (fun m => if m =? i_master v then c m + 1 else c m) u Hu) as [k' [L1 L2]]; [congruence|assumption|].
    rewrite K1 in L1. injection L1 as <-. rewrite M, Z.eqb_refl in L2. rewrite <- M in K2. destruct (u_pins E (i_master u)) eqn:PU; [congruence|].
    injection K2 as <-. rewrite M in L2. lia.
  - destruct Hu as [-> |Hu]; [lia|]. destruct Hv as [-> |Hv]; [lia|]. exact (IH _ u v k Hu Hv H2 P M K1 K2).
Qed.

(* two instances of a master with pins have the same index exactly if they have the same key *)
Lemma index_key is i j k1 k2 : NoDup (map i_id is) -> In i is -> In j is -> i_master i = i_master j ->
  u_pins E (i_master i) <> [] -> access_index E is i = Some k1 -> access_index E is j = Some k2 ->
  (k1 = k2 <-> key_of E i = key_of E j).
Proof.
  intros NI Hi Hj M P K1 K2. unfold access_index in *. destruct (groups E is []) as [gs|] eqn:G; [|discriminate].
  assert (GI := groups_inv is [] [] gs ginv_nil NI G). cbn in GI.
  rewrite (pa_uniques_some (uniques gs) (fun _ => 0) (fun _ => 0) []) in K1, K2 by reflexivity. cbn [app] in *.
  destruct (unique_of_spec is gs i GI NI Hi) as [ki [li [u [Ki [Gi [Ii [Ui Hdi]]]]]]].
  destruct (unique_of_spec is gs j GI NI Hj) as [kj [lj [v [Kj [Gj [Ij [Uj Hdj]]]]]]].
  rewrite Ui in K1. rewrite Uj in K2. rewrite Ki, Kj.
  destruct GI as [N A S]. split.
  - intros <-. assert (U1 : In u (uniques gs)) by (apply in_uniques; exists ki, li; split; assumption).
    assert (V1 : In v (uniques gs)) by (apply in_uniques; exists kj, lj; split; assumption).
    destruct (S _ _ Gi) as [_ Si]. destruct (S _ _ Gj) as [_ Sj].
    destruct (Si u (hd_in _ _ Hdi)) as [Du Ku]. destruct (Sj v (hd_in _ _ Hdj)) as [Dv Kv].
    assert (Mu : i_master u = i_master i).
    { unfold key_of in Ku, Ki. destruct (pin_range E (i_master u)); [|discriminate]. destruct (offsets E _ u _); [|discriminate].
      destruct (pin_range E (i_master i)); [|discriminate]. destruct (offsets E _ i _); [|discriminate]. congruence. }
    assert (Mv : i_master v = i_master j).
    { unfold key_of in Kv, Kj. destruct (pin_range E (i_master v)); [|discriminate]. destruct (offsets E _ v _); [|discriminate].
      destruct (pin_range E (i_master j)); [|discriminate]. destruct (offsets E _ j _); [|discriminate]. congruence. }
    assert (Q : i_id u = i_id v).
    { eapply idxs_inj; [exact U1|exact V1|apply (uniques_nodup is); [constructor; assumption|exact NI]|congruence|congruence|exact K1|exact K2]. }
    assert (u = v) by (apply (inj_id is); assumption). subst v. congruence.
  - intros Q. injection Q as ->. assert (li = lj) by (eapply nodup_fst_unique; eassumption). subst lj.
    assert (u = v) by congruence. subst v. congruence.
Qed.
Lemma index_some is i : NoDup (map i_id is) -> In i is -> (forall j, In j is -> key_of E j <> None) ->
  exists k, access_index E is i = Some k.
Proof.
  intros NI Hi H. unfold access_index. destruct (groups_some is [] H) as [gs G]. rewrite G.
  assert (GI := groups_inv is [] [] gs ginv_nil NI G). cbn in GI.
  rewrite (pa_uniques_some (uniques gs) (fun _ => 0) (fun _ => 0) []) by reflexivity. cbn [app].
  destruct (unique_of_spec is gs i GI NI Hi) as [ki [li [u [Ki [Gi [Ii [Ui Hdi]]]]]]]. rewrite Ui.
  assert (U1 : In u (uniques gs)) by (apply in_uniques; exists ki, li; split; assumption).
  clear - U1. generalize (fun _ : Z => 0). induction (uniques gs) as [|a r IH]; [destruct U1|]. intros c. cbn [idxs lookup].
  destruct (i_id a =? i_id u) eqn:Q; [eexists; reflexivity|]. destruct U1 as [-> |U1]; [lia|]. apply IH; exact U1.
Qed.
Lemma index_key_some is i k : In i is -> access_index E is i = Some k -> key_of E i <> None.
Proof.
  unfold access_index. intros Hi H. destruct (groups E is []) as [gs|] eqn:G; [|discriminate]. clear H.
  revert gs G. generalize (@nil (key * list inst)). induction is as [|a r IH]; [destruct Hi|]. cbn [groups]. intros g0 gs G.
  destruct (key_of E a) as [ka|] eqn:K; [|discriminate]. destruct Hi as [-> |Hi]; [congruence|]. exact (IH Hi _ _ G).
Qed.
End P.
