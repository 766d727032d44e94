From Verif Require Import Base Stl GeomModel GeomSpec GeomProofs TechModel TechSpec TechProofs GcModel GcSpec GcProofs GcProofs2.

(* --- shorts ------------------------------------------------------------------------------ *)
Lemma contains_false_skip E r1 r2 m :
  (is_obs E (gnet r1) = is_obs E (gnet r2) \/
   forall n b, n = gnet r1 \/ n = gnet r2 -> In b (e_fixedmax E n) -> box_contains_box b m true = false) ->
  skip_obs_pin E r1 r2 m = false.
Proof.
  intros H. unfold skip_obs_pin.
  destruct (is_obs E (gnet r1)) eqn:O1, (is_obs E (gnet r2)) eqn:O2; cbn [negb andb]; try reflexivity.
  - destruct H as [H|H]; [discriminate|]. apply not_true_iff_false. intros X.
    apply existsb_exists in X as (b & Ib & Cb). rewrite (H (gnet r2) b) in Cb by auto. discriminate.
  - destruct H as [H|H]; [discriminate|]. apply not_true_iff_false. intros X.
    apply existsb_exists in X as (b & Ib & Cb). rewrite (H (gnet r1) b) in Cb by auto. discriminate.
Qed.

Lemma routed_meets E a b n c : solid c -> normalised a -> normalised b -> touching a b ->
  c = a \/ c = b -> In c (e_route E n) -> meets_route E (between a b) n = true.
Proof.
  intros S Na Nb (p & Pa & Pb) W I. unfold meets_route. apply existsb_exists. exists c. split; [exact I|].
  unfold box_overlaps, widen1, between. unfold in_box, normalised, solid in *.
  destruct W as [-> | ->]; bx a; bx b; bxs; zcases; bxs; lia.
Qed.

Lemma check_pair_short E r1 r2 :
  solid (gbox r1) -> solid (gbox r2) -> gid r1 <> gid r2 -> gnet r1 <> gnet r2 ->
  touching (gbox r1) (gbox r2) ->
  (gfixed r1 = false /\ In (gbox r1) (e_route E (gnet r1))) \/
  (gfixed r2 = false /\ In (gbox r2) (e_route E (gnet r2))) ->
  (is_obs E (gnet r1) = is_obs E (gnet r2) \/
   forall n b, n = gnet r1 \/ n = gnet r2 -> In b (e_fixedmax E n) ->
     box_contains_box b (between (gbox r1) (gbox r2)) true = false) ->
  check_pair E r1 r2 = Some (Some (mkMk (between (gbox r1) (gbox r2)) (e_lnum E) 1 (gnet r1) (gnet r2))).
Proof.
  intros S1 S2 Hid Hn T R O.
  pose proof (solid_normalised _ S1) as N1. pose proof (solid_normalised _ S2) as N2.
  destruct (pair_geom_spec _ _ N1 N2) as (Gm & Gx & Gy & _).
  unfold check_pair. rewrite (proj2 (Z.eqb_neq _ _) Hid), Gm, Gx, Gy.
  pose proof (proj1 (touching_iff _ _ N1 N2) T) as [-> ->]. cbn [Z.eqb andb].
  unfold check_short. rewrite (contains_false_skip _ _ _ _ O).
  rewrite (proj2 (Z.eqb_neq _ _) Hn). cbn [andb].
  destruct (gfixed r1 && gfixed r2) eqn:EF.
  { destruct R as [[F _]|[F _]]; rewrite F in EF; [discriminate|rewrite andb_false_r in EF; discriminate]. }
  destruct R as [[_ R]|[_ R]].
  - rewrite (routed_meets E _ _ _ _ S1 N1 N2 T (or_introl eq_refl) R). reflexivity.
  - rewrite (routed_meets E _ _ _ _ S2 N1 N2 T (or_intror eq_refl) R). rewrite andb_false_r. reflexivity.
Qed.

(* --- markers ----------------------------------------------------------------------------- *)
Lemma box_eq_iff a b : box_eq a b = true <-> a = b.
Proof.
  unfold box_eq, pt_eq. bx a; bx b; bxs. split; [intros H; f_equal; f_equal; lia|].
  intros E; inversion E; subst. lia.
Qed.
Lemma key_srcs m s : s <> 0 ->
  (s = msrc1 m \/ s = msrc2 m <-> s = fst (src_key m) \/ s = snd (src_key m)).
Proof. intros Hs. unfold src_key. destruct (msrc1 m =? msrc2 m) eqn:E; cbn [fst snd]; lia. Qed.
Lemma same_violation_key m m' : same_violation m m' -> src_key m = src_key m'.
Proof.
  intros (_ & _ & _ & H). unfold src_key.
  destruct (msrc1 m =? msrc2 m) eqn:E1, (msrc1 m' =? msrc2 m') eqn:E2; f_equal; lia.
Qed.
Definition dup (ms : list marker) (m : marker) : bool :=
  existsb (fun m' => same_key (src_key m) m' m) ms ||
  existsb (fun m' => same_key (snd (src_key m), fst (src_key m)) m' m) ms.
Lemma add_marker_dup ms m : add_marker ms m = if dup ms m then ms else ms ++ [m].
Proof.
  unfold add_marker, dup. destruct (existsb _ ms); [reflexivity|]. destruct (existsb _ ms); reflexivity.
Qed.
Lemma dup_violation ms m m' : In m' ms -> same_violation m' m -> dup ms m = true.
Proof.
  intros I V. unfold dup. apply orb_true_iff. left. apply existsb_exists. exists m'. split; [exact I|].
  pose proof (same_violation_key _ _ V) as K. destruct V as (B & L & C & _).
  unfold same_key. rewrite K, (proj2 (box_eq_iff _ _) B). lia.
Qed.
Lemma dup_reports ms m : dup ms m = true -> reports ms m.
Proof.
  intros H. assert (exists m', In m' ms /\
      (same_key (src_key m) m' m = true \/ same_key (snd (src_key m), fst (src_key m)) m' m = true)) as (m' & I & K).
  { apply orb_true_iff in H as [H|H]; apply existsb_exists in H as (m' & I & K); exists m'; auto. }
  exists m'. split; [exact I|]. unfold same_key in K. unfold same_reported.
  destruct K as [K|K]; repeat rewrite andb_true_iff in K; destruct K as ((((KB & KL) & KC) & K1) & K2);
    apply box_eq_iff in KB; apply Z.eqb_eq in KL, KC, K1, K2; cbn [fst snd] in K1, K2;
    (split; [auto|]; split; [auto|]; split; [auto|]); intros s Hs; rewrite !key_srcs by exact Hs; rewrite K1, K2; tauto.
Qed.
Lemma same_reported_refl m : same_reported m m.
Proof. unfold same_reported. repeat split; auto; tauto. Qed.
Lemma add_marker_incl ms m : incl ms (add_marker ms m).
Proof. rewrite add_marker_dup. destruct (dup ms m); [apply incl_refl|apply incl_appl; apply incl_refl]. Qed.
Lemma add_marker_reports ms m : reports (add_marker ms m) m.
Proof.
  rewrite add_marker_dup. destruct (dup ms m) eqn:D; [apply dup_reports; exact D|].
  exists m. split; [apply in_or_app; right; left; reflexivity|apply same_reported_refl].
Qed.
Lemma add_marker_inv ms m x : In x (add_marker ms m) -> In x ms \/ x = m.
Proof.
  rewrite add_marker_dup. destruct (dup ms m); [auto|]. intros H. apply in_app_or in H as [H|[H|[]]]; auto.
Qed.
Definition once (ms : list marker) : Prop :=
  forall i j m m', (i < j)%nat -> nth_error ms i = Some m -> nth_error ms j = Some m' -> ~ same_violation m m'.
Lemma add_marker_once ms m : once ms -> once (add_marker ms m).
Proof.
  intros O. rewrite add_marker_dup. destruct (dup ms m) eqn:D; [exact O|].
  intros i j a b Hij Hi Hj V.
  assert (Lj : (j < length (ms ++ [m]))%nat) by (apply nth_error_Some; congruence).
  rewrite app_length in Lj. cbn [length] in Lj.
  destruct (Nat.eq_dec j (length ms)) as [-> |Hn].
  - rewrite nth_error_app2 in Hj by lia. rewrite Nat.sub_diag in Hj. injection Hj as <-.
    rewrite nth_error_app1 in Hi by lia. apply nth_error_In in Hi.
    rewrite (dup_violation _ _ _ Hi V) in D. discriminate.
  - rewrite nth_error_app1 in Hi by lia. rewrite nth_error_app1 in Hj by lia.
    exact (O i j a b Hij Hi Hj V).
Qed.
Lemma reports_incl ms ms' m : incl ms ms' -> reports ms m -> reports ms' m.
Proof. intros I (m' & H & S). exists m'. auto. Qed.

(* --- driver ------------------------------------------------------------------------------ *)
Lemma check_against_spec E r others : forall ms ms', check_against E r others ms = Some ms' ->
  incl ms ms' /\
  (forall o m, In o others -> check_pair E r o = Some (Some m) -> reports ms' m) /\
  (forall m, In m ms' -> In m ms \/ exists o, In o others /\ check_pair E r o = Some (Some m)) /\
  (once ms -> once ms').
Proof.
  induction others as [|o rest IH]; intros ms ms' H.
  - injection H as <-. split; [apply incl_refl|]. split; [intros o m []|]. split; auto.
  - cbn [check_against] in H. destruct (check_pair E r o) as [[m0|]|] eqn:CP; [| |discriminate].
    + destruct (IH _ _ H) as (A & B & C & D). split; [|split; [|split]].
      * eapply incl_tran; [apply add_marker_incl|exact A].
      * intros o' m [<- |I] P; [|exact (B o' m I P)].
        rewrite CP in P. injection P as <-. eapply reports_incl; [exact A|apply add_marker_reports].
      * intros m I. destruct (C m I) as [I'|(o' & Io & P)].
        -- destruct (add_marker_inv _ _ _ I') as [I''| ->]; [auto|]. right. exists o. split; [left; reflexivity|exact CP].
        -- right. exists o'. split; [right; exact Io|exact P].
      * intros O. apply D. apply add_marker_once. exact O.
    + destruct (IH _ _ H) as (A & B & C & D). split; [exact A|]. split; [|split; [|exact D]].
      * intros o' m [<- |I] P; [congruence|exact (B o' m I P)].
      * intros m I. destruct (C m I) as [I'|(o' & Io & P)]; [auto|]. right. exists o'. split; [right; exact Io|exact P].
Qed.

Lemma check_spacing_spec E d rs : max_spc E = Some d -> forall ms ms', check_spacing E rs ms = Some ms' ->
  incl ms ms' /\
  (forall r o m, In r rs -> In o (query_rects E (my_bloat (gbox r) d)) ->
     check_pair E r o = Some (Some m) -> reports ms' m) /\
  (forall m, In m ms' -> In m ms \/
     exists r o, In r rs /\ In o (e_rects E) /\ check_pair E r o = Some (Some m)) /\
  (once ms -> once ms').
Proof.
  intros MD. induction rs as [|r rest IH]; intros ms ms' H.
  - injection H as <-. split; [apply incl_refl|]. split; [intros r o m []|]. split; auto.
  - cbn [check_spacing] in H. unfold check_rect in H. rewrite MD in H.
    destruct (check_against _ _ _ ms) as [ms1|] eqn:CA; [|discriminate].
    destruct (check_against_spec _ _ _ _ _ CA) as (A1 & B1 & C1 & D1).
    destruct (IH _ _ H) as (A & B & C & D). split; [eapply incl_tran; eauto|]. split; [|split].
    + intros r' o m [<- |I] Io P; [|exact (B r' o m I Io P)].
      eapply reports_incl; [exact A|]. exact (B1 o m Io P).
    + intros m I. destruct (C m I) as [I'|(r' & o & Ir & Io & P)].
      * destruct (C1 m I') as [I''|(o & Io & P)]; [auto|]. right. exists r, o.
        split; [left; reflexivity|]. split; [|exact P]. apply query_In in Io. tauto.
      * right. exists r', o. split; [right; exact Ir|]. auto.
    + auto.
Qed.

Lemma check_spacing_max E rs ms ms' : check_spacing E rs ms = Some ms' -> rs <> [] -> exists d, max_spc E = Some d.
Proof.
  destruct rs as [|r rs]; [congruence|]. intros H _. cbn [check_spacing] in H. unfold check_rect in H.
  destruct (max_spc E) as [d|]; [eauto|discriminate].
Qed.

(* the check is defined *)
Lemma req_defined E r1 r2 prl :
  match e_rule E with PrlTable rows cols vals => prl_table_ok rows cols vals | _ => True end ->
  (e_kind E (gnet r1) <> KFloating \/ forall v, e_same E <> Some (v, true)) ->
  exists v, req_spc E r1 r2 prl = Some v.
Proof.
  intros OK F. unfold req_spc. destruct (e_rule E) as [|rows cols vals|]; eauto.
  destruct OK as (R & C & SR & SC & T & M & N).
  match goal with |- context [find2 rows cols vals ?w prl] =>
    destruct (find2_spec rows cols vals w prl R C SR SC T) as (i & j & _ & _ & ->) end.
  destruct (find2_max_spec rows cols vals R C T) as [_ ->].
  destruct (_ && _); [|eauto]. destruct (e_same E) as [[s pg]|] eqn:ES; [|eauto].
  destruct pg; cbn [negb]; [|eauto].
  destruct (e_kind E (gnet r1)) as [| |[|]] eqn:K; eauto.
  destruct F as [F|F]; [congruence|]. exfalso. exact (F s eq_refl).
Qed.
Lemma check_pair_defined E r1 r2 :
  match e_rule E with PrlTable rows cols vals => prl_table_ok rows cols vals | _ => True end ->
  (e_kind E (gnet r1) <> KFloating \/ forall v, e_same E <> Some (v, true)) ->
  exists x, check_pair E r1 r2 = Some x.
Proof.
  intros OK F. unfold check_pair. destruct (gid r1 =? gid r2); [eauto|].
  destruct (_ && _); [eauto|]. unfold check_prl.
  destruct (req_defined E r1 r2 (g_prl (pair_geom (gbox r1) (gbox r2))) OK F) as (v & ->). eauto.
Qed.
Lemma max_defined E :
  match e_rule E with PrlTable rows cols vals => prl_table_ok rows cols vals | _ => True end ->
  exists d, max_spc E = Some d.
Proof.
  intros OK. unfold max_spc. destruct (e_rule E) as [|rows cols vals|]; eauto.
  destruct OK as (R & C & SR & SC & T & M & N). destruct (find2_max_spec rows cols vals R C T) as [-> _]. eauto.
Qed.
Lemma check_spacing_defined E rs :
  match e_rule E with PrlTable rows cols vals => prl_table_ok rows cols vals | _ => True end ->
  (forall r, In r rs -> e_kind E (gnet r) <> KFloating) \/ (forall v, e_same E <> Some (v, true)) ->
  forall ms, exists ms', check_spacing E rs ms = Some ms'.
Proof.
  intros OK. induction rs as [|r rest IH]; intros F ms; [exists ms; reflexivity|].
  cbn [check_spacing]. unfold check_rect. destruct (max_defined E OK) as (d & ->).
  assert (Fr : e_kind E (gnet r) <> KFloating \/ forall v, e_same E <> Some (v, true)).
  { destruct F as [F|F]; [left; apply F; left; reflexivity|right; exact F]. }
  assert (G : forall l ms0, exists ms', check_against E r l ms0 = Some ms').
  { induction l as [|o l IHl]; intros ms0; [exists ms0; reflexivity|]. cbn [check_against].
    destruct (check_pair_defined E r o OK Fr) as ([m|] & ->); apply IHl. }
  destruct (G (query_rects E (my_bloat (gbox r) d)) ms) as (ms1 & ->).
  apply IH. destruct F as [F|F]; [left; intros r' I; apply F; right; exact I|right; exact F].
Qed.

(* --- two-width tables -------------------------------------------------------------------- *)
Lemma tw_lt_mono hdr v i j : tw_sorted hdr -> (i <= j < length hdr)%nat ->
  tw_lt (nth j hdr (0, 0)) v = true -> tw_lt (nth i hdr (0, 0)) v = true.
Proof. intros S H. destruct (S i j H). unfold tw_lt. lia. Qed.

Lemma tw_lb_spec hdr v : tw_sorted hdr -> forall fuel first len,
  (len <= fuel)%nat -> (first + len <= length hdr)%nat ->
  let k := tw_lower_bound hdr v first len fuel in
  (first <= k <= first + len)%nat /\
  (forall i, (first <= i < k)%nat -> tw_lt (nth i hdr (0, 0)) v = true) /\
  (forall i, (k <= i < first + len)%nat -> tw_lt (nth i hdr (0, 0)) v = false).
Proof.
  intros S. induction fuel as [|fuel IH]; intros first len Hf Hl.
  - cbn [tw_lower_bound]. assert (len = O) by lia. subst. split; [lia|]. split; intros i Hi; lia.
  - cbn [tw_lower_bound]. destruct len as [|len]; [split; [lia|]; split; intros i Hi; lia|].
    assert (Hh : (Nat.div2 (Datatypes.S len) < Datatypes.S len)%nat) by (apply Nat.lt_div2; lia).
    set (half := Nat.div2 (Datatypes.S len)) in *.
    destruct (tw_lt (nth (first + half) hdr (0, 0)) v) eqn:T.
    + destruct (IH (first + half + 1)%nat (Datatypes.S len - half - 1)%nat ltac:(lia) ltac:(lia)) as (A & B & C).
      split; [lia|]. split; [|intros i Hi; apply C; lia].
      intros i Hi. destruct (Nat.le_gt_cases i (first + half)) as [L|L]; [|apply B; lia].
      apply (tw_lt_mono hdr v i (first + half)%nat S); [lia|exact T].
    + destruct (IH first half ltac:(lia) ltac:(lia)) as (A & B & C).
      split; [lia|]. split; [exact B|]. intros i Hi.
      destruct (Nat.le_gt_cases (first + half) i) as [L|L]; [|apply C; lia].
      destruct (tw_lt (nth i hdr (0, 0)) v) eqn:T2; [|reflexivity].
      rewrite (tw_lt_mono hdr v (first + half)%nat i S ltac:(lia) T2) in T. discriminate.
Qed.

(* the row used: the last one below the width or below the run length, else the first *)
Lemma tw_idx_spec hdr w p : tw_sorted hdr -> hdr <> [] ->
  let i := tw_idx hdr (w, p) in
  (i < length hdr)%nat /\
  (i = O \/ fst (nth i hdr (0, 0)) < w \/ snd (nth i hdr (0, 0)) < p) /\
  (forall j, (i < j)%nat -> (j < length hdr)%nat -> w <= fst (nth j hdr (0, 0)) /\ p <= snd (nth j hdr (0, 0))).
Proof.
  intros S NE. unfold tw_idx.
  destruct (tw_lb_spec hdr (w, p) S (length hdr) 0 (length hdr) ltac:(lia) ltac:(lia)) as (A & B & C).
  set (k := tw_lower_bound _ _ _ _ _) in *. cbn zeta.
  assert (0 < length hdr)%nat by (destruct hdr; [congruence|cbn; lia]).
  split; [lia|]. split.
  - destruct (Nat.eq_dec k 0) as [-> |Hk]; [left; reflexivity|].
    right. specialize (B (k - 1)%nat ltac:(lia)). unfold tw_lt in B. cbn [fst snd] in B. lia.
  - intros j Hj Lj. specialize (C j ltac:(lia)). unfold tw_lt in C. cbn [fst snd] in C. lia.
Qed.

Lemma tw_row_le hdr w p i : tw_sorted hdr -> hdr <> [] -> tw_row hdr w p i -> (i <= tw_idx hdr (w, p))%nat.
Proof.
  intros S NE (L & A & B). destruct (tw_idx_spec hdr w p S NE) as (L' & A' & B').
  destruct (Nat.le_gt_cases i (tw_idx hdr (w, p))) as [H|H]; [exact H|].
  specialize (B' i H L). destruct A as [A|A]; [lia|]. lia.
Qed.
