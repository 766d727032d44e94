From Verif Require Import Base Stl GeomModel GeomSpec GeomProofs TechModel GcModel GcSpec GcProofs GcProofs2 GcProofs3
  CostModel CutModel CutSpec CutProofs.

(* ---- two layers ---- *)
Definition stack_skip (c : crule) (r o : grect) : bool :=
  k_stack c && k_same c && (gnet r =? gnet o) &&
  (box_contains_box (gbox r) (gbox o) true || box_contains_box (gbox o) (gbox r) true).
Lemma cut_pair_diff W l s c r o m : normalised (gbox r) -> normalised (gbox o) -> l <> s ->
  k_second c = Some s -> k_adj c = None ->
  (cut_pair W l s c r o = Some m <->
   gid r <> gid o /\ (k_same c = true \/ gnet r <> gnet o \/ cl_isame (q_layer W l) s = None) /\
   (gfixed r && gfixed o = false) /\ stack_skip c r o = false /\
   stacked_apart (k_c2c c) (gbox r) (gbox o) (k_spc c) /\ m = spacing_marker l (k_id c) r o).
Proof.
  intros Nr No Hl S2 NA. unfold cut_pair. rewrite S2.
  destruct (Z.eqb_spec (gid r) (gid o)); [split; [discriminate|intuition]|].
  assert (NR : (k_same c = true \/ gnet r <> gnet o \/ cl_isame (q_layer W l) s = None) <->
    negb (k_same c) && (gnet r =? gnet o) && match cl_isame (q_layer W l) s with Some _ => true | None => false end = false).
  { destruct (k_same c); cbn [negb andb]; [tauto|].
    destruct (Z.eqb_spec (gnet r) (gnet o)); cbn [andb]; [|tauto].
    destruct (cl_isame (q_layer W l) s); split; intros H; try tauto; try discriminate.
    destruct H as [H|[H|H]]; [discriminate|congruence|discriminate]. }
  destruct (negb (k_same c) && _ && _) eqn:ER; [split; [discriminate|]; intros (_ & A & _); apply NR in A; discriminate|].
  assert (NRt : k_same c = true \/ gnet r <> gnet o \/ cl_isame (q_layer W l) s = None) by (apply NR; reflexivity). clear NR ER.
  destruct (pair_geom_spec _ _ Nr No) as (Em & _). cbv zeta. rewrite Em.
  destruct (Z.eqb_spec l s); [contradiction|]. unfold cut_diff.
  destruct (gfixed r && gfixed o); [split; [discriminate|]; intros (_ & _ & H & _); discriminate|].
  fold (stack_skip c r o). destruct (stack_skip c r o); [split; [discriminate|]; intros (_ & _ & _ & H & _); discriminate|].
  cbv zeta. assert (Er : cut_req W l s c r o = k_spc c) by (unfold cut_req; rewrite NA; reflexivity). rewrite Er.
  rewrite Z.geb_leb.
  assert (SA : stacked_apart (k_c2c c) (gbox r) (gbox o) (k_spc c) <->
    (if k_c2c c || box_overlaps (gbox r) (gbox o) false then c2c_square (gbox r) (gbox o) else gap_square (gbox r) (gbox o))
      < k_spc c * k_spc c).
  { unfold stacked_apart. rewrite <- (overlap_iff _ _ Nr No), (nearer_iff _ _ _ _ Nr No), <- c2c_is.
    destruct (box_overlaps _ _ false); [rewrite orb_true_r|rewrite orb_false_r]; [|destruct (k_c2c c)];
      split; intros H; try tauto; try (apply H; discriminate || reflexivity); split; intros; auto; try congruence; try tauto. }
  destruct (Z.leb_spec (k_spc c * k_spc c) (if k_c2c c || box_overlaps (gbox r) (gbox o) false then c2c_square (gbox r) (gbox o) else gap_square (gbox r) (gbox o))) as [Le|Lt].
  { split; [discriminate|]. intros (_ & _ & _ & _ & H & _). apply SA in H. lia. }
  assert (stacked_apart (k_c2c c) (gbox r) (gbox o) (k_spc c)) by (apply SA; exact Lt).
  unfold cut_marker, spacing_marker. split; intros H0.
  - injection H0 as <-. tauto.
  - destruct H0 as (_ & _ & _ & _ & _ & ->). reflexivity.
Qed.
Lemma stack_skip_ok c r o : normalised (gbox r) -> normalised (gbox o) -> stack_skip c r o = true -> stack_ok c r o.
Proof.
  intros Nr No. unfold stack_skip, stack_ok. rewrite !andb_true_iff, orb_true_iff, Z.eqb_eq, !contains_inside by assumption. tauto.
Qed.
Lemma stack_ok_skip c r o : normalised (gbox r) -> normalised (gbox o) -> k_same c = true -> stack_ok c r o -> stack_skip c r o = true.
Proof.
  intros Nr No Ks. unfold stack_skip, stack_ok. rewrite !andb_true_iff, orb_true_iff, Z.eqb_eq, !contains_inside by assumption. tauto.
Qed.
Lemma stacked_closer c2c a b v : normalised a -> normalised b -> stacked_apart c2c a b v -> closer_than a b v.
Proof.
  intros Na Nb [H1 H2]. destruct (box_overlaps a b false) eqn:E.
  - apply (nearer_closer true); auto. apply H1. apply overlap_iff; assumption.
  - apply (nearer_closer c2c); auto. apply H2. rewrite <- overlap_iff by assumption. congruence.
Qed.

(* ---- rules of the file ---- *)
Lemma rules_In w s lef same c : In c (cl_rules (lef_layer w s lef) same) <-> In c lef /\ k_same c = same /\ k_second c = None.
Proof.
  cbn. rewrite filter_In, andb_true_iff, eqb_true_iff. destruct (k_second c); intuition congruence.
Qed.
Lemma find_first same s lef c : find (second_is s same) lef = Some c <-> first_of same s lef c.
Proof.
  assert (SI : forall x, second_is s same x = true <-> k_same x = same /\ k_second x = Some s).
  { intros x. unfold second_is. rewrite andb_true_iff, eqb_true_iff. destruct (k_second x); rewrite ?Z.eqb_eq; intuition congruence. }
  unfold first_of. split.
  - induction lef as [|x lef IH]; [discriminate|]. cbn [find]. destruct (second_is s same x) eqn:E; intros H.
    + injection H as <-. apply SI in E as [E1 E2]. exists [], lef. split; [reflexivity|]. split; [exact E1|]. split; [exact E2|]. intros c' [].
    + destruct (IH H) as (p & q & -> & A & B & C). exists (x :: p), q. split; [reflexivity|]. split; [exact A|]. split; [exact B|].
      intros c' [<- |I]; [|exact (C c' I)]. rewrite <- SI. congruence.
  - intros (p & q & -> & A & B & C). induction p as [|x p IH].
    + cbn. replace (second_is s same c) with true; [reflexivity|]. symmetry. apply SI. auto.
    + cbn. destruct (second_is s same x) eqn:E.
      * exfalso. apply (C x); [left; reflexivity|]. apply SI. exact E.
      * apply IH. intros c' I. apply C. right. exact I.
Qed.
Lemma find_none_first same s lef : find (second_is s same) lef = None <-> forall c, ~ first_of same s lef c.
Proof.
  destruct (find (second_is s same) lef) as [c|] eqn:E; split; intros H; try discriminate; try reflexivity.
  - apply find_first in E. destruct (H c E).
  - intros c F. apply find_first in F. congruence.
Qed.
Lemma first_In same s lef c : first_of same s lef c -> In c lef /\ k_same c = same /\ k_second c = Some s.
Proof. intros (p & q & -> & A & B & _). split; [apply in_elt|auto]. Qed.
Lemma inter_In W l c : In c (inter_rules W l) <-> exists s, 0 <= s <= q_top W /\ cl_inter (q_layer W l) s = Some c.
Proof.
  unfold inter_rules. rewrite in_flat_map. split.
  - intros (s & I & H). apply zrange_In in I. exists s. split; [lia|]. destruct (cl_inter _ s); [|destruct H].
    destruct H as [-> |[]]. reflexivity.
  - intros (s & B & E). exists s. split; [apply zrange_In; lia|]. rewrite E. left. reflexivity.
Qed.

(* ---- the loops ---- *)
Definition found (W : cworker) (l : Z) (r : grect) (c : crule) (m : marker) : Prop :=
  has_adj W l c r = true /\
  exists o, In o (q_find W (second_layer l c) (my_bloat (gbox r) (cut_reach c))) /\
    cut_pair W l (second_layer l c) (rule_for W l c r o) r o = Some m.
Definition grows (P : marker -> Prop) (ms ms' : list marker) : Prop :=
  incl ms ms' /\ (forall m, P m -> reports ms' m) /\ (forall m, In m ms' -> In m ms \/ P m).
Lemma fold_grows {X} (f : list marker -> X -> list marker) (P : X -> marker -> Prop) :
  (forall x ms, grows (P x) ms (f ms x)) ->
  forall xs ms, grows (fun m => exists x, In x xs /\ P x m) ms (fold_left f xs ms).
Proof.
  intros Hf. induction xs as [|x xs IH]; intros ms; cbn [fold_left].
  - split; [apply incl_refl|]. split; [intros m (x & [] & _)|auto].
  - destruct (Hf x ms) as (A1 & B1 & C1). destruct (IH (f ms x)) as (A & B & C).
    split; [eapply incl_tran; eauto|]. split.
    + intros m (y & [<- |I] & P1); [eapply reports_incl; [exact A|auto]|]. apply B. eauto.
    + intros m I. destruct (C m I) as [I'|(y & Iy & Py)].
      * destruct (C1 m I') as [?|?]; [auto|]. right. exists x. split; [left; reflexivity|assumption].
      * right. exists y. split; [right; assumption|assumption].
Qed.
Lemma add_opt_grows ms m : grows (fun x => m = Some x) ms (add_opt ms m).
Proof.
  destruct m as [m|]; cbn [add_opt].
  - split; [apply add_marker_incl|]. split.
    + intros x H. injection H as <-. apply add_marker_reports.
    + intros x H. apply add_marker_inv in H as [H| ->]; auto.
  - split; [apply incl_refl|]. split; [discriminate|auto].
Qed.
Lemma grows_ext (P Q : marker -> Prop) ms ms' : (forall m, P m <-> Q m) -> grows P ms ms' -> grows Q ms ms'.
Proof.
  intros E (A & B & C). split; [exact A|]. split; [intros m H; apply B, E, H|].
  intros m H. destruct (C m H); [auto|]. right. apply E. assumption.
Qed.
Lemma cut_rule_grows W l r c ms : grows (found W l r c) ms (cut_rule_check W l r ms c).
Proof.
  unfold cut_rule_check, found. destruct (has_adj W l c r); cbn [negb].
  - eapply grows_ext; [|apply (fold_grows _ (fun o m => cut_pair W l (second_layer l c) (rule_for W l c r o) r o = Some m))].
    + intros m. cbn. tauto.
    + intros o ms'. apply add_opt_grows.
  - split; [apply incl_refl|]. split; [intros m [H _]; discriminate|auto].
Qed.
Definition all_rules (W : cworker) (l : Z) : list crule :=
  cl_rules (q_layer W l) false ++ cl_rules (q_layer W l) true ++ inter_rules W l.
Lemma check_cuts_grows W rs ms :
  grows (fun m => exists l r c, In (l, r) rs /\ In c (all_rules W l) /\ found W l r c m) ms (check_cuts W rs ms).
Proof.
  unfold check_cuts. eapply grows_ext.
  2: { apply (fold_grows _ (fun x m => exists c, In c (all_rules W (fst x)) /\ found W (fst x) (snd x) c m)).
       intros [l r] ms'. cbn [fst snd]. unfold cut_check. apply fold_grows. intros c ms''. apply cut_rule_grows. }
  intros m. split.
  - intros ([l r] & I & c & H). exists l, r, c. tauto.
  - intros (l & r & c & I & H). exists (l, r). split; [exact I|]. exists c. exact H.
Qed.

(* ---- what is found ---- *)
Lemma cl_short_of w s lef : cl_short (lef_layer w s lef) = s.
Proof. reflexivity. Qed.
Lemma rule_In_all W l lef c : rules_from W l lef -> In c lef -> k_second c = None -> In c (all_rules W l).
Proof.
  intros (_ & w & s & E) I S. unfold all_rules. rewrite E, !in_app_iff, !rules_In. destruct (k_same c); tauto.
Qed.
Lemma all_In W l lef c : rules_from W l lef -> In c (all_rules W l) ->
  In c lef /\ (k_second c = None \/ exists s, 0 <= s <= q_top W /\ k_second c = Some s /\ first_of false s lef c).
Proof.
  intros (_ & w & sh & E) I. unfold all_rules in I. rewrite !in_app_iff, E, !rules_In, inter_In, E in I.
  destruct I as [(A & _ & B)|[(A & _ & B)|(s & B & F)]]; [tauto|tauto|].
  cbn [lef_layer cl_inter] in F. apply find_first in F. destruct (first_In _ _ _ _ F) as (? & ? & ?). split; [assumption|].
  right. exists s. auto.
Qed.
Lemma asked_reach W l1 l2 c r o v : asked W l1 l2 c r o v -> v <= cut_reach c.
Proof.
  intros H. apply asked_iff in H. subst v. unfold cut_req, cut_reach. destruct (k_adj c); [destruct (_ || _)|]; lia.
Qed.
Lemma asked_nonneg W l1 l2 l c r o v : good_rule l c -> asked W l1 l2 c r o v -> 0 <= v.
Proof.
  intros (A & B & _) H. apply asked_iff in H. subst v. unfold cut_req. destruct (k_adj c) as [n|]; [|assumption].
  destruct (B n eq_refl). destruct (_ || _); lia.
Qed.
Lemma spared_binds c r o : good_rule 0 c \/ (exists l, good_rule l c) -> area_binds c r o -> not_spared c r o.
Proof.
  intros G. assert (GA : forall a, k_area c = Some a -> 0 <= a).
  { destruct G as [(_ & _ & _ & H)|(l & _ & _ & _ & H)]; exact H. }
  unfold area_binds, not_spared, area_spared, read_area. destruct (k_area c) as [a|]; [|reflexivity].
  specialize (GA a eq_refl). change (rect_area ?b) with (cut_area b).
  set (x := cut_area (gbox r)). set (y := cut_area (gbox o)). intros H. destruct (Z.eqb_spec a 0).
  - subst a. apply andb_false_iff. rewrite !Z.ltb_ge. lia.
  - apply andb_false_iff. rewrite !Z.ltb_ge. lia.
Qed.

Section Found.
Variables (W : cworker) (l : Z) (lef : list crule).
Hypothesis GW : good_worker W.
Hypothesis RF : rules_from W l lef.
Lemma lef_good c : In c lef -> good_rule l c.
Proof. destruct RF as [F _]. rewrite Forall_forall in F. apply F. Qed.
Lemma no_same_iff : cl_rules (q_layer W l) true = [] <-> (forall c', In c' lef -> k_second c' = None -> k_same c' = false).
Proof.
  destruct RF as (_ & w & s & E). rewrite E. split.
  - intros H c I S. destruct (k_same c) eqn:K; [|reflexivity].
    assert (X : In c (cl_rules (lef_layer w s lef) true)) by (apply rules_In; auto). rewrite H in X. destruct X.
  - intros H. destruct (cl_rules (lef_layer w s lef) true) as [|c cs] eqn:X; [reflexivity|].
    assert (I : In c (cl_rules (lef_layer w s lef) true)) by (rewrite X; left; reflexivity).
    apply rules_In in I as (A & B & C). rewrite (H c A C) in B. discriminate.
Qed.
Lemma isame_iff s g c : first_of false s lef g -> (cl_isame (q_layer W l) s = Some c <-> first_of true s lef c).
Proof.
  intros G. apply find_first in G. destruct RF as (_ & w & sh & E). rewrite E. cbn [lef_layer cl_isame]. rewrite G. apply find_first.
Qed.
Lemma isame_none s g : first_of false s lef g -> (cl_isame (q_layer W l) s = None <-> forall c, ~ first_of true s lef c).
Proof.
  intros G. apply find_first in G. destruct RF as (_ & w & sh & E). rewrite E. cbn [lef_layer cl_isame]. rewrite G. apply find_none_first.
Qed.

(* same layer: exactly which markers *)
Lemma found_same r c m : In r (q_rects W l) -> In c lef -> k_second c = None ->
  (found W l r c m <->
   crowded W l c r /\ exists o, In o (q_rects W l) /\ o <> r /\ (gfixed r && gfixed o = false) /\
     (k_same c = true \/ gnet r <> gnet o \/ forall c', In c' lef -> k_second c' = None -> k_same c' = false) /\
     ((touching (gbox r) (gbox o) /\ m = short_marker W l r o) \/
      (~ touching (gbox r) (gbox o) /\ not_spared c r o /\ breaks_shape W l c r o /\ m = spacing_marker l (k_id c) r o))).
Proof.
  intros Ir Ic S2. pose proof (lef_good c Ic) as GR. destruct GW as (GN & _ & GI).
  pose proof (GN l r Ir) as Nr. unfold found. rewrite (has_adj_iff W l c r GW Ir GR).
  assert (SL : second_layer l c = l) by (unfold second_layer; rewrite S2; reflexivity). rewrite SL.
  assert (RL : forall o, rule_for W l c r o = c) by (intros o; unfold rule_for; rewrite S2; reflexivity).
  split; intros [Cr (o & Io & H)]; (split; [exact Cr|]); exists o.
  - apply filter_In in Io as [Io _]. pose proof (GN l o Io) as No. rewrite RL in H. apply cut_pair_same in H; auto.
    destruct H as (Ni & NR & F & H). split; [exact Io|]. split; [congruence|]. split; [exact F|].
    split. { unfold not_replaced in NR. rewrite no_same_iff in NR. exact NR. }
    unfold breaks_shape. tauto.
  - destruct H as (Ne & F & NR & H). pose proof (GN l o Io) as No. split.
    + destruct H as [[T _]|(_ & _ & (_ & _ & _ & v & A & B) & _)].
      * apply touch_found; auto. destruct GR as (G1 & G2 & _). unfold cut_reach. destruct (k_adj c); lia.
      * eapply nearer_found; eauto. split; [eapply asked_nonneg; eauto|eapply asked_reach; eauto].
    + rewrite RL. apply cut_pair_same; auto. split. { intros E. destruct (GI l l r o Ir Io E). congruence. }
      split. { unfold not_replaced. rewrite no_same_iff. exact NR. }
      unfold breaks_shape in H. tauto.
Qed.

(* two layers *)
Lemma rule_for_inter s g r o : first_of false s lef g ->
  rule_for W l g r o = (if gnet r =? gnet o then match cl_isame (q_layer W l) s with Some c => c | None => g end else g).
Proof.
  intros G. destruct (first_In _ _ _ _ G) as (_ & _ & S2). unfold rule_for. rewrite S2.
  destruct (gnet r =? gnet o); reflexivity.
Qed.
Lemma found_inter s g r m : In r (q_rects W l) -> first_of false s lef g -> s <> l ->
  (found W l r g m <->
   exists o c, In o (q_find W s (my_bloat (gbox r) (k_spc g))) /\ (gfixed r && gfixed o = false) /\
     between_layers lef s r o c /\ stack_skip c r o = false /\
     stacked_apart (k_c2c c) (gbox r) (gbox o) (k_spc c) /\ m = spacing_marker l (k_id c) r o).
Proof.
  intros Ir G Hs. destruct (first_In _ _ _ _ G) as (Ig & Kg & S2). pose proof (lef_good g Ig) as (_ & _ & GS & _).
  destruct (GS s S2) as [_ NA]. destruct GW as (GN & _ & GI). pose proof (GN l r Ir) as Nr.
  unfold found. assert (HA : has_adj W l g r = true) by (unfold has_adj; rewrite NA; reflexivity). rewrite HA.
  assert (SL : second_layer l g = s) by (unfold second_layer; rewrite S2; reflexivity). rewrite SL.
  assert (CR : cut_reach g = k_spc g) by (unfold cut_reach; rewrite NA; reflexivity). rewrite CR.
  assert (Ni : forall o, In o (q_rects W s) -> gid r <> gid o).
  { intros o Io E. destruct (GI l s r o Ir Io E). congruence. }
  assert (GU : forall g', first_of false s lef g' -> g' = g).
  { intros g' G'. apply find_first in G'. apply find_first in G. congruence. }
  split.
  - intros [_ (o & Io & H)]. exists o. pose proof Io as Io'. apply filter_In in Io' as [Iq _]. pose proof (GN s o Iq) as No.
    rewrite (rule_for_inter s g r o G) in H.
    destruct (Z.eqb_spec (gnet r) (gnet o)) as [En|En]; [destruct (cl_isame (q_layer W l) s) as [c|] eqn:EI|].
    + exists c. apply (isame_iff s g c G) in EI. destruct (first_In _ _ _ _ EI) as (Ic & Kc & Sc).
      destruct (lef_good c Ic) as (_ & _ & GSc & _). destruct (GSc s Sc) as [_ NAc].
      apply cut_pair_diff in H; auto. destruct H as (_ & _ & F & ST & SA & Em).
      split; [exact Io|]. split; [exact F|]. split; [exists g; tauto|]. auto.
    + exists g. rewrite (isame_none s g G) in EI. apply cut_pair_diff in H; auto. destruct H as (_ & _ & F & ST & SA & Em).
      split; [exact Io|]. split; [exact F|]. split; [exists g; split; [exact G|right; auto]|]. auto.
    + exists g. apply cut_pair_diff in H; auto. destruct H as (_ & _ & F & ST & SA & Em).
      split; [exact Io|]. split; [exact F|]. split; [exists g; split; [exact G|right; auto]|]. auto.
  - intros (o & c & Io & F & (g' & G' & B) & ST & SA & ->). rewrite (GU g' G') in *. clear G' g'.
    split; [reflexivity|]. exists o. split; [exact Io|]. pose proof Io as Io'. apply filter_In in Io' as [Iq _]. pose proof (GN s o Iq) as No.
    rewrite (rule_for_inter s g r o G).
    destruct B as [[En Fc]|[-> B]].
    + destruct (Z.eqb_spec (gnet r) (gnet o)); [|congruence].
      rewrite (proj2 (isame_iff s g c G) Fc). destruct (first_In _ _ _ _ Fc) as (Ic & Kc & Sc).
      destruct (lef_good c Ic) as (_ & _ & GSc & _). destruct (GSc s Sc) as [_ NAc].
      apply cut_pair_diff; auto. split; [auto|]. tauto.
    + rewrite <- (isame_none s g G) in B.
      assert (E : (if gnet r =? gnet o then match cl_isame (q_layer W l) s with Some c => c | None => g end else g) = g).
      { destruct (Z.eqb_spec (gnet r) (gnet o)); [|reflexivity]. destruct B as [B|B]; [congruence|]. rewrite B. reflexivity. }
      rewrite E. apply cut_pair_diff; auto. split; [auto|]. tauto.
Qed.
End Found.
