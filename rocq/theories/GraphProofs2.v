From Verif Require Import Base Stl GeomModel GeomSpec GridModel GridSpec GridProofs GridProofs2 GraphModel GraphSpec GraphProofs.

Lemma find_layer_in T L : tech_ok T -> In L (t_layers T) -> find_layer T (l_num L) = Some L.
Proof.
  intros [S _] H. unfold find_layer. revert S H. generalize (t_layers T). intros ls S H.
  induction ls as [|a r IH]; [destruct H|]. cbn [find]. cbn [map] in S.
  destruct H as [-> |H]; [rewrite Z.eqb_refl; reflexivity|].
  pose proof (sorted_lt_head _ _ _ S (in_map l_num _ _ H)).
  rewrite (proj2 (Z.eqb_neq _ _)) by lia. apply IH; [eapply sorted_lt_tail; exact S|exact H].
Qed.
Lemma find_layer_some T l L : find_layer T l = Some L -> In L (t_layers T) /\ l_num L = l.
Proof. intros H. apply find_some in H as [H1 H2]. split; [assumption|lia]. Qed.
Lemma find_layer_none T l : find_layer T l = None <-> ~ layer_in T l.
Proof.
  unfold find_layer, layer_in. split.
  - intros H (L & Hi & <-). apply (find_none _ _ H) in Hi. lia.
  - intros H. destruct (find _ _) as [L|] eqn:E; [|reflexivity]. apply find_some in E as [Hi Hl].
    exfalso. apply H. exists L. split; [assumption|lia].
Qed.

(* --- entries ----------------------------------------------------------------------------- *)
Lemma coord_entries_false T rbox ebox nets e : In e (coord_entries T rbox ebox nets) -> te_v e = false.
Proof.
  intros H. apply in_app_or in H as [H|H].
  { cbn in H. intuition; subst; reflexivity. }
  apply in_app_or in H as [H|H].
  { cbn in H. intuition; subst; reflexivity. }
  apply in_flat_map in H as (n & Hn & H). apply in_app_or in H as [H|H].
  - apply in_flat_map in H as (f & Hf & H). destruct f as [bp ep l|o l1 l2|]; cbn [fig_entries] in H.
    + unfold on_other in H. destruct (px bp =? px ep), (is_horz T l), (other_layer T l);
        cbn [map app In negb] in H; intuition; subst; reflexivity.
    + destruct (is_horz T l1), (is_horz T l2); cbn in H; intuition; subst; reflexivity.
    + destruct H.
  - apply in_flat_map in H as (a & Ha & H). unfold ap_entries in H. cbn zeta in H.
    destruct (is_horz T (snd a)), (is_horz T _); cbn in H; intuition; subst; reflexivity.
Qed.
Lemma fig_entry_shape T nets n f e : In n nets -> In f (fst n) -> In e (fig_entries T f) ->
  shape_track T nets (te_x e) (te_c e) (te_l e).
Proof.
  intros Hn Hf H. destruct f as [bp ep l|o l1 l2|]; cbn [fig_entries] in H.
  - destruct (px bp =? px ep) eqn:E, (is_horz T l) eqn:Eh; unfold on_other in H;
      cbn [negb] in H; [apply Z.eqb_eq in E|apply Z.eqb_eq in E|apply Z.eqb_neq in E|apply Z.eqb_neq in E];
      destruct (other_layer T l) as [l'|] eqn:Eo; cbn [map app In] in H;
      repeat match type of H with _ \/ _ => destruct H as [H|H] end; try (destruct H; fail); subst e; cbn [te_x te_c te_l].
    all: try (eapply st_v_wrong; eassumption); try (eapply st_h_wrong; eassumption);
      try (eapply st_v_wire; eassumption); try (eapply st_h_wire; eassumption).
    all: try (eapply st_v_wrong_ends; [eassumption..|tauto]); try (eapply st_h_wrong_ends; [eassumption..|tauto]).
    all: try (eapply st_v_ends; [eassumption..|tauto]); try (eapply st_h_ends; [eassumption..|tauto]).
  - destruct H as [H|[H|[]]].
    + pose proof (st_via T nets n o l1 l2 l1 Hn Hf (or_introl eq_refl)) as P.
      destruct (is_horz T l1); subst e; exact P.
    + pose proof (st_via T nets n o l1 l2 l2 Hn Hf (or_intror eq_refl)) as P.
      destruct (is_horz T l2); subst e; exact P.
  - destruct H.
Qed.
Lemma ap_entry_shape T nets n pt l e : In n nets -> In (pt, l) (snd n) -> In e (ap_entries T pt l) ->
  shape_track T nets (te_x e) (te_c e) (te_l e).
Proof.
  intros Hn Hf H. unfold ap_entries in H. cbn zeta in H. destruct H as [H|[H|[]]].
  - pose proof (st_ap T nets n pt l l Hn Hf (or_introl eq_refl)) as P.
    destruct (is_horz T l); subst e; exact P.
  - pose proof (st_ap T nets n pt l _ Hn Hf (or_intror eq_refl)) as P.
    destruct (is_horz T (match other_layer T l with Some k => k | None => 0 end)); subst e; exact P.
Qed.
Lemma box_entry b e : In e (box_entries b) <-> te_v e = false /\ te_l e = -10 /\ box_side b (te_x e) (te_c e).
Proof.
  unfold box_side. destruct e as [x c l v]. cbn. split.
  - intros [H|[H|[H|[H|[]]]]]; inversion H; subst; auto.
  - intros (-> & -> & H). destruct x, H as [-> | ->]; auto.
Qed.
Lemma coord_entries_iff T rbox ebox nets e :
  In e (coord_entries T rbox ebox nets) <->
  te_v e = false /\
  ((te_l e = -10 /\ (box_side rbox (te_x e) (te_c e) \/ box_side ebox (te_x e) (te_c e))) \/
   shape_track T nets (te_x e) (te_c e) (te_l e)).
Proof.
  split.
  - intros H. split; [eapply coord_entries_false; exact H|].
    apply in_app_or in H as [H|H]; [apply box_entry in H; tauto|].
    apply in_app_or in H as [H|H]; [apply box_entry in H; tauto|]. right.
    apply in_flat_map in H as (n & Hn & H). apply in_app_or in H as [H|H].
    + apply in_flat_map in H as (f & Hf & H). eapply fig_entry_shape; eassumption.
    + apply in_flat_map in H as ([pt l] & Ha & H). eapply ap_entry_shape; eassumption.
  - intros [Hv H]. unfold coord_entries. rewrite !in_app_iff, !box_entry.
    destruct H as [[Hl [Hb|Hb]]|H]; [tauto|tauto|]. right. right.
    destruct e as [x c l v]. cbn in Hv, H. subst v.
    assert (G : exists n, In n nets /\
      ((exists f, In f (fst n) /\ In (mkTE x c l false) (fig_entries T f)) \/
       (exists a, In a (snd n) /\ In (mkTE x c l false) (ap_entries T (fst a) (snd a))))).
    2:{ destruct G as (n & Hn & G). apply in_flat_map. exists n. split; [assumption|].
        apply in_or_app. destruct G as [G|G]; [left|right]; apply in_flat_map; exact G. }
    inversion H as [n bp ep ? Hn Hf E Eh|n bp ep ? Hn Hf E Eh|n bp ep ? ? ? Hn Hf E Eh Eo Ec|n bp ep ? ? ? Hn Hf E Eh Eo Ec
      |n bp ep ? ? Hn Hf E Eh Eo|n bp ep ? ? Hn Hf E Eh Eo|n bp ep ? ? Hn Hf E Eh Ec|n bp ep ? ? Hn Hf E Eh Ec
      |n o l1 l2 ? Hn Hf El|n pt l0 ? Hn Hf El]; subst; exists n; split; try assumption.
    1-8: left; eexists; split; [exact Hf|]; cbn [fig_entries]; unfold on_other;
      (rewrite (proj2 (Z.eqb_eq _ _) E) || rewrite (proj2 (Z.eqb_neq _ _) E)); rewrite Eh; rewrite ?Eo;
      cbn [negb map app In].
    + tauto.
    + tauto.
    + destruct Ec as [-> | ->]; tauto.
    + destruct Ec as [-> | ->]; tauto.
    + tauto.
    + tauto.
    + destruct Ec as [-> | ->]; destruct (other_layer T l); cbn; tauto.
    + destruct Ec as [-> | ->]; destruct (other_layer T l); cbn; tauto.
    + left. eexists. split; [exact Hf|]. cbn [fig_entries In].
      destruct El as [-> | ->]; [left|right; left]; destruct (is_horz T _); reflexivity.
    + right. eexists. split; [exact Hf|]. unfold ap_entries. cbn [In fst snd]. cbn zeta.
      destruct El as [-> | ->]; [left|right; left]; destruct (is_horz T _); reflexivity.
Qed.
Lemma pattern_entries_spec T tps b : steps_positive tps -> tech_ok T ->
  exists es, pattern_entries T tps b = Some es /\
    forall e, In e es <-> te_v e = true /\ design_track T tps b (te_x e) (te_c e) (te_l e).
Proof.
  intros Hs Ht. induction tps as [|tp r IH].
  { exists []. split; [reflexivity|]. intros e. split; [intros []|].
    intros (_ & _ & tp & [] & _). }
  assert (Hr : steps_positive r) by (intros t H; apply Hs; right; exact H).
  destruct (IH Hr) as (es & Ees & Hes). cbn [pattern_entries]. rewrite Ees.
  (* what the head pattern contributes *)
  assert (Hsplit : forall e, design_track T (tp :: r) b (te_x e) (te_c e) (te_l e) <->
    (layer_in T (te_l e) /\ tp_isX tp = te_x e /\ tp_layer tp = te_l e /\ on_pattern tp (te_c e) /\
     (t_nonpref T = true -> along tp (is_horz T (te_l e))) /\
     in_range false (if te_x e then bleft b else bbottom b) (if te_x e then bright b else btop b) (te_c e)) \/
    design_track T r b (te_x e) (te_c e) (te_l e)).
  { intros e. unfold design_track. split.
    - intros (Hl & tp' & [<- |Hi] & HH); [left; tauto|]. right. split; [assumption|]. exists tp'. tauto.
    - intros [(Hl & HH)|(Hl & tp' & HH)].
      + split; [assumption|]. exists tp. cbn [In]. tauto.
      + split; [assumption|]. exists tp'. cbn [In]. tauto. }
  destruct (find_layer T (tp_layer tp)) as [L|] eqn:EL.
  2:{ exists es. split; [reflexivity|]. intros e. rewrite Hes, Hsplit.
      apply find_layer_none in EL. split; [tauto|]. intros (Hv & [(Hl & _ & E & _)|Hd]); [|tauto].
      exfalso. apply EL. rewrite E. exact Hl. }
  pose proof (find_layer_some T _ L EL) as [HLi HLn].
  assert (HLay : layer_in T (tp_layer tp)) by (exists L; tauto).
  assert (Hh : is_horz T (tp_layer tp) = l_horz L) by (unfold is_horz; rewrite EL; reflexivity).
  destruct (if t_nonpref T then _ else true) eqn:Ec.
  - destruct (pattern_tracks_in tp (if tp_isX tp then bleft b else bbottom b)
                (if tp_isX tp then bright b else btop b) false (Hs tp (or_introl eq_refl))) as (cs & -> & Hcs).
    eexists. split; [reflexivity|]. intros e. rewrite in_app_iff, Hes, Hsplit, in_map_iff. split.
    + intros [(c & <- & Hc)|[Hv Hd]]; [|tauto]. cbn [te_v te_x te_c te_l]. split; [reflexivity|]. left.
      apply Hcs in Hc as [Hc1 Hc2]. split; [assumption|]. do 3 (split; [assumption||reflexivity|]).
      split; [|exact Hc2]. intros En. rewrite En in Ec. apply along_dec2. rewrite Hh. exact Ec.
    + intros (Hv & [(Hl & E1 & E2 & Ho & Ha & Hi)|Hd]); [|tauto]. left.
      exists (te_c e). split; [destruct e; cbn in *; subst; reflexivity|]. apply Hcs. split; [assumption|].
      rewrite E1. exact Hi.
  - exists es. split; [reflexivity|]. intros e. rewrite Hes, Hsplit. split; [tauto|].
    intros (Hv & [(Hl & E1 & E2 & Ho & Ha & Hi)|Hd]); [|tauto]. exfalso.
    destruct (t_nonpref T); [|discriminate]. specialize (Ha eq_refl). rewrite <- E2, Hh in Ha.
    apply along_dec2 in Ha. congruence.
Qed.

(* --- the two maps after all entries ------------------------------------------------------ *)
Section maps.
  Variables (T : tech) (tps : list tpat) (nets : list dnet) (rbox ebox : box).
  Hypothesis (Hs : steps_positive tps) (Ht : tech_ok T).
  Definition final_maps (es : list tentry) : tmap * tmap :=
    fold_left apply_entry (coord_entries T rbox ebox nets ++ es) ([], []).
  Lemma empty_ok : mm_ok ([], []).
  Proof. intros []; apply sorted_lt_nil. Qed.
  Lemma final_ok es : mm_ok (final_maps es).
  Proof. apply fold_entries_ok, empty_ok. Qed.
  Lemma final_get es isx c l : (forall e, In e es <-> te_v e = true /\ design_track T tps ebox (te_x e) (te_c e) (te_l e)) ->
    (tm_get (sel isx (final_maps es)) c l = Some true <-> design_track T tps ebox isx c l) /\
    (tm_get (sel isx (final_maps es)) c l = Some false <->
       ~ design_track T tps ebox isx c l /\
       (shape_track T nets isx c l \/ (l = -10 /\ (box_side rbox isx c \/ box_side ebox isx c)))).
  Proof.
    intros Hes. unfold final_maps. rewrite fold_left_app.
    rewrite (fold_entries_get es true); [|apply fold_entries_ok, empty_ok|].
    2:{ apply Forall_forall. intros e He. apply Hes in He. tauto. }
    rewrite (fold_entries_get _ false); [|apply empty_ok|].
    2:{ apply Forall_forall. intros e He. eapply coord_entries_false; exact He. }
    assert (E0 : tm_get (sel isx ([], [])) c l = None) by (destruct isx; reflexivity). rewrite E0. clear E0.
    assert (Hd : existsb (fun e => Bool.eqb isx (te_x e) && (c =? te_c e) && (l =? te_l e)) es = true <->
                 design_track T tps ebox isx c l).
    { rewrite existsb_entry. split.
      - intros (e & He & <- & <- & <-). apply Hes in He. tauto.
      - intros Hd. exists (mkTE isx c l true). split; [apply Hes; cbn; tauto|cbn; tauto]. }
    assert (Hc : existsb (fun e => Bool.eqb isx (te_x e) && (c =? te_c e) && (l =? te_l e))
                   (coord_entries T rbox ebox nets) = true <->
                 (shape_track T nets isx c l \/ (l = -10 /\ (box_side rbox isx c \/ box_side ebox isx c)))).
    { rewrite existsb_entry. split.
      - intros (e & He & <- & <- & <-). apply coord_entries_iff in He. tauto.
      - intros Hd'. exists (mkTE isx c l false). split; [apply coord_entries_iff; cbn; tauto|cbn; tauto]. }
    destruct (existsb _ es); [|destruct (existsb _ (coord_entries _ _ _ _))].
    - pose proof (proj1 Hd eq_refl). split; split; intros; try tauto; discriminate.
    - pose proof (proj1 Hc eq_refl). assert (~ design_track T tps ebox isx c l) by (intros X; apply Hd in X; discriminate).
      split; split; intros; try tauto; discriminate.
    - assert (~ design_track T tps ebox isx c l) by (intros X; apply Hd in X; discriminate).
      split; split; intros X; try discriminate; [tauto|].
      destruct X as [_ X]. apply Hc in X. discriminate.
  Qed.
  Lemma final_keys es isx c : (forall e, In e es <-> te_v e = true /\ design_track T tps ebox (te_x e) (te_c e) (te_l e)) ->
    (In c (map fst (sel isx (final_maps es))) <-> grid_coord T tps nets rbox ebox isx c).
  Proof.
    intros Hes. unfold final_maps. rewrite fold_entries_keys. unfold grid_coord, track. split.
    - intros [(e & He & -> & ->)|H]; [|destruct isx; destruct H].
      apply in_app_or in He as [He|He].
      + apply coord_entries_iff in He as [_ [[_ H]|H]]; [tauto|]. left. exists (te_l e). tauto.
      + apply Hes in He. left. exists (te_l e). tauto.
    - intros H. left. destruct H as [(l & [H|H])|H].
      + exists (mkTE isx c l true). split; [|cbn; tauto]. apply in_or_app. right. apply Hes. cbn. tauto.
      + exists (mkTE isx c l false). split; [|cbn; tauto]. apply in_or_app. left. apply coord_entries_iff. cbn. tauto.
      + exists (mkTE isx c (-10) false). split; [|cbn; tauto]. apply in_or_app. left. apply coord_entries_iff. cbn. tauto.
  Qed.
End maps.

(* --- running setters --------------------------------------------------------------------- *)
Definition is_setter (o : gop) : Prop := forall v, op_value o v = 1.
Lemma edge_allowed_shape g h p d b i : same_shape g h -> edge_allowed g p d b i <-> edge_allowed h p d b i.
Proof.
  intros S. unfold edge_allowed, getPoint, valid, nx, ny, nz. destruct S as (-> & -> & -> & _). tauto.
Qed.
Lemma op_enabled_shape g h o : same_shape g h -> op_enabled g o <-> op_enabled h o.
Proof.
  intros S. destruct o; cbn; try (apply valid_shape, S); try (pose proof (edge_allowed_shape g h p d b i S); tauto);
    try (pose proof (valid_shape g h p S); pose proof (valid_shape g h (step p d) S); tauto);
    try (pose proof (valid_shape g h (owner p d) S); tauto).
  pose proof (edge_allowed_shape g h p d b initDR S); tauto.
Qed.
Lemma grun_setters ops : forall g q a, Forall (op_safe g) ops -> Forall is_setter ops -> valid g q ->
  (read (grun g ops) q a = 1 <->
   read g q a = 1 \/ exists o, In o ops /\ op_enabled g o /\ op_point o = q /\ op_attr o = a).
Proof.
  induction ops as [|o ops IH]; intros g q a HS HV Hq.
  { cbn. split; [tauto|]. intros [?|(? & [] & _)]; assumption. }
  inversion HS as [|? ? S1 S2]; inversion HV as [|? ? V1 V2]; subst.
  pose proof (gstep_ok g o S1) as (R & A & B). pose proof (proj1 R) as SS.
  unfold grun in *. cbn [fold_left]. rewrite IH; [|eapply Forall_impl; [|exact S2]; intros x Hx; eapply op_safe_shape; eauto
    |assumption|apply (valid_shape g _ q SS), Hq].
  assert (Hex : (exists o0, In o0 ops /\ op_enabled (gstep g o) o0 /\ op_point o0 = q /\ op_attr o0 = a) <->
                (exists o0, In o0 ops /\ op_enabled g o0 /\ op_point o0 = q /\ op_attr o0 = a)).
  { split; intros (x & Hx & He & HH); exists x; split; try assumption; split; try assumption;
      apply (op_enabled_shape g (gstep g o) x SS); assumption. }
  rewrite Hex.
  destruct (op_enabled_dec g o) as [He|He].
  - destruct (midx_eq_dec q (op_point o)) as [-> |Np]; [destruct (attr_eq_dec a (op_attr o)) as [-> |Na]|].
    + rewrite (A He), V1. split; [|tauto]. intros _. right. exists o. cbn [In]. tauto.
    + rewrite B; [|assumption|intros _ C; inversion C; congruence]. split.
      * intros [?|(x & Hx)]; [tauto|]. right. exists x. cbn [In]. tauto.
      * intros [?|(x & [<- |Hx] & HH)]; [tauto|destruct HH as (_ & _ & HH); congruence|]. right. exists x. tauto.
    + rewrite B; [|assumption|intros _ C; inversion C; congruence]. split.
      * intros [?|(x & Hx)]; [tauto|]. right. exists x. cbn [In]. tauto.
      * intros [?|(x & [<- |Hx] & HH)]; [tauto|destruct HH as (_ & HH & _); congruence|]. right. exists x. tauto.
  - rewrite B; [|assumption|tauto]. split.
    + intros [?|(x & Hx)]; [tauto|]. right. exists x. cbn [In]. tauto.
    + intros [?|(x & [<- |Hx] & HH)]; [tauto|tauto|]. right. exists x. tauto.
Qed.
Lemma enum_in {A} (l : list A) i (a : A) :
  In (i, a) (enum l) <-> 0 <= i /\ nth_error l (Z.to_nat i) = Some a.
Proof.
  unfold enum. assert (G : forall k, In (i, a) (combine (map Z.of_nat (seq k (length l))) l) <->
    Z.of_nat k <= i /\ nth_error l (Z.to_nat (i - Z.of_nat k)) = Some a).
  2:{ rewrite G. replace (i - Z.of_nat 0) with i by lia. cbn. tauto. }
  induction l as [|b r IH]; intros k; cbn [length seq map combine].
  - cbn. split; [intros []|]. intros [_ H]. destruct (Z.to_nat _); discriminate.
  - cbn [In]. rewrite IH. split.
    + intros [E|[H1 H2]].
      * inversion E; subst. split; [lia|]. replace (Z.of_nat k - Z.of_nat k) with 0 by lia. reflexivity.
      * split; [lia|]. replace (Z.to_nat (i - Z.of_nat k)) with (S (Z.to_nat (i - Z.of_nat (S k)))) by lia. exact H2.
    + intros [H1 H2]. destruct (Z.eq_dec i (Z.of_nat k)) as [-> |N].
      * left. replace (Z.of_nat k - Z.of_nat k) with 0 in H2 by lia. cbn in H2. congruence.
      * right. split; [lia|]. replace (Z.to_nat (i - Z.of_nat k)) with (S (Z.to_nat (i - Z.of_nat (S k)))) in H2 by lia. exact H2.
Qed.
