From Verif Require Import Base Stl GeomModel GeomSpec GridModel GridSpec GridProofs GridProofs2 GraphModel GraphSpec GraphProofs GraphProofs2 GraphProofs3.

Section built.
  Variables (T : tech) (tps : list tpat) (nets : list dnet) (rbox ebox : box) (initDR follow : bool).
  Hypothesis (Hs : steps_positive tps) (Ht : tech_ok T).
  Variables (xm ym : tmap) (g : gg).
  Hypothesis (HB : build_graph T tps nets rbox ebox initDR follow = Some (xm, ym, g)).

  Lemma built_inv : exists es, (forall e, In e es <-> te_v e = true /\ design_track T tps ebox (te_x e) (te_c e) (te_l e)) /\
    (xm, ym) = final_maps T nets rbox ebox es /\
    g = grun (init_grids T xm ym follow) (init_ops T xm ym rbox initDR).
  Proof.
    unfold build_graph in HB. destruct (pattern_entries_spec T tps ebox Hs Ht) as (es & E & Hes).
    rewrite E in HB. cbn zeta in HB. exists es. split; [exact Hes|].
    fold (final_maps T nets rbox ebox es) in HB. destruct (final_maps T nets rbox ebox es) as [xm' ym'].
    cbn [fst snd] in HB. remember (grun (init_grids T xm' ym' follow) (init_ops T xm' ym' rbox initDR)) as g' eqn:Eg.
    assert (E1 : xm' = xm) by congruence. assert (E2 : ym' = ym) by congruence. assert (E3 : g' = g) by congruence.
    split; [rewrite E1, E2; reflexivity|]. rewrite <- E3, Eg, E1, E2. reflexivity.
  Qed.
  Lemma built_sorted : sorted_lt (map fst xm) /\ sorted_lt (map fst ym).
  Proof.
    destruct built_inv as (es & _ & E & _). pose proof (final_ok T nets rbox ebox es) as H. rewrite <- E in H.
    exact (conj (H true) (H false)).
  Qed.
  Lemma built_shape : same_shape (init_grids T xm ym follow) g.
  Proof. destruct built_inv as (es & _ & _ & ->). apply g_shape. Qed.
  Lemma built_design isx c l : on_design xm ym isx c l <-> design_track T tps ebox isx c l.
  Proof.
    destruct built_inv as (es & Hes & E & _). unfold on_design. rewrite E.
    apply (final_get T tps nets rbox ebox es isx c l Hes).
  Qed.
  Lemma built_track isx c l : l <> -10 -> (has_track xm ym isx c l <-> track T tps nets ebox isx c l).
  Proof.
    intros Hl. destruct built_inv as (es & Hes & E & _). unfold has_track. rewrite E.
    destruct (final_get T tps nets rbox ebox es isx c l Hes) as [H1 H2]. unfold track.
    destruct (tm_get _ c l) as [[]|].
    - split; [intros _; left; apply H1; reflexivity|discriminate].
    - split; [intros _; right|discriminate]. destruct (proj1 H2 eq_refl) as [_ [H|[H _]]]; [exact H|contradiction].
    - split; [congruence|]. intros [H|H] _; [apply H1 in H; discriminate|].
      assert (X : (None : option bool) = Some false).
      { apply H2. split; [|tauto]. intros D. apply H1 in D. discriminate. }
      discriminate.
  Qed.
  Lemma built_coords : sorted_lt (gxs g) /\ sorted_lt (gys g) /\
    (forall c, In c (gxs g) <-> grid_coord T tps nets rbox ebox true c) /\
    (forall c, In c (gys g) <-> grid_coord T tps nets rbox ebox false c) /\
    gzs g = map l_num (t_layers T) /\ gdirs g = map l_horz (t_layers T).
  Proof.
    destruct built_shape as (<- & <- & <- & <-). cbn [init_grids gxs gys gzs gdirs].
    destruct built_sorted as [S1 S2]. split; [exact S1|]. split; [exact S2|].
    destruct built_inv as (es & Hes & E & _).
    split; [intros c; pose proof (final_keys T tps nets rbox ebox es true c Hes) as K; rewrite <- E in K; exact K|].
    split; [intros c; pose proof (final_keys T tps nets rbox ebox es false c Hes) as K; rewrite <- E in K; exact K|].
    split; reflexivity.
  Qed.
  Lemma point_shape g1 g2 p : same_shape g1 g2 -> getPoint g1 p = getPoint g2 p.
  Proof. intros (E1 & E2 & _). unfold getPoint. rewrite E1, E2. reflexivity. Qed.
  Lemma layer_shape g1 g2 z : same_shape g1 g2 -> getLayerNum g1 z = getLayerNum g2 z.
  Proof. intros (_ & _ & E & _). unfold getLayerNum. rewrite E. reflexivity. Qed.
  Lemma layer_range p L : nth_error (t_layers T) (Z.to_nat (mz p)) = Some L -> 0 <= l_num L.
  Proof. intros H. apply nth_error_In in H. apply (proj2 Ht) in H. lia. Qed.
  Lemma np_range l : 0 <= l -> nonpref_layer T l <> -10.
  Proof. intros. unfold nonpref_layer, other_layer. destruct (_ <=? _); [lia|]. destruct (_ >=? _); lia. Qed.

  Lemma m_edge_spec q d L : nth_error (t_layers T) (Z.to_nat (mz q)) = Some L ->
    (m_edge T xm ym follow q d <-> grid_edge T tps nets ebox g q d).
  Proof.
    intros HL. pose proof (layer_range q L HL) as HR. pose proof (np_range (l_num L) HR) as HN.
    pose proof (layer_of T xm ym follow q L HL) as EL.
    assert (EL' : getLayerNum g (mz q) = l_num L) by (rewrite <- EL; symmetry; apply layer_shape, built_shape).
    assert (EC : forall h, edge_coord (init_grids T xm ym follow) q h = edge_coord g q h).
    { intros h. unfold edge_coord. rewrite (point_shape _ _ q built_shape). reflexivity. }
    unfold m_edge, grid_edge, m_planar, planar_edge, m_via, via_edge, usable.
    destruct d; cbn zeta; rewrite EL, EL', !EC;
      try (rewrite !built_track by lia; rewrite !built_design; tauto).
    - destruct (Bool.eqb true _); rewrite ?built_track by lia; rewrite ?built_design; tauto.
    - destruct (Bool.eqb false _); rewrite ?built_track by lia; rewrite ?built_design; tauto.
  Qed.
  Lemma m_cost_spec q d L : nth_error (t_layers T) (Z.to_nat (mz q)) = Some L ->
    (m_cost T xm ym follow q d <-> off_track T tps ebox g q d).
  Proof.
    intros HL.
    pose proof (layer_of T xm ym follow q L HL) as EL.
    assert (EL' : getLayerNum g (mz q) = l_num L) by (rewrite <- EL; symmetry; apply layer_shape, built_shape).
    assert (EC : forall h, edge_coord (init_grids T xm ym follow) q h = edge_coord g q h).
    { intros h. unfold edge_coord. rewrite (point_shape _ _ q built_shape). reflexivity. }
    unfold m_cost, off_track, m_planar_cost, m_via_cost.
    destruct d; cbn zeta; rewrite EL, EL'; rewrite ?EC, ?built_design; try tauto.
    - destruct (is_horz T (l_num L)); cbn [Bool.eqb negb edge_coord]; rewrite ?built_design; tauto.
    - destruct (is_horz T (l_num L)); cbn [Bool.eqb negb edge_coord]; rewrite ?built_design; tauto.
  Qed.
  Lemma cell_data q : valid g q -> exists L cx xs cy ys, valid (init_grids T xm ym follow) q /\
    nth_error (t_layers T) (Z.to_nat (mz q)) = Some L /\ nth_error xm (Z.to_nat (mx q)) = Some (cx, xs) /\
    nth_error ym (Z.to_nat (my q)) = Some (cy, ys).
  Proof.
    intros H. apply (valid_shape _ _ q built_shape) in H. pose proof H as H'. apply init_valid in H'.
    destruct H' as (H1 & H2 & H3).
    destruct (nth_error_valid _ _ H1) as ([cx xs] & E1). destruct (nth_error_valid _ _ H2) as ([cy ys] & E2).
    destruct (nth_error_valid _ _ H3) as (L & E3). exists L, cx, xs, cy, ys. tauto.
  Qed.
  Lemma built_edges p d : d = DE \/ d = DN \/ d = DU ->
    (hasEdge g p d = true <-> edge_allowed g p d rbox initDR /\ grid_edge T tps nets ebox g p d).
  Proof.
    intros Hd. assert (Hd' : d <> DUnk) by (destruct Hd as [-> | [-> | ->]]; discriminate).
    assert (Ho : owner p d = p) by (destruct Hd as [-> | [-> | ->]]; reflexivity).
    rewrite hasEdge_read by assumption. rewrite Ho.
    destruct (isValid g p) eqn:V; cbn [andb].
    2:{ apply valid_iff_false in V. split; [discriminate|]. intros [(A & _) _]. contradiction. }
    apply isValid_iff in V. destruct (cell_data p V) as (L & cx & xs & cy & ys & V0 & HL & HX & HY).
    destruct built_sorted as [S1 S2]. destruct built_inv as (es & _ & _ & Eg).
    rewrite Z.eqb_eq. rewrite <- (m_edge_spec p d L HL).
    rewrite <- (edge_allowed_shape _ _ p d rbox initDR built_shape).
    rewrite Eg at 1.
    rewrite (g_read T xm ym rbox initDR follow p _ L cx xs cy ys V0 HL HX HY).
    destruct (cell_edges T xm ym rbox initDR follow S1 S2 Ht p L cx xs cy ys d V0 HL HX HY Hd) as [CE _].
    split.
    - intros (o & Ho1 & He & Ha). pose proof (cell_ops_form _ _ _ _ _ _ _ _ Ho1) as [(d' & Hd2 & ->)|[-> | [-> | ->]]].
      + assert (d' = d) as -> by (destruct Hd as [-> | [-> | ->]], Hd2 as [-> | [-> | ->]]; cbn in Ha; congruence).
        split; [apply He|]. apply CE, Ho1.
      + destruct Hd as [-> | [-> | ->]]; cbn in Ha; discriminate.
      + destruct Hd as [-> | [-> | ->]]; cbn in Ha; discriminate.
      + destruct Hd as [-> | [-> | ->]]; cbn in Ha; discriminate.
    - intros [Ha He]. exists (AddEdge p d rbox initDR). split; [apply CE, He|]. split; [split; assumption|reflexivity].
  Qed.
  Lemma built_cost p d : d = DE \/ d = DN \/ d = DU -> valid g p ->
    (hasGridCost g p d = true <-> grid_edge T tps nets ebox g p d /\ off_track T tps ebox g p d).
  Proof.
    intros Hd V. assert (Hd' : d <> DUnk) by (destruct Hd as [-> | [-> | ->]]; discriminate).
    assert (Ho : owner p d = p) by (destruct Hd as [-> | [-> | ->]]; reflexivity).
    rewrite hasGridCost_read by assumption. rewrite Ho.
    destruct (cell_data p V) as (L & cx & xs & cy & ys & V0 & HL & HX & HY).
    destruct built_sorted as [S1 S2]. destruct built_inv as (es & _ & _ & Eg).
    rewrite Z.eqb_eq. rewrite <- (m_edge_spec p d L HL), <- (m_cost_spec p d L HL).
    rewrite Eg at 1.
    rewrite (g_read T xm ym rbox initDR follow p _ L cx xs cy ys V0 HL HX HY).
    destruct (cell_edges T xm ym rbox initDR follow S1 S2 Ht p L cx xs cy ys d V0 HL HX HY Hd) as [_ CC].
    rewrite <- CC. split.
    - intros (o & Ho1 & He & Ha). pose proof (cell_ops_form _ _ _ _ _ _ _ _ Ho1) as [(d' & Hd2 & ->)|HH].
      + destruct Hd as [-> | [-> | ->]], Hd2 as [-> | [-> | ->]]; cbn in Ha; discriminate.
      + destruct Hd as [-> | [-> | ->]], HH as [-> | [-> | ->]]; cbn in Ha; try discriminate; exact Ho1.
    - intros HI. eexists. split; [exact HI|].
      destruct Hd as [-> | [-> | ->]]; cbn; split; (exact V0 || reflexivity).
  Qed.
End built.
Lemma build_defined T tps nets rbox ebox initDR follow : steps_positive tps -> tech_ok T ->
  exists xm ym g, build_graph T tps nets rbox ebox initDR follow = Some (xm, ym, g).
Proof.
  intros Hs Ht. unfold build_graph. destruct (pattern_entries_spec T tps ebox Hs Ht) as (es & -> & _).
  cbn zeta. do 3 eexists. rewrite <- surjective_pairing. reflexivity.
Qed.
