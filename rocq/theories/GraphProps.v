(* C40, C70-C72: tracks of a region and the routing grid of a clip. *)
From Verif Require Import Base Stl GeomModel GeomSpec GridModel GridSpec GridProofs GridProofs2 GraphModel GraphSpec
  GraphProofs GraphProofs2 GraphProofs3 GraphProofs4.

(* C40: track assignment uses the tracks of the layer in [low, high) *)
Theorem C40_region_tracks tps layer horz low high :
  steps_positive tps ->
  exists l, ta_tracks tps layer horz low high [] = Some l /\ sorted_lt l /\
    forall c, In c l <->
      exists tp, In tp tps /\ tp_layer tp = layer /\ along tp horz /\ on_pattern tp c /\ low <= c < high.
Proof.
  intros Hs. destruct (ta_tracks_spec tps layer horz low high [] Hs sorted_lt_nil) as (l & E & S & H).
  exists l. split; [exact E|]. split; [exact S|]. intros c. rewrite H. cbn. tauto.
Qed.
Print Assumptions C40_region_tracks.
(* the detailed router's query, on the closed interval *)
Theorem C40_track_locations tps layer horz low high :
  steps_positive tps ->
  exists l, dr_track_locs tps layer horz low high [] = Some l /\ sorted_lt l /\
    forall c, In c l <->
      exists tp, In tp tps /\ tp_layer tp = layer /\ along tp horz /\ on_pattern tp c /\ low <= c <= high.
Proof.
  intros Hs. destruct (dr_track_locs_spec tps layer horz low high [] Hs sorted_lt_nil) as (l & E & S & H).
  exists l. split; [exact E|]. split; [exact S|]. intros c. rewrite H. cbn. tauto.
Qed.
Print Assumptions C40_track_locations.
(* neighbouring regions share no track and leave none out *)
Theorem C40_regions_split_tracks tps layer horz a b c :
  steps_positive tps -> a <= b <= c ->
  exists l1 l2 l, ta_tracks tps layer horz a b [] = Some l1 /\ ta_tracks tps layer horz b c [] = Some l2 /\
    ta_tracks tps layer horz a c [] = Some l /\
    (forall t, In t l <-> In t l1 \/ In t l2) /\ (forall t, ~ (In t l1 /\ In t l2)).
Proof.
  intros Hs Hab.
  destruct (C40_region_tracks tps layer horz a b Hs) as (l1 & E1 & _ & H1).
  destruct (C40_region_tracks tps layer horz b c Hs) as (l2 & E2 & _ & H2).
  destruct (C40_region_tracks tps layer horz a c Hs) as (l & E & _ & H).
  exists l1, l2, l. do 3 (split; [assumption|]). split.
  - intros t. rewrite H, H1, H2. split.
    + intros (tp & A & B & C & D & E0). destruct (Z_lt_le_dec t b); [left|right]; exists tp; repeat (split; [assumption|]); lia.
    + intros [(tp & A & B & C & D & E0)|(tp & A & B & C & D & E0)]; exists tp; repeat (split; [assumption|]); lia.
  - intros t [A B]. apply H1 in A as (_ & _ & _ & _ & _ & A). apply H2 in B as (_ & _ & _ & _ & _ & B). lia.
Qed.
Print Assumptions C40_regions_split_tracks.
Example C40_ex :
  ta_tracks [mkTP 2 false (-300) 10 100; mkTP 2 true 0 5 7; mkTP 2 false 50 3 200] 2 true (-250) 260 []
  = Some [-200; -100; 0; 50; 100; 200; 250].
Proof. reflexivity. Qed.

(* C70 *)
Theorem C70_grid_defined T tps nets rbox ebox initDR follow :
  steps_positive tps -> tech_ok T ->
  exists xm ym g, build_graph T tps nets rbox ebox initDR follow = Some (xm, ym, g) /\
    grid_sorted g /\
    (forall c, In c (gxs g) <-> grid_coord T tps nets rbox ebox true c) /\
    (forall c, In c (gys g) <-> grid_coord T tps nets rbox ebox false c) /\
    gzs g = map l_num (t_layers T).
Proof.
  intros Hs Ht. destruct (build_defined T tps nets rbox ebox initDR follow Hs Ht) as (xm & ym & g & HB).
  exists xm, ym, g. split; [exact HB|].
  destruct (built_coords T tps nets rbox ebox initDR follow Hs Ht xm ym g HB) as (A & B & C & D & E & _).
  split; [|tauto]. split; [assumption|]. split; [assumption|]. rewrite E. apply Ht.
Qed.
Print Assumptions C70_grid_defined.
(* the edge leaving p to the east, north or up exists exactly when both ends are in the route box and
   the tracks allow it (C13: the other three directions are these edges seen from the other end) *)
Theorem C70_edges_exact T tps nets rbox ebox initDR follow xm ym g p d :
  steps_positive tps -> tech_ok T ->
  build_graph T tps nets rbox ebox initDR follow = Some (xm, ym, g) ->
  d = DE \/ d = DN \/ d = DU ->
  (hasEdge g p d = true <-> edge_allowed g p d rbox initDR /\ grid_edge T tps nets ebox g p d).
Proof. intros Hs Ht HB. exact (built_edges T tps nets rbox ebox initDR follow Hs Ht xm ym g HB p d). Qed.
Print Assumptions C70_edges_exact.
(* no wire can be put on a layer outside the routing range, none across its layer unless allowed *)
Theorem C70_routing_range T tps nets rbox ebox initDR follow xm ym g p d :
  steps_positive tps -> tech_ok T ->
  build_graph T tps nets rbox ebox initDR follow = Some (xm, ym, g) ->
  planar d = true -> hasEdge g p d = true ->
  routable T (getLayerNum g (mz p)) /\
  (t_nonpref T = false -> is_horz T (getLayerNum g (mz p)) = match d with DE | DW => true | _ => false end).
Proof.
  intros Hs Ht HB Hp He.
  assert (G : forall q e, e = DE \/ e = DN -> hasEdge g q e = true ->
    routable T (getLayerNum g (mz q)) /\
    (t_nonpref T = false -> is_horz T (getLayerNum g (mz q)) = match e with DE | DW => true | _ => false end)).
  { intros q e Hd H. apply (C70_edges_exact T tps nets rbox ebox initDR follow xm ym g q e Hs Ht HB) in H; [|tauto].
    destruct H as [_ H]. destruct Hd as [-> | ->]; cbn [grid_edge] in H; destruct H as [H1 H2]; (split; [exact H1|]);
      intros En; destruct (is_horz T (getLayerNum g (mz q))); cbn in H2; try reflexivity; destruct H2; congruence. }
  destruct d; try discriminate.
  - rewrite <- (hasEdge_sym g p DS ltac:(discriminate)) in He. exact (G (step p DS) DN (or_intror eq_refl) He).
  - rewrite <- (hasEdge_sym g p DW ltac:(discriminate)) in He. exact (G (step p DW) DE (or_introl eq_refl) He).
  - exact (G p DE (or_introl eq_refl) He).
  - exact (G p DN (or_intror eq_refl) He).
Qed.
Print Assumptions C70_routing_range.

(* C71 *)
Theorem C71_off_track_cost T tps nets rbox ebox initDR follow xm ym g p d :
  steps_positive tps -> tech_ok T ->
  build_graph T tps nets rbox ebox initDR follow = Some (xm, ym, g) ->
  d = DE \/ d = DN \/ d = DU -> hasEdge g p d = true ->
  (hasGridCost g p d = true <-> off_track T tps ebox g p d).
Proof.
  intros Hs Ht HB Hd He.
  apply (C70_edges_exact T tps nets rbox ebox initDR follow xm ym g p d Hs Ht HB Hd) in He as [[V _] He].
  rewrite (built_cost T tps nets rbox ebox initDR follow Hs Ht xm ym g HB p d Hd V). tauto.
Qed.
Print Assumptions C71_off_track_cost.

(* C72: wires, vias and access points *)
Theorem C72_wire_kept T tps nets rbox ebox initDR follow xm ym g n bp ep l p d :
  steps_positive tps -> tech_ok T ->
  build_graph T tps nets rbox ebox initDR follow = Some (xm, ym, g) ->
  In n nets -> In (CSeg bp ep l) (fst n) -> routable T l ->
  (* the wire runs along its layer; the layer may be used off the tracks of the design *)
  is_horz T l = (if px bp =? px ep then false else true) -> rightway T l = false ->
  d = (if px bp =? px ep then DN else DE) ->
  (* any grid edge on the line of the wire, inside the route box *)
  getLayerNum g (mz p) = l ->
  (if px bp =? px ep then px (getPoint g p) = px bp else py (getPoint g p) = py bp) ->
  edge_allowed g p d rbox initDR -> hasEdge g p d = true.
Proof.
  intros Hs Ht HB Hn Hf Hr Hh Hw -> Hl Hc Ha.
  apply (C70_edges_exact T tps nets rbox ebox initDR follow xm ym g p _ Hs Ht HB).
  { destruct (px bp =? px ep); tauto. }
  split; [exact Ha|]. destruct (px bp =? px ep) eqn:E; cbn [grid_edge]; unfold planar_edge, usable; rewrite Hl, Hh;
    cbn [Bool.eqb negb edge_coord]; (split; [exact Hr|]); (split; [right|congruence]); rewrite Hc.
  - eapply st_v_wire; [exact Hn|exact Hf|lia|exact Hh].
  - eapply st_h_wire; [exact Hn|exact Hf|lia|exact Hh].
Qed.
Print Assumptions C72_wire_kept.
(* a via position: existing via, or pin access point with a layer above *)
Theorem C72_via_kept T tps nets rbox ebox initDR follow xm ym g n o l p :
  steps_positive tps -> tech_ok T ->
  build_graph T tps nets rbox ebox initDR follow = Some (xm, ym, g) ->
  In n nets ->
  In (CVia o l (l + 2)) (fst n) \/ (In (o, l) (snd n) /\ l + 2 <= t_top T) ->
  is_horz T (l + 2) = negb (is_horz T l) -> rightway T l = false -> rightway T (nonpref_layer T l) = false ->
  getLayerNum g (mz p) = l -> getPoint g p = o ->
  edge_allowed g p DU rbox initDR -> hasEdge g p DU = true.
Proof.
  intros Hs Ht HB Hn Hf Hh Hw1 Hw2 Hl Hc Ha.
  apply (C70_edges_exact T tps nets rbox ebox initDR follow xm ym g p _ Hs Ht HB); [tauto|].
  split; [exact Ha|]. cbn [grid_edge]. unfold via_edge. rewrite Hl, Hw1, Hw2. unfold edge_coord. rewrite Hc.
  split; [|split; [|split; discriminate]]; right.
  - assert (P : shape_track T nets (negb (is_horz T l)) (if is_horz T l then py o else px o) l).
    { destruct Hf as [Hf|[Hf _]]; [eapply st_via; [exact Hn|exact Hf|tauto]|eapply st_ap; [exact Hn|exact Hf|tauto]]. }
    exact P.
  - assert (P : shape_track T nets (negb (is_horz T (l + 2))) (if is_horz T (l + 2) then py o else px o) (l + 2)).
    { destruct Hf as [Hf|[Hf Ht2]]; [eapply st_via; [exact Hn|exact Hf|tauto]|eapply st_ap; [exact Hn|exact Hf|]].
      right. unfold other_layer. rewrite (proj2 (Z.leb_le _ _)) by lia. reflexivity. }
    rewrite Hh in P. rewrite Bool.negb_involutive in P. exact P.
Qed.
Print Assumptions C72_via_kept.
(* every wire end (clipped to the extended box), via and access point is a grid point *)
Theorem C72_shapes_on_grid T tps nets rbox ebox initDR follow xm ym g n :
  steps_positive tps -> tech_ok T ->
  build_graph T tps nets rbox ebox initDR follow = Some (xm, ym, g) -> In n nets ->
  (forall bp ep l, In (CSeg bp ep l) (fst n) -> px bp = px ep \/ py bp = py ep -> layer_in T l ->
     other_layer T l <> None -> seg_has_idx g ebox bp ep l = true) /\
  (forall o l1 l2, In (CVia o l1 l2) (fst n) -> layer_in T l1 -> layer_in T l2 ->
     is_horz T l2 = negb (is_horz T l1) -> hasMazeIdx g o l1 = true /\ hasMazeIdx g o l2 = true) /\
  (forall pt l l2, In (pt, l) (snd n) -> layer_in T l -> other_layer T l = Some l2 ->
     is_horz T l2 = negb (is_horz T l) -> hasMazeIdx g pt l = true).
Proof.
  intros Hs Ht HB Hn.
  destruct (built_coords T tps nets rbox ebox initDR follow Hs Ht xm ym g HB) as (S1 & S2 & Gx & Gy & Ez & _).
  assert (M : forall p l, grid_coord T tps nets rbox ebox true (px p) -> grid_coord T tps nets rbox ebox false (py p) ->
    layer_in T l -> hasMazeIdx g p l = true).
  { intros p l A B (L & HL & <-). unfold hasMazeIdx. rewrite !andb_true_iff. split; [split|].
    - apply bin_search_iff; [exact S1|apply Gx, A].
    - apply bin_search_iff; [exact S2|apply Gy, B].
    - apply bin_search_iff; rewrite Ez; [apply Ht|apply in_map, HL]. }
  assert (K : forall isx c l, shape_track T nets isx c l -> grid_coord T tps nets rbox ebox isx c).
  { intros isx c l H. left. exists l. right. exact H. }
  split; [|split].
  - intros bp ep l Hf Hxy Hl Ho. destruct (other_layer T l) as [l'|] eqn:Eo; [|congruence].
    assert (P : grid_coord T tps nets rbox ebox true (px bp) /\ grid_coord T tps nets rbox ebox true (px ep) /\
                grid_coord T tps nets rbox ebox false (py bp) /\ grid_coord T tps nets rbox ebox false (py ep)).
    { destruct (Z.eq_dec (px bp) (px ep)) as [E|E]; [|assert (py bp = py ep) as E' by tauto]; destruct (is_horz T l) eqn:Eh.
      - rewrite <- E. assert (grid_coord T tps nets rbox ebox true (px bp)) by (eapply K, st_v_wrong; eassumption).
        repeat split; try assumption; eapply K, st_v_wrong_ends; eauto.
      - rewrite <- E. assert (grid_coord T tps nets rbox ebox true (px bp)) by (eapply K, st_v_wire; eassumption).
        repeat split; try assumption; eapply K, st_v_ends; eauto.
      - rewrite <- E'. assert (grid_coord T tps nets rbox ebox false (py bp)) by (eapply K, st_h_wire; eassumption).
        repeat split; try assumption; eapply K, st_h_ends; eauto.
      - rewrite <- E'. assert (grid_coord T tps nets rbox ebox false (py bp)) by (eapply K, st_h_wrong; eassumption).
        repeat split; try assumption; eapply K, st_h_wrong_ends; eauto. }
    destruct P as (P1 & P2 & P3 & P4).
    assert (B : forall isx c, box_side ebox isx c -> grid_coord T tps nets rbox ebox isx c) by (intros; right; right; assumption).
    unfold seg_has_idx. rewrite andb_true_iff. split; apply M; try exact Hl; cbn [clip_low clip_high px py].
    + destruct (Z.max_spec (px bp) (bleft ebox)) as [[_ ->]|[_ ->]]; [apply B; left; reflexivity|exact P1].
    + destruct (Z.max_spec (py bp) (bbottom ebox)) as [[_ ->]|[_ ->]]; [apply B; left; reflexivity|exact P3].
    + destruct (Z.min_spec (px ep) (bright ebox)) as [[_ ->]|[_ ->]]; [exact P2|apply B; right; reflexivity].
    + destruct (Z.min_spec (py ep) (btop ebox)) as [[_ ->]|[_ ->]]; [exact P4|apply B; right; reflexivity].
  - intros o l1 l2 Hf H1 H2 Hh.
    pose proof (K _ _ _ (st_via T nets n o l1 l2 l1 Hn Hf (or_introl eq_refl))) as A.
    pose proof (K _ _ _ (st_via T nets n o l1 l2 l2 Hn Hf (or_intror eq_refl))) as B.
    rewrite Hh in B. split; apply M; try assumption; destruct (is_horz T l1); cbn in A, B; assumption.
  - intros pt l l2 Hf H1 Ho Hh.
    pose proof (K _ _ _ (st_ap T nets n pt l l Hn Hf (or_introl eq_refl))) as A.
    pose proof (K _ _ _ (st_ap T nets n pt l _ Hn Hf (or_intror eq_refl))) as B.
    rewrite Ho, Hh in B. apply M; try assumption; destruct (is_horz T l); cbn in A, B; assumption.
Qed.
Print Assumptions C72_shapes_on_grid.
(* with the default setting (no wrong-way tracks) a wire across its layer has no edges *)
Theorem C72_wrong_way_wire_limit :
  exists T tps n bp ep l rbox ebox xm ym g,
    steps_positive tps /\ tech_ok T /\ In (CSeg bp ep l) (fst n) /\ routable T l /\ rightway T l = false /\
    build_graph T tps [n] rbox ebox false true = Some (xm, ym, g) /\
    hasMazeIdx g bp l = true /\ hasMazeIdx g ep l = true /\ in_box bp rbox /\ in_box ep rbox /\ bp <> ep /\
    forall p d, planar d = true -> getLayerNum g (mz p) = l -> px (getPoint g p) = px bp ->
      d = DN \/ d = DS -> hasEdge g p d = false.
Proof.
  set (T := mkTech [mkRL 2 true false; mkRL 4 false false] 0 4 2 4 false).
  set (tps := [mkTP 2 false 0 10 100; mkTP 4 true 0 10 100]).
  set (n := ([CSeg (mkPt 150 200) (mkPt 150 400) 2], []) : dnet).
  set (b := mkBox (mkPt 0 0) (mkPt 500 500)).
  destruct (build_graph T tps [n] b b false true) as [[[xm ym] g]|] eqn:HB; [|vm_compute in HB; discriminate].
  assert (Hs : steps_positive tps) by (intros tp [<- |[<- |[]]]; reflexivity).
  assert (Ht : tech_ok T).
  { split; [cbn; apply sorted_lt_cons; [intros x [<- |[]]; lia|apply sorted_lt_cons; [intros x []|apply sorted_lt_nil]]|].
    intros L [<- |[<- |[]]]; cbn; lia. }
  exists T, tps, n, (mkPt 150 200), (mkPt 150 400), 2, b, b, xm, ym, g.
  split; [exact Hs|]. split; [exact Ht|]. split; [left; reflexivity|]. split; [unfold routable; cbn; lia|].
  split; [reflexivity|]. split; [exact HB|].
  assert (HM : forall p, hasMazeIdx g p 2 = hasMazeIdx (init_grids T xm ym true) p 2).
  { intros p. destruct (built_shape T tps [n] b b false true Hs Ht xm ym g HB) as (E1 & E2 & E3 & _).
    unfold hasMazeIdx. rewrite E1, E2, E3. reflexivity. }
  assert (EX : exists xm' ym', (xm, ym) = (xm', ym') /\
    hasMazeIdx (init_grids T xm' ym' true) (mkPt 150 200) 2 = true /\ hasMazeIdx (init_grids T xm' ym' true) (mkPt 150 400) 2 = true).
  { unfold build_graph in HB. destruct (pattern_entries T tps b) as [es|] eqn:Ep; [|discriminate].
    set (mm := fold_left apply_entry (coord_entries T b b [n] ++ es) ([], [])) in HB. cbn zeta in HB.
    exists (fst mm), (snd mm). split; [rewrite <- surjective_pairing; congruence|].
    subst mm. vm_compute in Ep. inversion Ep; subst es. split; vm_compute; reflexivity. }
  destruct EX as (xm' & ym' & EX & M1 & M2). inversion EX; subst xm' ym'.
  split; [rewrite HM; exact M1|]. split; [rewrite HM; exact M2|].
  split; [unfold in_box; cbn; lia|]. split; [unfold in_box; cbn; lia|]. split; [congruence|].
  intros p d _ Hl _ Hd. destruct (hasEdge g p d) eqn:E; [exfalso|reflexivity].
  pose proof (C70_routing_range T tps [n] b b false true xm ym g p d Hs Ht HB) as R.
  destruct Hd as [-> | ->]; destruct (R eq_refl E) as [_ R']; specialize (R' eq_refl); rewrite Hl in R'; discriminate.
Qed.
Print Assumptions C72_wrong_way_wire_limit.

(* a concrete grid: two layers, one wire, one via, one access point *)
Definition ex_T := mkTech [mkRL 2 true false; mkRL 4 false false] 0 4 2 4 false.
Definition ex_tps := [mkTP 2 false 0 10 100; mkTP 4 true 0 10 100].
Definition ex_net : dnet := ([CSeg (mkPt 100 250) (mkPt 300 250) 2; CVia (mkPt 300 250) 2 4], [(mkPt 150 120, 2)]).
Definition ex_b := mkBox (mkPt 0 0) (mkPt 400 400).
Example C72_ex : match build_graph ex_T ex_tps [ex_net] ex_b ex_b false true with
  | Some (_, _, g) =>
      gxs g = [0; 100; 150; 200; 300; 400] /\ gys g = [0; 100; 120; 200; 250; 300; 400] /\
      (* the off-track wire, its via, the access point *)
      hasEdge g (mkMI 1 4 0) DE = true /\ hasGridCost g (mkMI 1 4 0) DE = true /\
      hasEdge g (mkMI 4 4 0) DU = true /\ hasEdge g (mkMI 2 2 0) DU = true /\
      (* a wire on the tracks is free of the off-track cost; x=150 is no track for a north edge on layer 2 *)
      hasEdge g (mkMI 1 1 0) DE = true /\ hasGridCost g (mkMI 1 1 0) DE = false /\
      hasEdge g (mkMI 2 2 0) DN = false
  | None => False
  end.
Proof. vm_compute. repeat split. Qed.
