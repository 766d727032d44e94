(* End-of-line conflicts the checker reports are charged by the router (C107). *)
From Verif Require Import Base Stl GeomModel GeomSpec GeomProofs GridModel GridSpec GcModel GcSpec GcProofs EolModel EolSpec
  CostModel CostSpec CostProofs4 CostProps CutProofs3.

(* the rule as the marking code reads it (src/dr/FlexDR_init.cpp, FlexDR_maze.cpp modEolSpacingCost ignores
   the PARALLELEDGE part) *)
Definition eol_cost_rule (s : eolstmt) : ceol := mkEol (t_space s) (t_width s) (t_within s).
(* shapes of a figure on a layer *)
Definition fig_shape (f : cfig) (z : Z) (b : box) : Prop :=
  match f with
  | CWire bi _ b' => b = b' /\ z = mz bi
  | CPatch z' b' => b = b' /\ z = z'
  | CVia bi ei pt v => (b = moved (cv_b1 v) pt /\ z = mz bi) \/ (b = moved (cv_b2 v) pt /\ z = mz ei)
  end.
(* ... other than wires against the preferred direction of their layer *)
Definition right_way (E : cenv) (g : gg) (f : cfig) : Prop :=
  match f with
  | CWire bi ei _ => ce_horz E (getLayerNum g (mz bi)) = (my bi =? my ei)
  | _ => True
  end.

Lemma enters_region s a b : solid a -> solid b -> 0 < t_space s -> 0 <= t_within s -> EolSpec.end_to_wire s a b ->
  exists r, In r (eol_regions a (eol_cost_rule s)) /\ intrudes b r.
Proof.
  intros [S3 S4] [S1 S2] G GW T. unfold EolSpec.end_to_wire in T. cbv zeta in T. unfold eol_regions. cbn [eol_cost_rule eo_space eo_width eo_within].
  assert (K : forall r, (bleft r < bright b /\ bleft b < bright r /\ bbottom r < btop b /\ bbottom b < btop r /\
                         bleft r < bright r /\ bbottom r < btop r) -> intrudes b r).
  { intros r H. exists (2 * Z.max (bleft b) (bleft r) + 1), (2 * Z.max (bbottom b) (bbottom r) + 1). unfold in_interior2. bx b. bx r. bxs. lia. }
  destruct T as [(W & Y & X)|[(W & Y & X)|[(W & Y & X)|(W & Y & X)]]].
  - exists (mkBox (mkPt (bright a) (bbottom a - t_within s)) (mkPt (bright a + t_space s) (btop a + t_within s))).
    split; [apply in_or_app; right; destruct (Z.ltb_spec (btop a - bbottom a) (t_width s)); [left; reflexivity|lia]|].
    apply K. bx a; bx b; bxs. lia.
  - exists (mkBox (mkPt (bleft a - t_space s) (bbottom a - t_within s)) (mkPt (bleft a) (btop a + t_within s))).
    split; [apply in_or_app; right; destruct (Z.ltb_spec (btop a - bbottom a) (t_width s)); [right; left; reflexivity|lia]|].
    apply K. bx a; bx b; bxs. lia.
  - exists (mkBox (mkPt (bleft a - t_within s) (btop a)) (mkPt (bright a + t_within s) (btop a + t_space s))).
    split; [apply in_or_app; left; destruct (Z.ltb_spec (bright a - bleft a) (t_width s)); [left; reflexivity|lia]|].
    apply K. bx a; bx b; bxs. lia.
  - exists (mkBox (mkPt (bleft a - t_within s) (bbottom a - t_space s)) (mkPt (bright a + t_within s) (bbottom a))).
    split; [apply in_or_app; left; destruct (Z.ltb_spec (bright a - bleft a) (t_width s)); [right; left; reflexivity|lia]|].
    apply K. bx a; bx b; bxs. lia.
Qed.

Lemma wire_near_nonneg E g b z blk p n : wire_near E g b z blk p n -> 0 <= n.
Proof. unfold wire_near. destruct (ce_spc _ _); [|lia]. intros [[_ A]|[_ ->]]; [|lia]. apply one_nonneg in A. exact A. Qed.
Lemma wire_eol_nonneg E g b z p n : wire_eol E g b z p n -> 0 <= n.
Proof. intros [[_ A]|[_ ->]]; [|lia]. apply tally_nonneg in A. exact A. Qed.
Lemma fig_wire_nonneg E g p f n : fig_wire E g p f n -> 0 <= n.
Proof.
  destruct f as [bi ei b|z b|bi ei pt v]; cbn [fig_wire].
  - intros (a & e & A & B & ->). apply wire_near_nonneg in A. destruct (Bool.eqb _ _); [apply wire_eol_nonneg in B|]; lia.
  - intros (a & e & A & B & ->). apply wire_near_nonneg in A. apply wire_eol_nonneg in B. lia.
  - intros (a1 & e1 & a2 & e2 & A & B & C & D & ->). apply wire_near_nonneg in A. apply wire_eol_nonneg in B.
    apply wire_near_nonneg in C. apply wire_eol_nonneg in D. lia.
Qed.
Lemma fig_wire_ge E g p f n b : right_way E g f -> fig_shape f (mz p) b ->
  (forall e, wire_eol E g b (mz p) p e -> 1 <= e) -> fig_wire E g p f n -> 1 <= n.
Proof.
  destruct f as [bi ei b'|z b'|bi ei pt v]; cbn [fig_wire fig_shape right_way].
  - intros RW [-> ->] H (a & e & A & B & ->). apply wire_near_nonneg in A. rewrite RW, Bool.eqb_reflx in B. specialize (H e B). lia.
  - intros _ [-> ->] H (a & e & A & B & ->). apply wire_near_nonneg in A. specialize (H e B). lia.
  - intros _ S H (a1 & e1 & a2 & e2 & A & B & C & D & ->). pose proof (wire_near_nonneg _ _ _ _ _ _ _ A). pose proof (wire_near_nonneg _ _ _ _ _ _ _ C).
    pose proof (wire_eol_nonneg _ _ _ _ _ _ B). pose proof (wire_eol_nonneg _ _ _ _ _ _ D).
    destruct S as [[-> Z]|[-> Z]]; rewrite <- Z in *; [specialize (H e1 B)|specialize (H e2 D)]; lia.
Qed.
Lemma region_all E l b c r : In c (ce_eol E l) -> In r (eol_regions b c) -> In r (all_regions E l b).
Proof. intros I J. apply in_flat_map. exists c. auto. Qed.
Lemma moved_solid b pt : solid b -> solid (moved b pt).
Proof. unfold solid, moved. bx b. bxs. lia. Qed.
Lemma fig_shape_solid E g f z b : good_fig E g f -> fig_shape f z b -> solid b.
Proof.
  destruct f as [bi ei b'|z' b'|bi ei pt v]; cbn [good_fig fig_shape].
  - intros (_ & _ & G) [-> _]. apply good_solid, G.
  - intros (_ & G) [-> _]. apply good_solid, G.
  - intros (_ & _ & _ & (G1 & G2 & _) & _) [[-> _]|[-> _]]; apply moved_solid, good_solid; assumption.
Qed.

(* ================================================================ C107 *)
(* a wire at the grid point in front of the end of a shape of the clip costs the router *)
Theorem C107_eol_wire_priced E g h figs p f b s :
  good_tech E -> svia_good E -> good_stack E g -> grid_sorted g -> valid g p -> ce_svia E p = None -> no_area E ->
  (forall f, In (AddFig f) h \/ In (SubFig f) h -> good_fig E g f /\ fig_wide E g f) ->
  live h figs -> no_limit g (flat_map (hist_ops E g) h) ->
  In f figs -> fig_shape f (mz p) b -> right_way E g f ->
  let l := getLayerNum g (mz p) in
  In (eol_cost_rule s) (ce_eol E l) ->
  EolSpec.end_to_wire s b (wire_end (half_width E l) (getPoint g p)) ->
  read g p ADrcX + 1 <= read (run_hist E g h) p ADrcX.
Proof.
  intros GT SG GS Hs Hv NS NA HF L NL If Sh RW l Rl T.
  destruct (C93_counters_count_conflicts E g h figs p GT SG GS Hs Hv NS NA HF L NL) as (w & n & S & _ & -> & _).
  assert (1 <= w); [|lia]. eapply sums_pos; [|exact S|exact If|].
  - intros f' m _ F. eapply fig_wire_nonneg. exact F.
  - intros m F. eapply fig_wire_ge; [exact RW|exact Sh| |exact F].
    intros e [[_ A]|[X _]]; [|congruence]. fold l in A.
    pose proof (gt_eol E GT l) as GR. rewrite Forall_forall in GR. destruct (GR _ Rl) as [G1 G2]. cbn in G1, G2.
    assert (SB : solid b) by (eapply fig_shape_solid; [apply HF; left; eapply live_figs; eauto|exact Sh]).
    destruct (enters_region s b (wire_end (half_width E l) (getPoint g p)) SB) as (r & I1 & I2); auto.
    { pose proof (gt_width E GT l). unfold half_width, wire_end, solid. cbn [ll ur px py].
      assert (1 <= Z.quot (ce_width E l) 2) by (apply Z.quot_le_lower_bound; lia). lia. }
    eapply tally_pos; [exact A|eapply region_all; eauto|exact I2].
Qed.
Print Assumptions C107_eol_wire_priced.

(* a via at the grid point: in front of the end of a shape, or with such a shape in front of its own end *)
Theorem C107_eol_via_priced E g h figs p f b s z upper vb :
  good_tech E -> svia_good E -> good_stack E g -> grid_sorted g -> valid g p -> ce_svia E p = None -> no_area E ->
  (forall f, In (AddFig f) h \/ In (SubFig f) h -> good_fig E g f /\ fig_wide E g f) ->
  live h figs -> no_limit g (flat_map (hist_ops E g) h) ->
  In f figs -> fig_shape f z b ->
  let l := getLayerNum g z in let tb := moved vb (getPoint g p) in
  via_touches p z upper -> layer_via E l upper = Some vb ->
  In (eol_cost_rule s) (ce_eol E l) ->
  (right_way E g f /\ EolSpec.end_to_wire s b tb) \/ (ce_spc E l <> None /\ EolSpec.end_to_wire s tb b) ->
  read g p ADrcU + 1 <= read (run_hist E g h) p ADrcU.
Proof.
  intros GT SG GS Hs Hv NS NA HF L NL If Sh l tb Vt Lv Rl T.
  destruct (C93_counters_count_conflicts E g h figs p GT SG GS Hs Hv NS NA HF L NL) as (w & n & _ & S & _ & -> & _).
  assert (1 <= n); [|lia]. eapply sums_pos; [|exact S|exact If|].
  { intros f' m _ F. eapply fig_via_nonneg. exact F. }
  pose proof (gt_eol E GT l) as GR. rewrite Forall_forall in GR. destruct (GR _ Rl) as [G1 G2]. cbn in G1, G2.
  assert (SB : solid b) by (eapply fig_shape_solid; [apply HF; left; eapply live_figs; eauto|exact Sh]).
  assert (ST : solid tb).
  { apply moved_solid, good_solid. unfold layer_via in Lv. destruct (ce_via E _) as [v|] eqn:V; [|discriminate].
    destruct (gt_via E GT _ v V) as (B1 & B2 & _). injection Lv as <-. destruct upper; assumption. }
  assert (VB : via_box E vb upper p = vb) by (unfold via_box; rewrite NS; reflexivity).
  (* the shape as such *)
  assert (K : forall ps eol m, (right_way E g f -> eol = true) -> shape_via E g p b z ps eol m -> 1 <= m).
  { intros ps eol m HE (a1 & a2 & e1 & e2 & A1 & A2 & A3 & ->).
    pose proof (via_near_nonneg _ _ _ _ _ _ _ _ _ A1). pose proof (via_near_nonneg _ _ _ _ _ _ _ _ _ A2).
    assert (0 <= e1 /\ 0 <= e2) by (destruct eol; destruct A3 as [A3 A4]; [apply via_eol_nonneg in A3; apply via_eol_nonneg in A4|]; lia).
    destruct T as [[RW T]|[NSp T]].
    - destruct (enters_region s b tb SB ST) as (r & I1 & I2); auto. rewrite (HE RW) in A3. destruct A3 as [A3 A4].
      assert (X : forall e, via_eol_hits E g b z upper p e -> 1 <= e).
      { intros e. unfold via_eol_hits. fold l. rewrite Lv. intros [[_ A]|[X _]]; [|contradiction]. rewrite VB in A.
        eapply tally_pos; [exact A|eapply region_all; eauto|exact I2]. }
      destruct upper; [specialize (X e2 A4)|specialize (X e1 A3)]; lia.
    - destruct (enters_region s tb b ST SB) as (r & I1 & I2); auto.
      assert (X : forall e, via_near E g b z upper ps false p e -> 1 <= e).
      { intros e. unfold via_near. fold l. rewrite Lv. destruct (ce_spc E l); [|congruence].
        intros [[_ (patch & n1 & n2 & _ & A & B & ->)]|[X _]]; [|contradiction]. rewrite VB in B. apply one_nonneg in A.
        assert (1 <= n2) by (eapply tally_pos; [exact B|eapply region_all; eauto|exact I2]). lia. }
      destruct upper; [specialize (X a1 A1)|specialize (X a2 A2)]; lia. }
  intros m F. clear GR S NL HF L. destruct f as [bi ei b'|z' b'|bi ei pt v]; cbn [fig_via fig_shape right_way] in *.
  - destruct F as (sh & k & A & (lo & up & P & Q & ->) & ->). destruct Sh as [Sb Z]; subst b z. apply one_nonneg in P. apply one_nonneg in Q.
    assert (1 <= sh); [|lia]. eapply K; [|exact A]. intros ->. apply Bool.eqb_reflx.
  - destruct Sh as [Sb Z]; subst b z. eapply K; [|exact F]. auto.
  - destruct F as (s1 & s2 & c & A & B & C & ->). pose proof (shape_via_nonneg _ _ _ _ _ _ _ _ A). pose proof (shape_via_nonneg _ _ _ _ _ _ _ _ B).
    apply sums_nonneg in C; [|intros x y _ HX; apply cut_via_nonneg in HX; exact HX].
    destruct Sh as [[Sb Z]|[Sb Z]]; subst b z.
    + assert (1 <= s1); [|lia]. eapply K; [|exact A]. auto.
    + assert (1 <= s2); [|lia]. eapply K; [|exact B]. auto.
Qed.
Print Assumptions C107_eol_via_priced.

(* a wire against the preferred direction has ends, too, but a wire in front of them costs nothing *)
Theorem C107_wrong_way_refuted :
  exists E g f p b s, good_tech E /\ svia_good E /\ good_stack E g /\ grid_sorted g /\ valid g p /\ ce_svia E p = None /\ no_area E /\
    good_fig E g f /\ fig_wide E g f /\ fig_shape f (mz p) b /\ no_limit g (flat_map (hist_ops E g) [AddFig f]) /\
    In (eol_cost_rule s) (ce_eol E (getLayerNum g (mz p))) /\ EolSpec.good_stmt s /\
    EolSpec.end_to_wire s b (wire_end (half_width E (getLayerNum g (mz p))) (getPoint g p)) /\
    read (run_hist E g [AddFig f]) p ADrcX = read g p ADrcX.
Proof.
  exists (demo_tech 18 (fun _ => None) (-1)), demo_clip, (CWire (mkMI 1 0 1) (mkMI 1 1 1) (mkBox (mkPt 30 (-10)) (mkPt 50 50))),
    (mkMI 1 2 1), (mkBox (mkPt 30 (-10)) (mkPt 50 50)), (mkStmt 7 25 30 5 None).
  split; [apply demo_tech_good; lia|]. split; [intros q s H; discriminate|]. split; [apply demo_clip_stack|]. split; [apply demo_clip_sorted|].
  split; [unfold valid, on_grid; cbn; lia|]. split; [reflexivity|].
  split. { intros l. cbn. destruct (l =? 3); repeat constructor. }
  split. { split; [unfold valid, on_grid; cbn; lia|]. split; [unfold valid, on_grid; cbn; lia|]. unfold good_box; cbn; lia. }
  split; [unfold fig_wide, wide_enough; cbn; lia|]. split; [split; reflexivity|].
  split; [vm_compute; repeat split; intros; discriminate|]. split; [left; reflexivity|].
  split; [split; [reflexivity|split; [discriminate|discriminate]]|].
  split; [right; right; left; vm_compute; intuition discriminate|]. vm_compute. reflexivity.
Qed.
Print Assumptions C107_wrong_way_refuted.

(* a wire on layer 4, which runs horizontally, and the grid point 20 units beyond its end *)
Example C107_applies :
  let E := demo_tech 18 (fun _ => None) (-1) in let s := mkStmt 7 25 30 5 None in
  let b := mkBox (mkPt (-10) 30) (mkPt 50 50) in let f := CWire (mkMI 0 1 1) (mkMI 1 1 1) b in let p := mkMI 2 1 1 in
  good_tech E /\ svia_good E /\ good_stack E demo_clip /\ valid demo_clip p /\ no_area E /\
  good_fig E demo_clip f /\ fig_wide E demo_clip f /\ live [AddFig f] [f] /\ right_way E demo_clip f /\
  no_limit demo_clip (flat_map (hist_ops E demo_clip) [AddFig f]) /\ In (eol_cost_rule s) (ce_eol E 4) /\
  EolSpec.end_to_wire s b (wire_end (half_width E 4) (getPoint demo_clip p)) /\
  (exists vb, layer_via E 4 true = Some vb /\ EolSpec.end_to_wire s b (moved vb (getPoint demo_clip p)) /\
              EolSpec.end_to_wire s (moved vb (getPoint demo_clip p)) b) /\
  read (run_hist E demo_clip [AddFig f]) p ADrcX = 1 /\ read (run_hist E demo_clip [AddFig f]) p ADrcU = 3.
Proof.
  set (E := demo_tech _ _ _). cbv zeta.
  split; [apply demo_tech_good; lia|]. split; [intros q s H; discriminate|]. split; [apply demo_clip_stack|].
  split; [unfold valid, on_grid; cbn; lia|].
  split. { intros l. cbn. destruct (l =? 3); repeat constructor. }
  split. { split; [unfold valid, on_grid; cbn; lia|]. split; [unfold valid, on_grid; cbn; lia|]. unfold good_box; cbn; lia. }
  split; [unfold fig_wide, wide_enough; cbn; lia|]. split; [apply (live_add [] []); constructor|]. split; [reflexivity|].
  split; [vm_compute; repeat split; intros; discriminate|]. split; [left; reflexivity|].
  split; [left; vm_compute; intuition discriminate|].
  split; [eexists; split; [reflexivity|split; [left|right; left]; vm_compute; intuition discriminate]|].
  split; vm_compute; reflexivity.
Qed.
