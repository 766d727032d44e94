(* Cut conflicts the checker reports are charged by the router (C103). *)
From Verif Require Import Base Stl GeomModel GeomSpec GeomProofs GridModel GridSpec GcModel GcSpec GcProofs
  CostModel CostSpec CostProofs4 CostProps CutModel CutSpec CutProofs CutProofs2 CutProofs3.

(* ================================================================ C103 *)
(* a via at the grid point whose cut would be reported against a cut of a via in the clip costs the router *)
Theorem C103_cut_conflict_priced E g h figs p bi ei pt v cf dv cf' W lef c r o :
  good_tech E -> svia_good E -> good_stack E g -> grid_sorted g -> valid g p -> ce_svia E p = None -> no_area E ->
  (forall f, In (AddFig f) h \/ In (SubFig f) h -> good_fig E g f /\ fig_wide E g f) ->
  live h figs -> no_limit g (flat_map (hist_ops E g) h) ->
  let l := getLayerNum g (mz p) + 1 in
  (* a via of the clip on the layer of the via to be placed, and one cut of either *)
  In (CVia bi ei pt v) figs -> In cf (cv_cuts v) -> mz bi = mz p ->
  ce_via E l = Some dv -> In cf' (cv_cuts dv) ->
  (* the checker sees these two cuts, of different nets, and the same rules *)
  gbox r = moved cf pt -> gbox o = moved cf' (getPoint g p) -> gnet r <> gnet o ->
  ~ large_obs W l r -> ~ large_obs W l o ->
  (forall c, In c lef -> k_second c = None -> k_same c = false ->
     In (cost_rule c) (ce_cut E l) /\ k_area c = None) ->
  breaks W l lef c r o \/ breaks W l lef c o r ->
  read g p ADrcU + 1 <= read (run_hist E g h) p ADrcU.
Proof.
  intros GT SG GS Hs Hv NS NA HF L NL l If Ic Ez Ev Ic' Er Eo Nn Lr Lo RC BR.
  eapply priced; eauto. intros m (a & u & d & A & B & C & ->). apply inter_hits_nonneg in B. apply inter_hits_nonneg in C.
  assert (1 <= a); [|lia]. clear B C. unfold cut_hits in A. rewrite Ez in A. fold l in A. rewrite Ev in A.
  destruct A as [[_ A]|[X _]]; [|congruence]. eapply tally_pos; [exact A|exact Ic'|]. exists (cost_rule c).
  assert (Hc : In c lef /\ k_second c = None /\ k_same c = false).
  { destruct BR as [(I1 & I2 & NB & _)|(I1 & I2 & NB & _)]; (split; [exact I1|]; split; [exact I2|]);
      unfold net_binds in NB; destruct (k_same c); congruence. }
  destruct Hc as (I1 & I2 & I3). destruct (RC c I1 I2 I3) as [In_c Ka]. split; [exact In_c|].
  rewrite <- Er, <- Eo. destruct BR as [BR|BR]; [eapply conflict_of; eauto|].
  apply conflict_sym. eapply conflict_of; eauto.
Qed.
Print Assumptions C103_cut_conflict_priced.

(* the same for a cut one cut layer above or below *)
Theorem C103_inter_layer_priced E g h figs p bi ei pt v cf dv cf' lef c r o (upper : bool) :
  good_tech E -> svia_good E -> good_stack E g -> grid_sorted g -> valid g p -> ce_svia E p = None -> no_area E ->
  (forall f, In (AddFig f) h \/ In (SubFig f) h -> good_fig E g f /\ fig_wide E g f) ->
  live h figs -> no_limit g (flat_map (hist_ops E g) h) ->
  let l1 := getLayerNum g (mz bi) + 1 in let l2 := if upper then l1 + 2 else l1 - 2 in
  In (CVia bi ei pt v) figs -> In cf (cv_cuts v) -> mz p = (if upper then mz bi + 1 else mz bi - 1) ->
  ce_via E l2 = Some dv -> In cf' (cv_cuts dv) ->
  gbox r = moved cf pt -> gbox o = moved cf' (getPoint g p) -> gnet r <> gnet o ->
  (* the rule is attached to the layer of the cut present, or to that of the cut to be placed *)
  (breaks_inter l1 l2 lef c r o /\ ce_inter E l1 l2 = Some (cost_rule c)) \/
  (breaks_inter l2 l1 lef c o r /\ ce_inter E l1 l2 = None /\ ce_inter E l2 l1 = Some (cost_rule c)) ->
  read g p ADrcU + 1 <= read (run_hist E g h) p ADrcU.
Proof.
  intros GT SG GS Hs Hv NS NA HF L NL l1 l2 If Ic Ez Ev Ic' Er Eo Nn BR.
  assert (SOL : solid cf /\ solid cf').
  { split.
    - assert (GF : good_fig E g (CVia bi ei pt v)) by (apply HF; left; eapply live_figs; eauto).
      destruct GF as (_ & _ & _ & _ & GC). rewrite Forall_forall in GC. apply good_solid, GC, Ic.
    - destruct (gt_via E GT l2 dv Ev) as (_ & _ & _ & GC). rewrite Forall_forall in GC. apply GC, Ic'. }
  destruct SOL as [S1 S2]. pose proof (norm_moved cf pt S1) as N1. pose proof (norm_moved cf' (getPoint g p) S2) as N2.
  assert (H : exists rule, inter_rule E l1 l2 = Some rule /\ cut_near rule (moved cf pt) (moved cf' (getPoint g p)) (cu_spc rule)).
  { exists (cost_rule c). unfold inter_rule. destruct BR as [[(_ & _ & SA) ->]|[(_ & _ & SA) [-> ->]]].
    - split; [reflexivity|]. rewrite Er, Eo in SA. apply stacked_near; auto.
    - split; [reflexivity|]. rewrite Er, Eo in SA. apply stacked_near in SA; auto.
      rewrite <- near_cost in SA. apply near_sym in SA. rewrite <- near_cost. exact SA. }
  destruct H as (rule & IR & NE).
  eapply priced; eauto. intros m (a & u & d & A & B & C & ->).
  pose proof (cut_hits_nonneg _ _ _ _ _ _ _ A). pose proof (inter_hits_nonneg _ _ _ _ _ _ _ B). pose proof (inter_hits_nonneg _ _ _ _ _ _ _ C).
  destruct upper.
  - assert (1 <= u); [|lia]. unfold inter_hits in B. fold l1 in B. change (l1 + 2) with l2 in B. rewrite Ev, IR in B.
    destruct B as [[_ B]|[X _]]; [|congruence]. eapply one_pos; [exact B|]. exists cf'. auto.
  - assert (1 <= d); [|lia]. unfold inter_hits in C. fold l1 in C. change (l1 - 2) with l2 in C. rewrite Ev, IR in C.
    destruct C as [[_ C]|[X _]]; [|congruence]. eapply one_pos; [exact C|]. exists cf'. auto.
Qed.
Print Assumptions C103_inter_layer_priced.

Example C103_applies :
  let E := demo_tech 20 (fun _ => None) (-1) in
  let f := CVia (mkMI 2 1 0) (mkMI 2 1 1) (mkPt 80 40) demo_via in
  let cut := mkBox (mkPt (-10) (-10)) (mkPt 10 10) in
  let p := mkMI 3 1 0 in let q := mkMI 2 1 1 in
  let c := mkCR 1 30 false false None false None 0 false false None in
  let d := mkCR 2 25 true false (Some 5) false None 0 false false None in
  let r := mkGR 1 (moved cut (mkPt 80 40)) 7 false in let o := mkGR 2 (moved cut (getPoint demo_clip p)) 8 false in
  let o2 := mkGR 3 (moved cut (getPoint demo_clip q)) 8 false in
  let W := mkCW 6 (fun l => lef_layer 20 99 (if l =? 3 then [c; d] else [])) (fun _ => KSignal false)
             (fun l => if l =? 3 then [r; o] else if l =? 5 then [o2] else []) in
  good_tech E /\ svia_good E /\ good_stack E demo_clip /\ no_area E /\ valid demo_clip p /\ valid demo_clip q /\
  good_fig E demo_clip f /\ fig_wide E demo_clip f /\ live [AddFig f] [f] /\
  no_limit demo_clip (flat_map (hist_ops E demo_clip) [AddFig f]) /\
  In (cost_rule c) (ce_cut E 3) /\ breaks W 3 [c; d] c r o /\
  ce_inter E 3 5 = Some (cost_rule d) /\ breaks_inter 3 5 [c; d] d r o2.
Proof.
  set (E := demo_tech _ _ _). set (f := CVia _ _ _ _). cbv zeta.
  split; [apply demo_tech_good; lia|]. split; [intros q s H; discriminate|]. split; [apply demo_clip_stack|].
  split. { intros l. cbn. destruct (l =? 3); repeat constructor. }
  split; [unfold valid, on_grid; cbn; lia|]. split; [unfold valid, on_grid; cbn; lia|].
  split. { split; [unfold valid, on_grid; cbn; lia|]. split; [unfold valid, on_grid; cbn; lia|]. split; [reflexivity|].
    split; [apply demo_via_good|]. constructor; [unfold good_box; cbn; lia | constructor]. }
  split; [unfold fig_wide, wide_enough; cbn; lia|]. split; [apply (live_add [] [] f); constructor|].
  split; [vm_compute; repeat split; intros; discriminate|]. split; [left; reflexivity|].
  split; [|split; [reflexivity|]].
  - split; [left; reflexivity|]. split; [reflexivity|]. split; [left; cbn; lia|]. split; [exact I|].
    split; [exact I|]. split; [intros [H _]; apply H; reflexivity|]. split; [discriminate|].
    exists 30. split; [right; split; [intros [H _]; apply H; reflexivity|reflexivity]|].
    exists (mkPt 90 40), (mkPt 110 40). unfold in_box; vm_compute. intuition discriminate.
  - split; [exists (mkCR 2 25 true false (Some 5) false None 0 false false None); split; [apply find_first; reflexivity|right; split; [reflexivity|left; cbn; lia]]|].
    split; [intros (H & _); discriminate|]. split; [intros _; vm_compute; reflexivity|]. intros _. vm_compute. reflexivity.
Qed.
