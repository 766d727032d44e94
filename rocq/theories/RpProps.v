(* C97: two vias of a wire that would be too close are at a forbidden distance.
   C98: so are a via and the wire after a turn, and only those.
   C99: a distance is forbidden for a reason. *)
From Verif Require Import Base Stl GeomModel GeomSpec GridModel GridSpec TechModel TechSpec MazeModel MazeSpec GcModel GcSpec
  FareModel FareSpec FareProofs FareProps RpModel RpSpec RpProofs RpProofs2 RpProofs3.

(* ---- C97 ---- *)
(* cuts, of one layer or of two *)
Theorem C97_close_cuts_are_forbidden T z s1 s2 dirx v1 v2 r d :
  good_tech T -> 0 <= z -> layer_at z <= rt_top T ->
  leaves T (layer_at z) s1 v1 -> leaves T (layer_at z) s2 v2 -> 0 < d -> 0 <= rc_spc r ->
  ((s1 = s2 /\ cut_rule T (rv_cutl v1) r) \/
   (s1 <> s2 /\ once_between T (rv_cutl v1) (rv_cutl v2) /\ inter_rule T (rv_cutl v1) (rv_cutl v2) r /\ rc_stack r = false)) ->
  cuts_conflict r (rv_bc v1) (moved dirx d (rv_bc v2)) ->
  v2v_query T z s1 s2 dirx d = Some true.
Proof.
  intros G Hz Ht L1 L2 Hd Hs HR HC.
  destruct (close_cuts_range _ _ _ _ _ _ _ _ _ G L1 L2 Hd Hs HR HC) as (a & b & Hin & Hab).
  apply (v2v_by_range _ _ _ _ _ _ _ a b d G Hz Ht L1 L2); [|exact Hab].
  unfold v2v_ranges. rewrite !in_app_iff. auto.
Qed.
Print Assumptions C97_close_cuts_are_forbidden.
(* pads on the layer of the wire, where both are wider than the wire *)
Theorem C97_close_pads_are_forbidden T z s1 s2 dirx v1 v2 d :
  good_tech T -> 0 <= z -> layer_at z <= rt_top T ->
  leaves T (layer_at z) s1 v1 -> leaves T (layer_at z) s2 v2 -> 0 < d ->
  sticks_out T (layer_at z) dirx (pad v1 s1) -> sticks_out T (layer_at z) dirx (pad v2 s2) ->
  too_close T (layer_at z) (pad v1 s1) (moved dirx d (pad v2 s2)) ->
  v2v_query T z s1 s2 dirx d = Some true.
Proof.
  intros G Hz Ht L1 L2 Hd S1 S2 HC.
  destruct (close_pads_range _ _ _ _ _ _ _ _ G L1 L2 Hd S1 S2 HC) as (a & b & Hin & Hab).
  apply (v2v_by_range _ _ _ _ _ _ _ a b d G Hz Ht L1 L2); [|exact Hab].
  unfold v2v_ranges. rewrite !in_app_iff. auto.
Qed.
Print Assumptions C97_close_pads_are_forbidden.
(* pads at the far ends of two vias that leave the layer on the same side; missing: the y direction *)
Theorem C97_close_far_pads_are_forbidden_partial T z s v d :
  good_tech T -> 0 <= z -> layer_at z <= rt_top T -> leaves T (layer_at z) s v -> 0 < d ->
  too_close T (far_layer (layer_at z) s) (far_pad v s) (moved true d (far_pad v s)) ->
  v2v_query T z s s true d = Some true.
Proof.
  intros G Hz Ht L Hd HC.
  destruct (far_pads_range _ _ _ _ _ G L Hd HC) as (a & b & Hin & Hab).
  apply (v2v_by_range _ _ _ _ _ _ _ a b d G Hz Ht L L); [|exact Hab].
  unfold v2v_ranges. rewrite !in_app_iff. auto.
Qed.
Print Assumptions C97_close_far_pads_are_forbidden_partial.
(* a cut at wide metal, along the preferred direction of the layer; missing: the other direction, and the
   first via's cut when the rule looks at the first via's metal too but not from that side *)
Theorem C97_cuts_at_wide_metal_partial T z s1 s2 v1 v2 c d :
  good_tech T -> 0 <= z -> layer_at z <= rt_top T ->
  leaves T (layer_at z) s1 v1 -> leaves T (layer_at z) s2 v2 -> 0 < d ->
  In c (rl_mincut (rt_layer T (layer_at z))) ->
  let horz := rl_horz (rt_layer T (layer_at z)) in
  ((wide_metal c (pad v1 s1) /\ from_side c s2 /\ cut_at_metal c horz (pad v1 s1) (moved horz d (rv_bc v2))) \/
   (wide_metal c (pad v2 s2) /\ from_side c s1 /\ cut_at_metal c horz (pad v2 s2) (moved horz d (rv_bc v1)) /\
    (wide_metal c (pad v1 s1) -> from_side c s2))) ->
  v2v_query T z s1 s2 horz d = Some true.
Proof.
  intros G Hz Ht L1 L2 Hd Hin horz HC.
  assert (K : exists a b, In (a, b) (v2v_mincut T (layer_at z) v1 v2) /\ a < d < b).
  { destruct HC as [(W & S & C)|(W & S & C & N)].
    - eapply wide_metal_range; eauto.
    - eapply wide_metal_range2; eauto. }
  destruct K as (a & b & Hi & Hab).
  apply (v2v_by_range _ _ _ _ _ _ _ a b d G Hz Ht L1 L2); [|exact Hab].
  unfold v2v_ranges. rewrite !in_app_iff. auto.
Qed.
Print Assumptions C97_cuts_at_wide_metal_partial.
(* the distances found for minimum-cut rules are enough on both sides of the wide metal also if vias are not centred *)
Theorem C97_wide_metal_reach T l v1 v2 c d :
  In c (rl_mincut (rt_layer T l)) -> 0 < d ->
  let horz := rl_horz (rt_layer T l) in
  wide_metal c (via_on v1 l) -> from_side c (negb (rv_l1 v2 =? l)) ->
  (cut_at_metal c horz (via_on v1 l) (moved horz d (rv_bc v2)) \/ cut_at_metal c horz (via_on v1 l) (moved horz (- d) (rv_bc v2))) ->
  exists a b, In (a, b) (v2v_mincut T l v1 v2) /\ a < d < b.
Proof.
  intros Hin Hd horz W S C. exists 0, (mc_reach c horz (rv_bc v2) (via_on v1 l)). split.
  - unfold v2v_mincut. apply in_flat_map. exists c. split; [exact Hin|]. apply wide_metal_iff in W. rewrite W. apply from_side_iff in S. rewrite negb_involutive in S. rewrite S. left. reflexivity.
  - split; [exact Hd|]. clear -C. unfold cut_at_metal, mc_reach, moved in *. destruct horz, C as [C|C]; unfold bleft, bright, bbottom, btop in *; cbn in C; lia.
Qed.
Print Assumptions C97_wide_metal_reach.
(* the router pays for it: a via placed right after a straight wire that makes its cut too close to the
   cut of the via before costs at least the smaller of the DRC and the marker cost per unit of length more *)
Definition reads_tables (F : fenv) (T : rtech) : Prop :=
  forall z pd cd dx len, fe_v2v F z pd cd dx len = match v2v_query T z pd cd dx len with Some b => b | None => false end.
Theorem C97_close_cuts_are_paid_for F T d1 d2 center g cc s ds d len up (dirx : bool) v1 v2 r :
  fare_ok F g -> edges_inside g -> lengths_fit F g cc -> In s cc -> legal g s (d :: ds) -> NoDup (stops s (d :: ds)) ->
  reads_tables F T -> good_tech T -> layer_at (mz (stop s ds)) <= rt_top T -> 0 <= mz (stop s ds) ->
  (d = DU \/ d = DD) -> (up = DU \/ up = DD) -> 0 < len ->
  since_via F g s ds = Some (if dirx then len else 0, if dirx then 0 else len, up) ->
  let below1 := dir_eqb up DU in let below2 := dir_eqb d DD in
  leaves T (layer_at (mz (stop s ds))) below1 v1 -> leaves T (layer_at (mz (stop s ds))) below2 v2 -> 0 <= rc_spc r ->
  ((below1 = below2 /\ cut_rule T (rv_cutl v1) r) \/
   (below1 <> below2 /\ once_between T (rv_cutl v1) (rv_cutl v2) /\ inter_rule T (rv_cutl v1) (rv_cutl v2) r /\ rc_stack r = false)) ->
  cuts_conflict r (rv_bc v1) (moved dirx len (rv_bc v2)) ->
  x_path (eext (trip_entry F d1 d2 center g s ds)) + edge_price F g (stop s ds) d +
    Z.min (fe_drc F) (fe_marker F) * hop F g (stop s ds) d <= x_path (eext (trip_entry F d1 d2 center g s (d :: ds))).
Proof.
  intros FO EI LF Hs L N RT G Ht Hz Hd Hup Hlen SV below1 below2 L1 L2 Hsp HR HC.
  apply (C96_clashes_are_charged F d1 d2 center g cc s ds d FO EI LF Hs L N). left.
  pose proof (C97_close_cuts_are_forbidden T _ _ _ dirx _ _ r len G Hz Ht L1 L2 Hlen Hsp HR HC) as Q.
  unfold via_clash. rewrite SV, !RT. unfold below1, below2 in Q.
  assert (Hv : is_via_dir d = true) by (destruct Hd; subst d; reflexivity). rewrite Hv.
  destruct dirx; rewrite Q; destruct (Z.ltb_spec 0 len); try lia; reflexivity.
Qed.
Print Assumptions C97_close_cuts_are_paid_for.

(* ---- C98 ---- *)
(* whatever the length of the wire after the turn *)
Theorem C98_close_turns_are_forbidden T z s dirx v d lo hi :
  good_tech T -> 0 <= z -> layer_at z <= rt_top T -> leaves T (layer_at z) s v ->
  0 <= rl_width (rt_layer T (layer_at z)) -> 0 < d -> lo <= 0 <= hi ->
  sticks_out T (layer_at z) dirx (pad v s) ->
  too_close T (layer_at z) (pad v s) (turned_wire T (layer_at z) dirx d lo hi) ->
  turn_query T z s dirx d = Some true.
Proof.
  intros G Hz Ht L Hw Hd Hlo S C. rewrite (turn_by_range _ _ _ _ _ _ G Hz Ht L). f_equal. eapply close_turn; eauto.
Qed.
Print Assumptions C98_close_turns_are_forbidden.
(* and nothing else: exactly the distances at which a wire that passes the whole pad is too close *)
Theorem C98_only_close_turns_are_forbidden T z s (dirx : bool) v d lo hi rows cols vals :
  good_tech T -> 0 <= z -> layer_at z <= rt_top T -> leaves T (layer_at z) s v ->
  rl_spc (rt_layer T (layer_at z)) = PrlTable rows cols vals -> prl_table_ok rows cols vals ->
  0 < rl_width (rt_layer T (layer_at z)) -> Z.even (rl_width (rt_layer T (layer_at z))) = true -> 0 < d ->
  (if dirx then lo <= bbottom (pad v s) /\ btop (pad v s) <= hi else lo <= bleft (pad v s) /\ bright (pad v s) <= hi) ->
  rl_width (rt_layer T (layer_at z)) <= hi - lo ->
  (turn_query T z s dirx d = Some true <->
   sticks_out T (layer_at z) dirx (pad v s) /\
   too_close T (layer_at z) (pad v s) (turned_wire T (layer_at z) dirx d lo hi)).
Proof.
  intros G Hz Ht L Er OK Hw He Hd Sp Hl. rewrite (turn_by_range _ _ _ _ _ _ G Hz Ht L).
  rewrite <- (turn_exact T (layer_at z) s dirx v d lo hi rows cols vals G L Er OK Hw He Hd Sp Hl).
  split; [intros H; injection H; auto|intros ->; reflexivity].
Qed.
Print Assumptions C98_only_close_turns_are_forbidden.
(* without a via on that side no distance is forbidden *)
Theorem C98_no_via_no_rule T z s dirx d : good_tech T -> 0 <= z -> layer_at z <= rt_top T ->
  (forall v, ~ leaves T (layer_at z) s v) -> turn_query T z s dirx d = Some false.
Proof.
  intros G Hz Ht H. rewrite turn_query_entry by assumption. destruct (side_via T (layer_at z) s) as [v|] eqn:E; [|reflexivity].
  exfalso. apply (H v). apply side_leaves; assumption.
Qed.
Print Assumptions C98_no_via_no_rule.

(* ---- C99 ---- *)
(* missing: two vias on the same side, y direction; the range at the far pads is wrong there *)
Theorem C99_forbidden_has_a_cause_partial T z s1 s2 dirx d :
  good_tech T -> cut_rules_ok T -> (forall l, prl_rule (rl_spc (rt_layer T l))) -> 0 <= z -> layer_at z <= rt_top T ->
  s1 <> s2 \/ dirx = true ->
  v2v_query T z s1 s2 dirx d = Some true ->
  0 < d /\ exists v1 v2, leaves T (layer_at z) s1 v1 /\ leaves T (layer_at z) s2 v2 /\
    ((sticks_out T (layer_at z) dirx (pad v1 s1) /\ sticks_out T (layer_at z) dirx (pad v2 s2) /\
      pads_near T (layer_at z) (pad v1 s1) (moved dirx d (pad v2 s2))) \/
     (s1 = s2 /\ far_pads_near T (layer_at z) s1 v1 d) \/
     mincut_cause T (layer_at z) s1 s2 v1 v2 d \/
     cut_cause T s1 s2 dirx v1 v2 d).
Proof.
  intros G OK PR Hz Ht Hdir. rewrite v2v_query_entry by assumption.
  destruct (side_via T (layer_at z) s1) as [v1|] eqn:E1; [|intros H; discriminate H].
  destruct (side_via T (layer_at z) s2) as [v2|] eqn:E2; [|intros H; discriminate H].
  cbn [v2v_entry]. intros H. injection H as H. apply (side_leaves _ _ _ _ Ht) in E1, E2.
  set (l := layer_at z) in *.
  assert (Hother : v2v_minspc_other T l v1 v2 dirx = [] \/ (s1 = s2 /\ v1 = v2 /\ dirx = true)).
  { unfold v2v_minspc_other. destruct (Z.eqb_spec (rv_id v1) (rv_id v2)) as [Ei|]; [|auto]. right.
    destruct E1 as [K1 E1], E2 as [K2 E2]. pose proof (proj1 (gt_id T G _ _ _ _ E1 E2) Ei) as Ec.
    assert (s1 = s2) as <- by (destruct s1, s2; auto; lia).
    split; [reflexivity|]. split; [congruence|]. destruct Hdir; congruence. }
  assert (Hpos : 0 < d).
  { apply (merge_positive _ _) in H; [exact H|]. intros a b. unfold v2v_ranges. rewrite !in_app_iff.
    destruct (leaves_facts _ _ _ _ G E1) as (_ & F1 & P1 & C1 & D1 & _). destruct (leaves_facts _ _ _ _ G E2) as (_ & _ & P2 & C2 & _).
    intros [Hi|[Hi|[Hi|Hi]]].
    - unfold v2v_minspc_here in Hi. rewrite P1, P2 in Hi. fold (half dirx (pad v1 s1) (pad v2 s2)) in Hi.
      destruct (_ && _); [|destruct Hi]. destruct (rule_find _ _ _ _); [|destruct Hi].
      destruct Hi as [Hi|[]]. injection Hi as <- _. pose proof (half_pos dirx _ _ C1 C2). lia.
    - destruct Hother as [Ho|(<- & <- & ->)]; [rewrite Ho in Hi; destruct Hi|].
      unfold v2v_minspc_other in Hi. rewrite Z.eqb_refl, F1 in Hi.
      destruct D1 as (D1 & _ & D3 & _). destruct s1; cbn [negb far_pad] in *;
        (destruct (rule_find _ _ _ _); [|destruct Hi]; destruct Hi as [Hi|[]]; injection Hi as <- _; lia).
    - unfold v2v_mincut in Hi. apply in_flat_map in Hi. destruct Hi as (c & _ & Hi).
      destruct (mc_wide c (via_on v1 l)), (mc_wide c (via_on v2 l)), (conn_checks (mc_conn c) (rv_l1 v1 =? l)),
        (conn_checks (mc_conn c) (rv_l1 v2 =? l)); simpl in Hi;
        repeat (destruct Hi as [Hi|Hi]; [injection Hi as <- _; lia|]); try destruct Hi.
    - unfold v2v_cutspc in Hi. destruct (rv_cutl v1 =? rv_cutl v2).
      + apply in_flat_map in Hi. destruct Hi as (c & _ & Hi). destruct (_ || _); [destruct Hi|].
        destruct Hi as [Hi|[]]. injection Hi as <- _. lia.
      + destruct (v2v_inter_rule _ _ _); [|destruct Hi]. destruct (negb _ && negb _); [|destruct Hi].
        destruct Hi as [Hi|[]]. injection Hi as <- _. lia. }
  split; [exact Hpos|]. exists v1, v2. split; [exact E1|]. split; [exact E2|].
  apply merge_sound in H. destruct H as (a & b & Hi & Hab). unfold v2v_ranges in Hi. rewrite !in_app_iff in Hi.
  destruct Hi as [Hi|[Hi|[Hi|Hi]]].
  - left. eapply pads_cause; eauto.
  - destruct Hother as [Ho|(<- & <- & ->)]; [rewrite Ho in Hi; destruct Hi|].
    right. left. split; [reflexivity|]. eapply far_cause; eauto.
  - right. right. left. eapply mincut_has_cause; eauto.
  - right. right. right. eapply cuts_have_cause; eauto.
Qed.
Print Assumptions C99_forbidden_has_a_cause_partial.

(* ---- examples: three routing layers (2, 4, 6) and vias with square cuts of 20 and pads of 60 x 30 ---- *)
Definition bx (w h : Z) : box := mkBox (mkPt (- w) (- h)) (mkPt w h).
Definition demo_via (c : Z) : rvia := mkRV c c (c - 1) (c + 1) (bx 30 15) (bx 15 30) (bx 10 10).
Definition same_cut (s : Z) : rcut := mkRC s false true false false false false false.
Definition any_cut (s : Z) : rcut := mkRC s false false false false false false false.
Definition no_layer : rlayer := mkRL false 0 false NoRule None (fun _ => []) (fun _ _ => None) [].
Definition demo_cut (v : rvia) (same : list rcut) (inter : option rcut) : rlayer :=
  mkRL false 0 false NoRule (Some v) (fun s => if s then same else [any_cut 50]) (fun s l => if s then None else inter) [].
Definition demo_metal (horz : bool) (mc : list rmin) : rlayer :=
  mkRL true 28 horz (PrlTable [0; 40] [0; 50] [[30; 30]; [30; 60]]) None (fun _ => []) (fun _ _ => None) mc.
Definition demo_tech (via3 via5 : rvia) (same : list rcut) (inter : option rcut) (mc : list rmin) : rtech :=
  mkRT 6 (fun l => if l =? 2 then demo_metal true [] else if l =? 3 then demo_cut via3 same inter
                   else if l =? 4 then demo_metal false mc else if l =? 5 then demo_cut via5 same None
                   else if l =? 6 then demo_metal true [] else no_layer).
Definition good_demo_via (c : Z) (v : rvia) : Prop :=
  rv_id v = c /\ rv_cutl v = c /\ rv_l1 v = c - 1 /\ rv_l2 v = c + 1 /\ centred (rv_b1 v) /\ centred (rv_b2 v) /\ centred (rv_bc v).
Lemma demo_good v3 v5 same inter mc : good_demo_via 3 v3 -> good_demo_via 5 v5 -> good_tech (demo_tech v3 v5 same inter mc).
Proof.
  intros (I3 & G3) (I5 & G5).
  assert (HV : forall c v, rl_via (rt_layer (demo_tech v3 v5 same inter mc) c) = Some v ->
    (c = 3 /\ v = v3) \/ (c = 5 /\ v = v5)).
  { intros c v. simpl. destruct (Z.eqb_spec c 2); [discriminate|]. destruct (Z.eqb_spec c 3); [intros E; injection E; auto|].
    destruct (Z.eqb_spec c 4); [discriminate|]. destruct (Z.eqb_spec c 5); [intros E; injection E; auto|].
    destruct (Z.eqb_spec c 6); discriminate. }
  constructor.
  - intros l Hl. simpl in *. assert (H : l = 0 \/ l = 1 \/ l = 2 \/ l = 3 \/ l = 4 \/ l = 5 \/ l = 6) by lia.
    destruct H as [-> |[-> |[-> |[-> |[-> |[-> | ->]]]]]]; simpl; intuition (try discriminate; lia).
  - intros c v H. destruct (HV c v H) as [[-> ->]|[-> ->]]; [exact G3|exact G5].
  - intros c c' v v' H H'. destruct (HV c v H) as [[-> ->]|[-> ->]], (HV c' v' H') as [[-> ->]|[-> ->]]; rewrite ?I3, ?I5; lia.
Qed.
Lemma demo_via_good c : good_demo_via c (demo_via c).
Proof. unfold good_demo_via, centred. vm_compute. intuition (try discriminate; try reflexivity). Qed.
Definition demo : rtech := demo_tech (demo_via 3) (demo_via 5) [same_cut 40] (Some (any_cut 25)) [mkMC 25 None FromAbove].
Lemma demo_is_good : good_tech demo.
Proof. apply demo_good; apply demo_via_good. Qed.
Lemma demo_table_ok : prl_table_ok [0; 40] [0; 50] [[30; 30]; [30; 60]].
Proof.
  unfold prl_table_ok, sorted_le, table_shape, table_monotone.
  split; [discriminate|]. split; [discriminate|].
  split; [intros i j Hi Hj; cbn [length] in Hj; destruct i as [|[|i]]; destruct j as [|[|j]]; cbn [nth]; lia|].
  split; [intros i j Hi Hj; cbn [length] in Hj; destruct i as [|[|i]]; destruct j as [|[|j]]; cbn [nth]; lia|].
  split; [split; [reflexivity|intros r [<- |[<- |[]]]; reflexivity]|].
  split; [|cbn; lia].
  intros i i' j j' Hi Hj. cbn [length] in Hi, Hj.
  destruct i as [|[|i]]; destruct i' as [|[|i']]; destruct j as [|[|j]]; destruct j' as [|[|j']];
    unfold cell; cbn [nth]; lia.
Qed.
(* the spacing two shapes of the example need *)
Lemma demo_value w r : w <= 40 -> table_value [0; 40] [0; 50] [[30; 30]; [30; 60]] w r 30.
Proof.
  intros Hw. destruct (Z_lt_le_dec 50 r) as [Hr|Hr].
  - exists O, 1%nat. split; [|split; [|reflexivity]].
    + split; [simpl; lia|]. split; [auto|]. intros j Hj Hl. simpl in Hl. assert (j = 1%nat) as -> by lia. simpl. lia.
    + split; [simpl; lia|]. split; [right; simpl; lia|]. intros j Hj Hl. simpl in Hl. lia.
  - exists O, O. split; [|split; [|reflexivity]]; (split; [simpl; lia|]; split; [auto|]);
      intros j Hj Hl; simpl in Hl; assert (j = 1%nat) as -> by lia; simpl; lia.
Qed.
(* cuts 20 wide, 40 apart: distances 1 ... 59 are forbidden in x, on the middle layer, both vias below *)
Example demo_cuts : leaves demo 4 true (demo_via 3) /\ cut_rule demo 3 (same_cut 40) /\
  cuts_conflict (same_cut 40) (rv_bc (demo_via 3)) (moved true 59 (rv_bc (demo_via 3))) /\
  ~ cuts_conflict (same_cut 40) (rv_bc (demo_via 3)) (moved true 60 (rv_bc (demo_via 3))) /\
  v2v_query demo 1 true true true 59 = Some true /\
  inter_rule demo 3 5 (any_cut 25) /\ once_between demo 3 5 /\
  cuts_conflict (any_cut 25) (rv_bc (demo_via 3)) (moved false 44 (rv_bc (demo_via 5))).
Proof.
  split; [unfold leaves; vm_compute; intuition discriminate|].
  split; [unfold cut_rule, plain_rule; vm_compute; auto 10|].
  split.
  { exists (mkPt 10 0), (mkPt 49 0). vm_compute. intuition discriminate. }
  split.
  { intros H. apply (conflict_within (same_cut 40) true 60 (bx 10 10) (bx 10 10)) in H; try (vm_compute; intuition discriminate).
  }
  split; [reflexivity|]. split.
  { right. split; [|left; reflexivity]. intros r' [H|H]; vm_compute in H; discriminate. }
  split.
  { intros same r r'. unfold given_between. destruct same; vm_compute; intuition congruence. }
  exists (mkPt 0 10), (mkPt 0 34). vm_compute. intuition discriminate.
Qed.
(* the pads on the middle layer, vias on different sides, x direction: 30 and 60 wide, 60 and 30 across *)
Example demo_pads : leaves demo 4 true (demo_via 3) /\ leaves demo 4 false (demo_via 5) /\
  sticks_out demo 4 true (pad (demo_via 3) true) /\ sticks_out demo 4 true (pad (demo_via 5) false) /\
  too_close demo 4 (pad (demo_via 3) true) (moved true 74 (pad (demo_via 5) false)) /\
  ~ too_close demo 4 (pad (demo_via 3) true) (moved true 75 (pad (demo_via 5) false)).
Proof.
  split; [unfold leaves; vm_compute; intuition discriminate|].
  split; [unfold leaves; vm_compute; intuition discriminate|].
  split; [reflexivity|]. split; [reflexivity|].
  pose proof demo_table_ok as OK.
  split.
  - exists 30. split.
    + exists [0; 40], [0; 50], [[30; 30]; [30; 60]]. split; [reflexivity|]. split; [exact OK|].
      apply demo_value. vm_compute. discriminate.
    + split.
      * intros ([x y] & Hp & Hq). unfold in_box in Hp, Hq. cbn in Hp, Hq. lia.
      * exists (mkPt 15 0), (mkPt 44 0). vm_compute. intuition discriminate.
  - intros (v & (rows & cols & vals & Er & OK' & TV) & _ & (p & q & Hp & Hq & L)).
    injection Er as <- <- <-. destruct TV as (i & j & Hi & Hj & ->).
    assert (cell [[30; 30]; [30; 60]] i j = 30) as E.
    { destruct Hi as (Hi1 & Hi2 & Hi3). assert (E1 : Z.max (box_width (pad (demo_via 3) true)) (box_width (moved true 75 (pad (demo_via 5) false))) = 30) by reflexivity.
      rewrite E1 in *. destruct i as [|[|i]]; simpl in *; [|destruct Hi2; lia|lia].
      destruct Hj as (Hj1 & _). unfold cell. destruct j as [|[|j]]; simpl in *; try reflexivity; lia. }
    rewrite E in L. unfold dist2 in L. apply abs_lt_sq in L; [|lia]. unfold in_box in Hp, Hq. cbn in Hp, Hq. lia.
Qed.
(* the via below reaches layer 2 with a pad 60 wide and 30 high, and layer 4 with one 30 wide and 60 high:
   at layer 2 the pads are too close for 61 ... 89 in x *)
Example demo_far : leaves demo 4 true (demo_via 3) /\
  too_close demo 2 (far_pad (demo_via 3) true) (moved true 89 (far_pad (demo_via 3) true)).
Proof.
  split; [unfold leaves; vm_compute; intuition discriminate|].
  exists 30. split.
  - exists [0; 40], [0; 50], [[30; 30]; [30; 60]]. split; [reflexivity|]. split; [exact demo_table_ok|].
    apply demo_value. vm_compute. discriminate.
  - split.
    + intros ([x y] & Hp & Hq). unfold in_box in Hp, Hq. cbn in Hp, Hq. lia.
    + exists (mkPt 30 0), (mkPt 59 0). vm_compute. intuition discriminate.
Qed.
(* pads at the far ends, y direction: they are too close, but the distance is not forbidden.  The cut
   rules are weak here, so that they do not hide it *)
Definition tall_via (c : Z) : rvia := mkRV c c (c - 1) (c + 1) (bx 14 40) (bx 14 30) (bx 10 10).
Theorem C97_far_pads_y_refuted : exists T z s v d,
  good_tech T /\ 0 <= z /\ layer_at z <= rt_top T /\ leaves T (layer_at z) s v /\ 0 < d /\
  too_close T (far_layer (layer_at z) s) (far_pad v s) (moved false d (far_pad v s)) /\
  v2v_query T z s s false d = Some false.
Proof.
  exists (demo_tech (tall_via 3) (tall_via 5) [same_cut 5] None []), 1, true, (tall_via 3), 105.
  split; [apply demo_good; unfold good_demo_via, centred; vm_compute; intuition (try discriminate; try reflexivity)|].
  split; [lia|]. split; [vm_compute; discriminate|].
  split; [unfold leaves; vm_compute; intuition discriminate|]. split; [lia|]. split; [|reflexivity].
  exists 30. split.
  - exists [0; 40], [0; 50], [[30; 30]; [30; 60]]. split; [reflexivity|]. split; [exact demo_table_ok|].
    apply demo_value. vm_compute. discriminate.
  - split.
    + intros ([x y] & Hp & Hq). unfold in_box in Hp, Hq. cbn in Hp, Hq. lia.
    + exists (mkPt 0 40), (mkPt 0 65). vm_compute. intuition discriminate.
Qed.
Print Assumptions C97_far_pads_y_refuted.
(* a rule between two cut layers that lets cuts be stacked is not looked at for any distance *)
Theorem C97_stack_rule_refuted : exists T z s1 s2 dirx v1 v2 r d,
  good_tech T /\ 0 <= z /\ layer_at z <= rt_top T /\ leaves T (layer_at z) s1 v1 /\ leaves T (layer_at z) s2 v2 /\ 0 < d /\
  s1 <> s2 /\ once_between T (rv_cutl v1) (rv_cutl v2) /\ inter_rule T (rv_cutl v1) (rv_cutl v2) r /\ 0 < rc_spc r /\
  cuts_conflict r (rv_bc v1) (moved dirx d (rv_bc v2)) /\
  v2v_query T z s1 s2 dirx d = Some false.
Proof.
  set (r := mkRC 25 false false false false false false true).
  exists (demo_tech (demo_via 3) (demo_via 5) [same_cut 5] (Some r) []), 1, true, false, false, (demo_via 3), (demo_via 5), r, 40.
  split; [apply demo_good; apply demo_via_good|].
  split; [lia|]. split; [vm_compute; discriminate|].
  split; [unfold leaves; vm_compute; intuition discriminate|].
  split; [unfold leaves; vm_compute; intuition discriminate|].
  split; [lia|]. split; [discriminate|].
  split.
  { intros same x y. unfold given_between. destruct same; vm_compute; intuition congruence. }
  split.
  { right. split; [|left; reflexivity]. intros r' [H|H]; vm_compute in H; discriminate. }
  split; [reflexivity|]. split; [|reflexivity].
  exists (mkPt 0 10), (mkPt 0 30). vm_compute. intuition discriminate.
Qed.
Print Assumptions C97_stack_rule_refuted.
(* minimum cuts: along x on a vertical layer the reach is measured along y *)
Theorem C97_wide_metal_other_axis_refuted : exists T z s1 s2 dirx v1 v2 c d,
  good_tech T /\ 0 <= z /\ layer_at z <= rt_top T /\ leaves T (layer_at z) s1 v1 /\ leaves T (layer_at z) s2 v2 /\ 0 < d /\
  In c (rl_mincut (rt_layer T (layer_at z))) /\
  wide_metal c (pad v1 s1) /\ from_side c s2 /\ cut_at_metal c dirx (pad v1 s1) (moved dirx d (rv_bc v2)) /\
  v2v_query T z s1 s2 dirx d = Some false.
Proof.
  set (v := mkRV 5 5 4 6 (bx 40 14) (bx 14 14) (bx 10 10)).
  exists (demo_tech (demo_via 3) v [same_cut 5] None [mkMC 25 None AnySide]), 1, false, false, true, v, v, (mkMC 25 None AnySide), 27.
  split; [apply demo_good; [apply demo_via_good|unfold good_demo_via, centred; vm_compute; intuition (try discriminate; try reflexivity)]|].
  split; [lia|]. split; [vm_compute; discriminate|].
  split; [unfold leaves; vm_compute; intuition discriminate|].
  split; [unfold leaves; vm_compute; intuition discriminate|].
  split; [lia|]. split; [left; reflexivity|].
  split; [split; [reflexivity|exact I]|]. split; [exact I|]. split; [vm_compute; auto|]. reflexivity.
Qed.
Print Assumptions C97_wide_metal_other_axis_refuted.
(* minimum cuts: a rule that looks at the first via's metal, but not at the second via's side, is given
   up although it applies the other way round *)
Theorem C97_wide_metal_skipped_refuted : exists T z s1 s2 v1 v2 c d,
  good_tech T /\ 0 <= z /\ layer_at z <= rt_top T /\ leaves T (layer_at z) s1 v1 /\ leaves T (layer_at z) s2 v2 /\ 0 < d /\
  In c (rl_mincut (rt_layer T (layer_at z))) /\
  let horz := rl_horz (rt_layer T (layer_at z)) in
  wide_metal c (pad v2 s2) /\ from_side c s1 /\ cut_at_metal c horz (pad v2 s2) (moved horz d (rv_bc v1)) /\
  v2v_query T z s1 s2 horz d = Some false.
Proof.
  exists (demo_tech (tall_via 3) (tall_via 5) [same_cut 5] None [mkMC 25 (Some (20, 30)) FromAbove]), 1, false, true,
    (tall_via 5), (tall_via 3), (mkMC 25 (Some (20, 30)) FromAbove), 45.
  split; [apply demo_good; unfold good_demo_via, centred; vm_compute; intuition (try discriminate; try reflexivity)|].
  split; [lia|]. split; [vm_compute; discriminate|].
  split; [unfold leaves; vm_compute; intuition discriminate|].
  split; [unfold leaves; vm_compute; intuition discriminate|].
  split; [lia|]. split; [left; reflexivity|]. cbv zeta.
  split; [split; reflexivity|]. split; [reflexivity|]. split; [vm_compute; auto|]. reflexivity.
Qed.
Print Assumptions C97_wide_metal_skipped_refuted.
(* in x direction the rule of the middle layer: metal below, 30 wide, cuts from above *)
Example demo_mincut : let T := demo_tech (tall_via 3) (tall_via 5) [same_cut 5] None [mkMC 25 (Some (20, 30)) FromAbove] in
  let c := mkMC 25 (Some (20, 30)) FromAbove in
  wide_metal c (pad (tall_via 3) true) /\ from_side c false /\
  cut_at_metal c false (pad (tall_via 3) true) (moved false 69 (rv_bc (tall_via 5))) /\
  v2v_query T 1 true false false 69 = Some true /\ v2v_query T 1 true false false 70 = Some false.
Proof. vm_compute. intuition. Qed.
(* turns on the middle layer: the via below sticks out (60 across x), the wire is 28 wide, the gap 30 *)
Example demo_turn : sticks_out demo 4 true (pad (demo_via 3) true) /\
  too_close demo 4 (pad (demo_via 3) true) (turned_wire demo 4 true 58 (-14) 200) /\
  turn_query demo 1 true true 58 = Some true /\ turn_query demo 1 true true 59 = Some false /\
  turn_query demo 1 true true 29 = Some false /\ turn_query demo 1 true true 30 = Some true.
Proof.
  split; [reflexivity|]. split.
  - exists 30. split.
    + exists [0; 40], [0; 50], [[30; 30]; [30; 60]]. split; [reflexivity|]. split; [exact demo_table_ok|].
      apply demo_value. vm_compute. discriminate.
    + split.
      * intros ([x y] & Hp & Hq). unfold in_box in Hp, Hq. cbn in Hp, Hq. lia.
      * exists (mkPt 15 0), (mkPt 44 0). vm_compute. intuition discriminate.
  - vm_compute. auto.
Qed.
(* two vias below, y direction, 70 apart: forbidden although nothing is too close.  The cuts need 25, the
   pads on both layers touch or are 70 - 28 apart with a spacing of 30 *)
Definition flat_via (c : Z) : rvia := mkRV c c (c - 1) (c + 1) (bx 30 14) (bx 30 14) (bx 10 10).
Theorem C99_no_cause_refuted : exists T z s v d,
  good_tech T /\ cut_rules_ok T /\ (forall l, prl_rule (rl_spc (rt_layer T l))) /\ 0 <= z /\ layer_at z <= rt_top T /\
  leaves T (layer_at z) s v /\ v2v_query T z s s false d = Some true /\
  rl_mincut (rt_layer T (layer_at z)) = [] /\
  (forall r, cut_rule T (rv_cutl v) r -> ~ cuts_near r (rv_bc v) (moved false d (rv_bc v))) /\
  (forall l, ~ pads_near T l (pad v s) (moved false d (pad v s))) /\
  (forall l, ~ pads_near T l (far_pad v s) (moved false d (far_pad v s))).
Proof.
  set (T := demo_tech (flat_via 3) (flat_via 5) [same_cut 5] None []).
  exists T, 1, true, (flat_via 3), 70.
  split; [apply demo_good; unfold good_demo_via, centred; vm_compute; intuition (try discriminate; try reflexivity)|].
  assert (HL : forall l, rt_layer T l = demo_metal true [] \/ rt_layer T l = demo_metal false [] \/
    (exists v, rt_layer T l = demo_cut v [same_cut 5] None) \/ rt_layer T l = no_layer).
  { intros l. unfold T, demo_tech. cbn [rt_layer]. destruct (l =? 2); [auto|]. destruct (l =? 3); [eauto|]. destruct (l =? 4); [auto|].
    destruct (l =? 5); [eauto|]. destruct (l =? 6); auto. }
  split.
  { split.
    - intros c same r. destruct (HL c) as [-> |[-> |[[v ->]| ->]]]; cbn; try tauto.
      destruct same; cbn; intros [<- | []]; cbn; lia.
    - intros c c' same r. destruct (HL c) as [-> |[-> |[[v ->]| ->]]]; cbn; try discriminate. destruct same; discriminate. }
  split.
  { intros l. destruct (HL l) as [-> |[-> |[[v ->]| ->]]]; cbn; unfold prl_rule; [right|right|left; reflexivity|left; reflexivity];
      do 3 eexists; (split; [reflexivity|exact demo_table_ok]). }
  split; [lia|]. split; [vm_compute; discriminate|].
  split; [unfold leaves; vm_compute; intuition discriminate|]. split; [reflexivity|]. split; [reflexivity|].
  split.
  { intros r (_ & [[Hin _]|(He & _)]) H; [|discriminate He]. cbn in Hin. destruct Hin as [<- | []].
    unfold cuts_near in H. cbn [rc_c2c same_cut] in H. destruct H as (p & q & Hp & Hq & L).
    unfold dist2 in L. apply abs_le_sq in L; [|cbn; lia]. cbn [rc_spc same_cut] in L. unfold in_box in Hp, Hq. cbn in Hp, Hq. lia. }
  assert (K : forall l, ~ pads_near T l (bx 30 14) (moved false 70 (bx 30 14))).
  { intros l (v & (rows & cols & vals & Er & OK & TV) & _ & (p & q & Hp & Hq & L)).
    assert (E : PrlTable rows cols vals = PrlTable [0; 40] [0; 50] [[30; 30]; [30; 60]]).
    { rewrite <- Er. destruct (HL l) as [E|[E|[[v' E]|E]]]; rewrite E in *; try reflexivity; discriminate Er. }
    injection E as -> -> ->.
    assert (E : v = 30).
    { destruct TV as (i & j & (I1 & I2 & I3) & (J1 & _) & ->). unfold cell.
      assert (E1 : Z.max (box_width (bx 30 14)) (box_width (moved false 70 (bx 30 14))) = 28) by reflexivity. rewrite E1 in *.
      destruct i as [|[|i]]; simpl in *; [|destruct I2; lia|lia]. destruct j as [|[|j]]; simpl in *; try reflexivity; lia. }
    subst v. unfold dist2 in L. apply abs_le_sq in L; [|lia]. unfold in_box in Hp, Hq. cbn in Hp, Hq. lia. }
  split; exact K.
Qed.
Print Assumptions C99_no_cause_refuted.
