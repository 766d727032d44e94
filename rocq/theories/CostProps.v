(* C89-C93: the cost a placed shape puts on the routing grid of a clip. *)
From Coq Require Import Permutation.
From Verif Require Import Base Stl GeomModel GeomSpec GeomProofs GridModel GridSpec GridProofs GridProofs2 TechModel
  CostModel CostSpec CostProofs CostProofs2 CostProofs3 CostProofs4.

Lemma xy_of_valid g p : valid g p -> xy_valid g p.
Proof. intros (A & B & _). split; assumption. Qed.
Lemma at_counter_same c v : at_counter c c v = v.
Proof. unfold at_counter. destruct (attr_eq_dec c c); [reflexivity | congruence]. Qed.
Lemma at_counter_other a c v : a <> c -> at_counter a c v = 0.
Proof. intros H. unfold at_counter. destruct (attr_eq_dec a c); [congruence | reflexivity]. Qed.

(* C89: a shape changes the wire counter of exactly the grid points of its layer at which the end of a
   default-width wire would be nearer to it than the required spacing, by one, and nothing else *)
Theorem C89_wire_cost E g type b z blk p :
  good_tech E -> grid_sorted g -> 0 <= z < nz g -> valid g p -> kind_ok type -> good_box b ->
  wide_enough b (ce_width E (getLayerNum g z)) ->
  let ops := mod_planar E g type b z blk in
  no_limit g ops ->
  exists n, wire_near E g b z blk p n /\
    read (grun g ops) p (wire_counter type) = read g p (wire_counter type) + kind_sign type * n /\
    (forall a, a <> wire_counter type -> read (grun g ops) p a = read g p a).
Proof.
  intros GT Hs Hz Hv K HB HW ops NL.
  destruct (mod_planar_net E g type b z blk p GT Hs (xy_of_valid g p Hv) K HB) as (n & N1 & N2 & _).
  pose proof (mod_planar_in E g type b z blk Hs Hz) as OI.
  exists n. split; [apply N2, HW|].
  assert (R : forall a, read (grun g ops) p a = read g p a + net ops p a) by (intros a; apply no_limit_net; assumption).
  split.
  - rewrite R. unfold ops. rewrite N1, at_counter_same. reflexivity.
  - intros a Ha. rewrite R. unfold ops. rewrite N1, at_counter_other by assumption. lia.
Qed.
Print Assumptions C89_wire_cost.
(* a shape narrower than a wire is never charged where it is far enough away *)
Theorem C89_no_false_cost E g type b z blk p :
  good_tech E -> grid_sorted g -> 0 <= z < nz g -> valid g p -> kind_ok type -> good_box b ->
  let ops := mod_planar E g type b z blk in
  no_limit g ops ->
  exists n m, wire_near E g b z blk p m /\ 0 <= n <= m /\
    read (grun g ops) p (wire_counter type) = read g p (wire_counter type) + kind_sign type * n.
Proof.
  intros GT Hs Hz Hv K HB ops NL.
  destruct (mod_planar_net E g type b z blk p GT Hs (xy_of_valid g p Hv) K HB) as (n & N1 & _ & m & M1 & M2).
  pose proof (mod_planar_in E g type b z blk Hs Hz) as OI.
  exists n, m. split; [assumption|]. split; [assumption|].
  rewrite (no_limit_net ops g p _ Hv OI NL). unfold ops. rewrite N1, at_counter_same. reflexivity.
Qed.
Print Assumptions C89_no_false_cost.

(* a technology to try the statements on *)
Definition demo_via : cvia :=
  mkCV (mkBox (mkPt (-15) (-10)) (mkPt 15 10)) (mkBox (mkPt (-10) (-15)) (mkPt 10 15))
       (mkBox (mkPt (-10) (-10)) (mkPt 10 10)) [mkBox (mkPt (-10) (-10)) (mkPt 10 10)].
Definition demo_tech (spc : Z) (sv : midx -> option cvia) (area : Z) : cenv :=
  mkCE (fun _ => 20) (fun l => l =? 4) (fun _ => Some (spc_plain spc)) (fun _ => spc)
       (fun l => if (l =? 3) || (l =? 5) then Some demo_via else None) sv
       (fun _ => [mkEol 25 30 5]) (fun _ => 800) 5
       (fun l => if l =? 3 then [mkCut 30 false false false (-1) 0 false area] else [])
       (fun l1 l2 => if (l1 =? 3) && (l2 =? 5) then Some (mkCut 25 true false true (-1) 0 false (-1)) else None)
       (fun z lo h => (z =? 1) && lo && h) false.
Lemma demo_via_good : good_via demo_via.
Proof.
  unfold good_via, good_box, solid, demo_via, bleft, bright, bbottom, btop; cbn.
  split; [lia|]. split; [lia|]. split; [lia|]. constructor; [unfold solid; cbn; lia | constructor].
Qed.
Lemma demo_tech_good spc sv area : 5 <= spc -> good_tech (demo_tech spc sv area).
Proof.
  intros H. constructor; cbn.
  - intros _. lia.
  - lia.
  - intros l f E. inversion E. subst f. unfold spc_plain. split; [lia|]. split; [intros; lia|]. split; [intros; lia|].
    intros c [<- | []]. cbn. split; [lia|]. intros; lia.
  - intros _. constructor; [unfold good_rule; cbn; lia | constructor].
  - intros l v. destruct (_ || _); intros E; inversion E. apply demo_via_good.
  - intros l. destruct (l =? 3); [|constructor]. constructor; [cbn; lia | constructor].
  - intros l1 l2 c. destruct (_ && _); intros E; inversion E. cbn. lia.
Qed.
Definition demo_clip : gg := mkGG [0; 40; 80; 120] [0; 40; 80] [2; 4; 6] [false; true; false] (fun _ => 0)
  (fun _ => false) (fun _ => false) (fun _ => false) (fun _ => false).
Lemma demo_clip_sorted : grid_sorted demo_clip.
Proof.
  unfold grid_sorted, sorted_lt, demo_clip; cbn [gxs gys gzs]. repeat split; intros i j Hij Hj; cbn [length] in Hj;
    destruct i as [|[|[|[|i]]]]; destruct j as [|[|[|[|j]]]]; cbn; lia.
Qed.
Lemma demo_clip_stack spc sv area : good_stack (demo_tech spc sv area) demo_clip.
Proof.
  split; [|split; [reflexivity | reflexivity]]. intros z Hz. unfold nz, demo_clip in Hz. cbn in Hz.
  assert (z = 0 \/ z = 1 \/ z = 2) as [-> | [-> | ->]] by lia; reflexivity.
Qed.

(* Refuted for narrower shapes: with a spacing below half a wire's width a thin shape running through
   the middle of the wire end is not seen, only the corners are measured *)
Theorem C89_narrow_refuted :
  exists E g b z p, good_tech E /\ grid_sorted g /\ valid g p /\ mz p = z /\ good_box b /\
    wire_near E g b z false p 1 /\
    read (grun g (mod_planar E g 1 b z false)) p ADrcX = read g p ADrcX.
Proof.
  exists (demo_tech 5 (fun _ => None) (-1)), demo_clip, (mkBox (mkPt (-200) 39) (mkPt 200 41)), 1, (mkMI 1 1 1).
  split; [apply demo_tech_good; lia|]. split; [apply demo_clip_sorted|].
  split; [unfold valid, on_grid; cbn; lia|]. split; [reflexivity|]. split; [unfold good_box; cbn; lia|]. split.
  - unfold wire_near. cbn [demo_tech ce_spc]. left. split; [reflexivity|]. left. split; [|reflexivity].
    exists (mkPt 40 40), (mkPt 40 40). split; [unfold in_box; vm_compute; intuition discriminate|]. split; [unfold in_box; vm_compute; intuition discriminate|]. vm_compute. reflexivity.
  - vm_compute. reflexivity.
Qed.
Print Assumptions C89_narrow_refuted.
Example C89_applies :
  let E := demo_tech 20 (fun _ => None) (-1) in let b := mkBox (mkPt (-10) 30) (mkPt 70 50) in
  good_tech E /\ good_box b /\ wide_enough b 20 /\ no_limit demo_clip (mod_planar E demo_clip 1 b 1 false) /\
  map (fun x => read (grun demo_clip (mod_planar E demo_clip 1 b 1 false)) x ADrcX)
      [mkMI 0 1 1; mkMI 2 1 1; mkMI 3 1 1; mkMI 1 2 1; mkMI 0 1 0] = [1; 1; 0; 0; 0].
Proof.
  cbn zeta. split; [apply demo_tech_good; lia|]. split; [unfold good_box; cbn; lia|]. split; [unfold wide_enough; cbn; lia|].
  split; [vm_compute; repeat split; intros; discriminate|]. vm_compute. reflexivity.
Qed.

(* C90: a shape changes the via counter of exactly the grid points whose via would be nearer to it
   than the required spacing, or whose via has it in one of its end-of-line regions, once per reason *)
Theorem C90_via_cost E g type b z upper ps blk p :
  good_tech E -> svia_good E -> good_stack E g -> grid_sorted g -> 0 <= z < nz g -> valid g p -> kind_ok type -> good_box b ->
  let ops := mod_via E g type b z upper ps blk in
  no_limit g ops ->
  exists n m, via_near E g b z upper ps blk p m /\ 0 <= n <= m /\ (ce_svia E p = None -> n = m) /\
    read (grun g ops) p (via_counter type) = read g p (via_counter type) + kind_sign type * n /\
    (forall a, a <> via_counter type -> read (grun g ops) p a = read g p a).
Proof.
  intros GT SG GS Hs Hz Hv K HB ops NL.
  destruct (mod_via_net E g type b z upper ps blk p GT SG Hs (xy_of_valid g p Hv) K HB) as (n & N1 & N2 & m & M1 & M2).
  pose proof (mod_via_in E g type b z upper ps blk GS Hs Hz) as OI.
  assert (R : forall a, read (grun g ops) p a = read g p a + net ops p a) by (intros a; apply no_limit_net; assumption).
  exists n. destruct (ce_svia E p) as [s|] eqn:ES.
  - exists m. split; [assumption|]. split; [assumption|]. split; [discriminate|]. split.
    + rewrite R. unfold ops. rewrite N1, at_counter_same. reflexivity.
    + intros a Ha. rewrite R. unfold ops. rewrite N1, at_counter_other by assumption. lia.
  - exists n. split; [auto|]. split; [lia|]. split; [reflexivity|]. split.
    + rewrite R. unfold ops. rewrite N1, at_counter_same. reflexivity.
    + intros a Ha. rewrite R. unfold ops. rewrite N1, at_counter_other by assumption. lia.
Qed.
Print Assumptions C90_via_cost.
(* Refuted at points with a special access via: the range of points examined is computed from the
   default via, so a larger special via that touches the shape can cost nothing *)
Definition big_via : cvia :=
  mkCV (mkBox (mkPt (-60) (-10)) (mkPt 60 10)) (mkBox (mkPt (-10) (-15)) (mkPt 10 15))
       (mkBox (mkPt (-10) (-10)) (mkPt 10 10)) [mkBox (mkPt (-10) (-10)) (mkPt 10 10)].
Theorem C90_special_via_refuted :
  exists E g b z p n, good_tech E /\ svia_good E /\ good_stack E g /\ grid_sorted g /\ valid g p /\ mz p = z /\ good_box b /\
    via_near E g b z true false false p n /\ 1 <= n /\
    read (grun g (mod_via E g 1 b z true false false)) p ADrcU = read g p ADrcU.
Proof.
  set (E := demo_tech 20 (fun q => if (mx q =? 1) && (my q =? 1) && (mz q =? 1) then Some big_via else None) (-1)).
  set (b := mkBox (mkPt 90 35) (mkPt 110 55)). set (p := mkMI 1 1 1).
  assert (GT : good_tech E) by (apply demo_tech_good; lia).
  assert (SG : svia_good E).
  { intros q s. cbn. destruct (_ && _); intros H; inversion H.
    unfold good_via, good_box, big_via, bleft, bright, bbottom, btop; cbn. split; [lia|]. split; [lia|]. split; [lia|].
    constructor; [unfold solid; cbn; lia | constructor]. }
  assert (Hv : xy_valid demo_clip p) by (unfold xy_valid; cbn; lia).
  assert (HB : good_box b) by (unfold good_box; cbn; lia).
  destruct (mod_via_net E demo_clip 1 b 1 true false false p GT SG demo_clip_sorted Hv ltac:(unfold kind_ok; lia) HB) as (n0 & _ & _ & m & M1 & _).
  exists E, demo_clip, b, 1, p, m. split; [assumption|]. split; [assumption|]. split; [apply demo_clip_stack|].
  split; [apply demo_clip_sorted|]. split; [unfold valid, on_grid; cbn; lia|]. split; [reflexivity|]. split; [assumption|].
  split; [assumption|]. split.
  - unfold via_near in M1. cbn [E demo_tech ce_spc ce_via layer_via getLayerNum] in M1.
    change (layer_via E (getLayerNum demo_clip 1) true) with (Some (cv_b1 demo_via)) in M1; cbn iota in M1.
    destruct M1 as [(_ & patch & n1 & n2 & P1 & P2 & P3 & ->) | (T & _)].
    + apply tally_nn in P3. destruct P2 as [(_ & ->) | (N & _)]; [lia|]. exfalso. apply N.
      exists (mkPt 95 40), (mkPt 95 40). split; [unfold in_box; vm_compute; intuition discriminate|]. split; [unfold in_box; vm_compute; intuition discriminate|].
      unfold via_spacing, spc_plain. cbn. lia.
    + exfalso. apply T. reflexivity.
  - vm_compute. reflexivity.
Qed.
Print Assumptions C90_special_via_refuted.
Example C90_applies :
  let E := demo_tech 20 (fun _ => None) (-1) in let b := mkBox (mkPt (-10) 30) (mkPt 70 50) in
  good_tech E /\ svia_good E /\ good_box b /\ no_limit demo_clip (mod_via E demo_clip 1 b 1 true true false) /\
  map (fun x => read (grun demo_clip (mod_via E demo_clip 1 b 1 true true false)) x ADrcU)
      [mkMI 0 1 1; mkMI 2 1 1; mkMI 3 1 1; mkMI 1 0 1; mkMI 0 1 0] = [2; 2; 0; 0; 0].
Proof.
  cbn zeta. split; [apply demo_tech_good; lia|]. split; [intros q s H; discriminate|]. split; [unfold good_box; cbn; lia|].
  split; [vm_compute; repeat split; intros; discriminate|]. vm_compute. reflexivity.
Qed.

(* C91: the end-of-line regions of a shape cost every wire and via that would enter them, once per
   region entered *)
Theorem C91_eol_cost E g type b z p :
  good_tech E -> svia_good E -> good_stack E g -> grid_sorted g -> 0 <= z < nz g -> valid g p -> kind_ok type -> solid b ->
  let ops := mod_eol E g type b z false in
  no_limit g ops ->
  exists w, wire_eol E g b z p w /\
    read (grun g ops) p (wire_counter type) = read g p (wire_counter type) + kind_sign type * w /\
    exists d u d' u', via_eol_hits E g b z false p d' /\ via_eol_hits E g b z true p u' /\
      0 <= d <= d' /\ 0 <= u <= u' /\ (ce_svia E p = None -> d = d' /\ u = u') /\
      read (grun g ops) p (via_counter type) = read g p (via_counter type) + kind_sign type * (d + u).
Proof.
  intros GT SG GS Hs Hz Hv K HB ops NL.
  destruct (mod_eol_net E g type b z p GT SG Hs (xy_of_valid g p Hv) K HB) as (w & d & u & N1 & N2 & N3 & d' & u' & N4 & N5 & N6 & N7).
  pose proof (mod_eol_in E g type b z false GS Hs Hz) as OI.
  assert (R : forall a, read (grun g ops) p a = read g p a + net ops p a) by (intros a; apply no_limit_net; assumption).
  assert (WV : wire_counter type <> via_counter type) by (unfold wire_counter, via_counter; destruct (type <=? 1); discriminate).
  exists w. split; [assumption|]. split.
  { rewrite R. unfold ops. rewrite N1, at_counter_same, at_counter_other by assumption. lia. }
  assert (RV : read (grun g ops) p (via_counter type) = read g p (via_counter type) + kind_sign type * (d + u)).
  { rewrite R. unfold ops. rewrite N1, at_counter_same, at_counter_other by auto. lia. }
  exists d, u. destruct (ce_svia E p) as [s|] eqn:ES.
  - exists d', u'. do 4 (split; [assumption|]). split; [discriminate | assumption].
  - destruct (N3 eq_refl) as [N8 N9]. exists d, u. split; [assumption|]. split; [assumption|]. split; [lia|]. split; [lia|].
    split; [auto | assumption].
Qed.
Print Assumptions C91_eol_cost.
Example C91_applies :
  let E := demo_tech 20 (fun _ => None) (-1) in let b := mkBox (mkPt (-10) 30) (mkPt 50 50) in
  solid b /\ length (all_regions E 4 b) = 2%nat /\ no_limit demo_clip (mod_eol E demo_clip 1 b 1 false) /\
  map (fun x => (read (grun demo_clip (mod_eol E demo_clip 1 b 1 false)) x ADrcX,
                 read (grun demo_clip (mod_eol E demo_clip 1 b 1 false)) x ADrcU))
      [mkMI 1 1 1; mkMI 2 1 1; mkMI 3 1 1; mkMI 2 1 0] = [(0, 1); (1, 1); (0, 0); (0, 1)].
Proof.
  cbn zeta. split; [unfold solid; cbn; lia|]. split; [reflexivity|].
  split; [vm_compute; repeat split; intros; discriminate|]. vm_compute. reflexivity.
Qed.

(* C92: a cut costs every via position once per cut of the default via that would violate a spacing
   rule of the layer, and every position of the neighbouring cut layers whose via has a cut violating
   the rule between the layers *)
Theorem C92_cut_cost E g type b z blk p :
  good_tech E -> grid_sorted g -> 0 <= z < nz g -> valid g p -> kind_ok type -> good_box b ->
  Forall (fun c => cu_area c = -1) (ce_cut E (getLayerNum g z + 1)) ->
  let ops := mod_cut E g type b z blk in
  no_limit g ops ->
  exists n, cut_hits E g b z blk p n /\
    read (grun g ops) p (via_counter type) = read g p (via_counter type) + kind_sign type * n /\
    (forall a, a <> via_counter type -> read (grun g ops) p a = read g p a).
Proof.
  intros GT Hs Hz Hv K HB HA ops NL.
  destruct (mod_cut_net E g type b z blk p GT Hs (xy_of_valid g p Hv) K HB) as (n & N1 & N2).
  pose proof (mod_cut_in E g type b z blk Hs Hz) as OI.
  assert (R : forall a, read (grun g ops) p a = read g p a + net ops p a) by (intros a; apply no_limit_net; assumption).
  exists n. split; [auto|]. split.
  - rewrite R. unfold ops. rewrite N1, at_counter_same. reflexivity.
  - intros a Ha. rewrite R. unfold ops. rewrite N1, at_counter_other by assumption. lia.
Qed.
Print Assumptions C92_cut_cost.
Theorem C92_inter_layer_cost E g type b z upper p :
  good_tech E -> good_stack E g -> grid_sorted g -> 0 <= z -> z + 1 < nz g -> valid g p -> kind_ok type -> good_box b ->
  let ops := mod_inter E g type b z upper in
  no_limit g ops ->
  exists n, inter_hits E g b z upper p n /\
    read (grun g ops) p (via_counter type) = read g p (via_counter type) + kind_sign type * n /\
    (forall a, a <> via_counter type -> read (grun g ops) p a = read g p a).
Proof.
  intros GT GS Hs Hz Hz1 Hv K HB ops NL.
  destruct (mod_inter_net E g type b z upper p GT Hs (xy_of_valid g p Hv) K HB) as (n & N1 & N2).
  pose proof (mod_inter_in E g type b z upper GS Hs Hz Hz1) as OI.
  assert (R : forall a, read (grun g ops) p a = read g p a + net ops p a) by (intros a; apply no_limit_net; assumption).
  exists n. split; [auto|]. split.
  - rewrite R. unfold ops. rewrite N1, at_counter_same. reflexivity.
  - intros a Ha. rewrite R. unfold ops. rewrite N1, at_counter_other by assumption. lia.
Qed.
Print Assumptions C92_inter_layer_cost.
(* Refuted for rules with an AREA: the accessor of the area returns a bool, so the rule is applied to
   cuts of any size *)
Theorem C92_area_rule_refuted :
  exists E g b z p, good_tech E /\ good_stack E g /\ grid_sorted g /\ valid g p /\ mz p = z /\ good_box b /\
    cut_hits E g b z false p 0 /\
    read (grun g (mod_cut E g 1 b z false)) p ADrcU = read g p ADrcU + 1.
Proof.
  exists (demo_tech 20 (fun _ => None) 1000000), demo_clip, (mkBox (mkPt 30 30) (mkPt 50 50)), 0, (mkMI 0 1 0).
  split; [apply demo_tech_good; lia|]. split; [apply demo_clip_stack|]. split; [apply demo_clip_sorted|].
  split; [unfold valid, on_grid; cbn; lia|]. split; [reflexivity|]. split; [unfold good_box; cbn; lia|]. split.
  - unfold cut_hits. cbn [demo_tech ce_via getLayerNum demo_clip gzs nth Z.to_nat Z.add Z.eqb Pos.eqb Pos.add Pos.succ orb].
    left. split; [reflexivity|]. cbn [demo_via cv_cuts]. apply tally_no; [|constructor].
    intros (c & [<- | []] & H). destruct H as (_ & _ & _ & H). cbn in H. destruct (H eq_refl) as (_ & _ & H2).
    specialize (H2 eq_refl ltac:(discriminate)). vm_compute in H2. apply H2. reflexivity.
  - vm_compute. reflexivity.
Qed.
Print Assumptions C92_area_rule_refuted.
Example C92_applies :
  let E := demo_tech 20 (fun _ => None) (-1) in let b := mkBox (mkPt 30 30) (mkPt 50 50) in
  good_box b /\ no_area E /\ no_limit demo_clip (mod_cut E demo_clip 1 b 0 false ++ mod_inter E demo_clip 1 b 0 true) /\
  map (fun x => read (grun demo_clip (mod_cut E demo_clip 1 b 0 false ++ mod_inter E demo_clip 1 b 0 true)) x ADrcU)
      [mkMI 0 1 0; mkMI 1 1 0; mkMI 3 1 0; mkMI 1 1 1; mkMI 0 1 1] = [1; 1; 0; 1; 0].
Proof.
  cbn zeta. split; [unfold good_box; cbn; lia|]. split.
  { intros l. cbn. destruct (l =? 3); [|constructor]. constructor; [reflexivity | constructor]. }
  split; [vm_compute; repeat split; intros; discriminate|]. vm_compute. reflexivity.
Qed.

(* C93: after any sequence of additions and removals the counters depend only on the figures present;
   when everything added has been removed every attribute of the grid is back to what it was *)
Theorem C93_history_independent E g h h' l p a :
  good_stack E g -> grid_sorted g -> valid g p ->
  (forall f, In (AddFig f) h \/ In (SubFig f) h \/ In (AddFig f) h' \/ In (SubFig f) h' -> good_fig E g f) ->
  live h l -> live h' l ->
  no_limit g (flat_map (hist_ops E g) h) -> no_limit g (flat_map (hist_ops E g) h') ->
  read (run_hist E g h) p a = read (run_hist E g h') p a.
Proof.
  intros GS Hs Hv HF L L' NL NL'. unfold run_hist.
  rewrite (no_limit_net _ g p a Hv), (no_limit_net _ g p a Hv); [| | assumption | | assumption].
  - rewrite (live_net E g p a h l L), (live_net E g p a h' l L'). reflexivity.
  - apply hist_in; auto. intros [f|f] He; apply HF; auto.
  - apply hist_in; auto. intros [f|f] He; apply HF; auto.
Qed.
Print Assumptions C93_history_independent.
Theorem C93_removal_restores E g h p a :
  good_stack E g -> grid_sorted g -> valid g p ->
  (forall f, In (AddFig f) h \/ In (SubFig f) h -> good_fig E g f) ->
  live h [] -> no_limit g (flat_map (hist_ops E g) h) ->
  read (run_hist E g h) p a = read g p a.
Proof.
  intros GS Hs Hv HF L NL.
  apply (C93_history_independent E g h [] [] p a GS Hs Hv); [|assumption|constructor|assumption|exact I].
  intros f [H | [H | [[] | []]]]; auto.
Qed.
Print Assumptions C93_removal_restores.
(* and the counters are the numbers of conflicts with the figures present *)
Theorem C93_counters_count_conflicts E g h l p :
  good_tech E -> svia_good E -> good_stack E g -> grid_sorted g -> valid g p -> ce_svia E p = None -> no_area E ->
  (forall f, In (AddFig f) h \/ In (SubFig f) h -> good_fig E g f /\ fig_wide E g f) ->
  live h l -> no_limit g (flat_map (hist_ops E g) h) ->
  exists w v, sums (fig_wire E g p) l w /\ sums (fig_via E g p) l v /\
    read (run_hist E g h) p ADrcX = read g p ADrcX + w /\ read (run_hist E g h) p ADrcU = read g p ADrcU + v /\
    (forall a, a <> ADrcX -> a <> ADrcU -> read (run_hist E g h) p a = read g p a).
Proof.
  intros GT SG GS Hs Hv NS NA HF L NL.
  assert (OI : ops_in g (flat_map (hist_ops E g) h)).
  { apply hist_in; auto. intros [f|f] He; apply (HF f); auto. }
  assert (R : forall a, read (run_hist E g h) p a = read g p a + total E g p a l).
  { intros a. unfold run_hist. rewrite (no_limit_net _ g p a Hv OI NL), (live_net E g p a h l L). reflexivity. }
  assert (HL : forall f, In f l -> good_fig E g f /\ fig_wide E g f) by (intros f Hf; apply HF; left; apply (live_figs h l L f Hf)).
  assert (T : exists w v, sums (fig_wire E g p) l w /\ sums (fig_via E g p) l v /\
            total E g p ADrcX l = w /\ total E g p ADrcU l = v /\ (forall a, a <> ADrcX -> a <> ADrcU -> total E g p a l = 0)).
  { clear - HL GT SG Hs Hv NS NA. induction l as [|f l IH].
    - exists 0, 0. split; [constructor|]. split; [constructor|]. split; [reflexivity|]. split; reflexivity.
    - destruct IH as (w & v & A & B & C & D & F); [intros f' Hf'; apply HL; right; assumption|].
      destruct (HL f (or_introl eq_refl)) as [GF WF].
      destruct (fig_net E g 1 f p GT SG Hs (xy_of_valid g p Hv) ltac:(unfold kind_ok; lia) GF) as (w0 & v0 & N1 & N2 & N3).
      exists (w0 + w), (v0 + v). split; [constructor; auto|]. split; [constructor; auto|].
      unfold total in *. cbn [fold_right]. rewrite !N1. unfold wire_counter, via_counter, kind_sign. cbn [Z.leb Z.compare Z.odd Pos.compare Pos.compare_cont].
      change (at_counter ADrcX ADrcX (1 * w0)) with (1 * w0). change (at_counter ADrcX ADrcU (1 * v0)) with 0.
      change (at_counter ADrcU ADrcX (1 * w0)) with 0. change (at_counter ADrcU ADrcU (1 * v0)) with (1 * v0).
      split; [rewrite C; lia|]. split; [rewrite D; lia|].
      intros a Ha1 Ha2. rewrite N1, (F a Ha1 Ha2). unfold wire_counter, via_counter. cbn [Z.leb Z.compare Pos.compare Pos.compare_cont].
      rewrite !at_counter_other by assumption. lia. }
  destruct T as (w & v & A & B & C & D & F). exists w, v. split; [assumption|]. split; [assumption|].
  split; [rewrite R, C; reflexivity|]. split; [rewrite R, D; reflexivity|]. intros a Ha1 Ha2. rewrite R, (F a Ha1 Ha2). lia.
Qed.
Print Assumptions C93_counters_count_conflicts.
Example C93_applies :
  let E := demo_tech 20 (fun _ => None) (-1) in
  let f1 := CWire (mkMI 0 1 1) (mkMI 2 1 1) (mkBox (mkPt (-10) 30) (mkPt 90 50)) in
  let f2 := CVia (mkMI 2 1 0) (mkMI 2 1 1) (mkPt 80 40) demo_via in
  let h := [AddFig f1; AddFig f2; SubFig f1] in
  live h [f2] /\ good_fig E demo_clip f1 /\ good_fig E demo_clip f2 /\ fig_wide E demo_clip f1 /\ fig_wide E demo_clip f2 /\
  no_limit demo_clip (flat_map (hist_ops E demo_clip) h) /\
  read (run_hist E demo_clip h) (mkMI 2 1 1) ADrcX = read (run_hist E demo_clip [AddFig f2]) (mkMI 2 1 1) ADrcX /\
  read (run_hist E demo_clip h) (mkMI 2 1 1) ADrcX = 1 /\ read (run_hist E demo_clip h) (mkMI 3 1 0) ADrcU = 4.
Proof.
  set (E := demo_tech _ _ _). set (f1 := CWire _ _ _). set (f2 := CVia _ _ _ _). cbn zeta. split.
  { apply (live_sub [AddFig f1; AddFig f2] [f2; f1] f1 [f2]); [|apply perm_swap]. apply (live_add [AddFig f1] [f1] f2). apply (live_add [] [] f1). constructor. }
  split; [split; [unfold valid, on_grid; cbn; lia|]; split; [unfold valid, on_grid; cbn; lia | unfold good_box; cbn; lia]|].
  split.
  { split; [unfold valid, on_grid; cbn; lia|]. split; [unfold valid, on_grid; cbn; lia|]. split; [reflexivity|].
    split; [apply demo_via_good|]. constructor; [unfold good_box; cbn; lia | constructor]. }
  split; [unfold fig_wide, wide_enough; cbn; lia|]. split; [unfold fig_wide, wide_enough; cbn; lia|].
  split; [vm_compute; repeat split; intros; discriminate|]. vm_compute. auto.
Qed.
