From Coq Require Import Permutation.
From Verif Require Import Base Stl GeomModel GeomSpec GeomProofs GridModel GridSpec GridProofs GridProofs2 CostModel CostSpec CostProofs CostProofs2.

Lemma at_counter_0 a c s : 0 = at_counter a c (s * 0).
Proof. unfold at_counter. destruct (attr_eq_dec _ _); lia. Qed.
Lemma at_counter_add a c s n m : at_counter a c (s * n) + at_counter a c (s * m) = at_counter a c (s * (n + m)).
Proof. unfold at_counter. destruct (attr_eq_dec _ _); lia. Qed.
Lemma half_ok E l : good_tech E -> 1 <= half_width E l /\ 2 * half_width E l <= ce_width E l.
Proof.
  intros GT. pose proof (gt_width E GT l) as W. unfold half_width.
  pose proof (Z.mul_quot_le (ce_width E l) 2 ltac:(lia) ltac:(lia)).
  split; [apply Z.quot_le_lower_bound; lia | lia].
Qed.

(* ---- end-of-line regions of a shape ---- *)
Lemma eol_planar_net E g type r z q a : good_tech E -> grid_sorted g -> xy_valid g q -> kind_ok type -> solid r ->
  net (eol_planar E g type r z) q a =
  if (mz q =? z) && box_overlaps r (wire_end (half_width E (getLayerNum g z)) (getPoint g q)) false
  then at_counter a (wire_counter type) (kind_sign type) else 0.
Proof.
  intros GT Hs Hv K [S1 S2]. unfold eol_planar. fold (half_width E (getLayerNum g z)).
  destruct (half_ok E (getLayerNum g z) GT) as [H1 _]. set (h := half_width E (getLayerNum g z)) in *. clearbody h.
  rewrite window_net; [|assumption|assumption|].
  - rewrite mk_planar_net by assumption. rewrite box_set_id by (bxc; lia).
    replace (box_contains_pt _ (getPoint g q) true) with (box_overlaps r (wire_end h (getPoint g q)) false).
    + destruct (midx_eq_dec q (mkMI (mx q) (my q) z)) as [Eq|Nq].
      * replace (mz q =? z) with true by (rewrite Eq; cbn; lia). cbn [andb]. reflexivity.
      * replace (mz q =? z) with false; [cbn [andb]; match goal with |- (if ?c then _ else _) = _ => destruct c; reflexivity end|].
        symmetry. apply Z.eqb_neq. intros <-. apply Nq. destruct q; reflexivity.
    + unfold box_overlaps, box_contains_pt, wire_end. bxc. set (x := px (getPoint g q)). set (y := py (getPoint g q)).
      apply eq_true_iff_eq. split; lia.
  - intros p Hp Hne. rewrite mk_planar_net by assumption. destruct (midx_eq_dec q p) as [->|]; [destruct Hne; congruence | reflexivity].
Qed.
Definition eol_via_f (E : cenv) (g : gg) (z : Z) (upper : bool) (vb : box) (q : midx) (r : box) : bool :=
  (if midx_eq_dec q (via_pt (mkMI (mx q) (my q) z) upper) then true else false) &&
  (box_overlaps r (moved vb (getPoint g q)) false &&
   match ce_svia E q with Some s => box_overlaps (moved (side_box s upper) (getPoint g q)) r false | None => true end).
Lemma eol_via_net E g type r z upper q a : good_tech E -> svia_good E -> grid_sorted g -> xy_valid g q -> kind_ok type -> solid r ->
  net (eol_via E g type r z upper) q a =
  match via_of E (getLayerNum g z) upper with
  | Some v => if eol_via_f E g z upper (side_box v upper) q r then at_counter a (via_counter type) (kind_sign type) else 0
  | None => 0
  end.
Proof.
  intros GT SG Hs Hv K [S1 S2]. unfold eol_via. set (l := getLayerNum g z). unfold via_of.
  destruct (ce_via E (if upper then l + 1 else l - 1)) as [v|] eqn:EV; [|reflexivity].
  pose proof (gt_via E GT _ v EV) as (V1 & V2 & _ & _). set (vb := side_box v upper).
  assert (VB : good_box vb) by (unfold vb, side_box; destruct upper; assumption).
  rewrite window_net; [|assumption|assumption|].
  - unfold eol_via_f. change (getPoint g (mkMI (mx q) (my q) z)) with (getPoint g q).
    rewrite box_set_id by (destruct VB; bxc; lia).
    replace (box_contains_pt _ (getPoint g q) true) with (box_overlaps r (moved vb (getPoint g q)) false).
    + destruct (midx_eq_dec q (via_pt (mkMI (mx q) (my q) z) upper)) as [Eq|Nq].
      * rewrite <- Eq. destruct (box_overlaps r _ false); cbn [andb]; [|reflexivity].
        assert (N : net (mk_via type q) q a = at_counter a (via_counter type) (kind_sign type)).
        { rewrite mk_via_net by assumption. destruct (midx_eq_dec q q); [reflexivity | congruence]. }
        destruct (ce_svia E q) as [s|] eqn:ES; [|exact N].
        apply SG in ES. destruct ES as (A1 & A2 & _).
        rewrite at_moved by (apply good_norm; unfold side_box; destruct upper; assumption).
        destruct (box_overlaps _ r false); [exact N | reflexivity].
      * cbn [andb]. destruct (box_overlaps r _ false); [|reflexivity].
        assert (N : net (mk_via type (via_pt (mkMI (mx q) (my q) z) upper)) q a = 0).
        { rewrite mk_via_net by assumption. destruct (midx_eq_dec _ _); [congruence | reflexivity]. }
        destruct (ce_svia E _) as [s|]; [|exact N]. destruct (box_overlaps _ r false); [exact N | reflexivity].
    + destruct VB as [B1 B2]. unfold box_overlaps, box_contains_pt, moved. bxc.
      set (x := px (getPoint g q)). set (y := py (getPoint g q)). apply eq_true_iff_eq. split; lia.
  - intros p Hp Hne.
    assert (N : net (mk_via type (via_pt p upper)) q a = 0).
    { rewrite mk_via_net by assumption. destruct (midx_eq_dec _ _) as [E0|]; [|reflexivity]. exfalso.
      unfold via_pt in E0. destruct Hne as [N|N]; apply N; rewrite E0; destruct upper; reflexivity. }
    destruct (ce_svia E _) as [s|]; [|exact N]. destruct (box_overlaps _ r false); [exact N | reflexivity].
Qed.
Lemma nsum_le {A} (f g : A -> bool) l : (forall x, In x l -> f x = true -> g x = true) -> nsum f l <= nsum g l.
Proof.
  induction l as [|x l IH]; intros H; cbn; [lia|]. change (fold_right _ 0 l) with (nsum f l) at 1.
  change (fold_right (fun (x0 : A) (s : Z) => (if g x0 then 1 else 0) + s) 0 l) with (nsum g l).
  assert (nsum f l <= nsum g l) by (apply IH; intros y Hy; apply H; right; assumption).
  pose proof (H x (or_introl eq_refl)) as Hx. destruct (f x); [rewrite Hx by reflexivity; lia|]. destruct (g x); lia.
Qed.
Lemma nsum_ext {A} (f g : A -> bool) l : (forall x, In x l -> f x = g x) -> nsum f l = nsum g l.
Proof.
  intros H. apply Z.le_antisymm; apply nsum_le; intros x Hx; rewrite (H x Hx); auto.
Qed.
Lemma nsum_false {A} l : nsum (fun _ : A => false) l = 0.
Proof. induction l as [|x l IH]; [reflexivity|]. unfold nsum in *. cbn [fold_right]. rewrite IH. reflexivity. Qed.

Lemma net_sum_two {A} (F G : A -> list gop) l q a :
  net (flat_map (fun x => F x ++ G x) l) q a = net (flat_map F l) q a + net (flat_map G l) q a.
Proof. induction l as [|x l IH]; cbn; [reflexivity|]. rewrite !net_app, IH. lia. Qed.

Lemma wire_eol_net E g type b z q : good_tech E -> grid_sorted g -> xy_valid g q -> kind_ok type -> solid b ->
  exists n, (forall a, net (flat_map (fun r => eol_planar E g type r z) (all_regions E (getLayerNum g z) b)) q a =
                       at_counter a (wire_counter type) (kind_sign type * n)) /\ wire_eol E g b z q n.
Proof.
  intros GT Hs Hv K HB. unfold wire_eol. set (l := getLayerNum g z). set (h := half_width E l).
  exists (nsum (fun r => (mz q =? z) && box_overlaps r (wire_end h (getPoint g q)) false) (all_regions E l b)). split.
  - intros a'. rewrite (net_sum_cond _ (fun r => (mz q =? z) && box_overlaps r (wire_end h (getPoint g q)) false)
                         (at_counter a' (wire_counter type) (kind_sign type))).
    + unfold at_counter. destruct (attr_eq_dec _ _); lia.
    + intros r Hr. apply eol_planar_net; auto. apply (all_regions_solid E l b r GT HB Hr).
  - destruct (Z.eq_dec (mz q) z) as [Ez|Ez].
    + left. split; [assumption|]. replace (mz q =? z) with true by lia. cbn [andb]. apply tally_nsum. intros r Hr.
      apply overlaps_intrudes; [apply (all_regions_solid E l b r GT HB Hr)|].
      destruct (half_ok E l GT). unfold solid, wire_end. cbn. lia.
    + right. split; [assumption|]. replace (mz q =? z) with false by lia. cbn [andb]. apply nsum_false.
Qed.
Lemma via_eol_hits_net E g type b z upper q : good_tech E -> svia_good E -> grid_sorted g -> xy_valid g q -> kind_ok type -> solid b ->
  exists n, (forall a, net (flat_map (fun r => eol_via E g type r z upper) (all_regions E (getLayerNum g z) b)) q a =
                       at_counter a (via_counter type) (kind_sign type * n)) /\
    (ce_svia E q = None -> via_eol_hits E g b z upper q n) /\
    (exists m, via_eol_hits E g b z upper q m /\ 0 <= n <= m).
Proof.
  intros GT SG Hs Hv K HB. unfold via_eol_hits, layer_via. set (l := getLayerNum g z).
  assert (NET : forall a, net (flat_map (fun r => eol_via E g type r z upper) (all_regions E l b)) q a =
     at_counter a (via_counter type) (kind_sign type *
       match via_of E l upper with Some v => nsum (eol_via_f E g z upper (side_box v upper) q) (all_regions E l b) | None => 0 end)).
  { intros a. destruct (via_of E l upper) as [v|] eqn:EV.
    - rewrite (net_sum_cond _ (eol_via_f E g z upper (side_box v upper) q) (at_counter a (via_counter type) (kind_sign type))).
      + unfold at_counter. destruct (attr_eq_dec _ _); lia.
      + intros r Hr. rewrite eol_via_net; auto; [|apply (all_regions_solid E l b r GT HB Hr)]. fold l. rewrite EV. reflexivity.
    - rewrite net_single_out; [apply at_counter_0|]. intros r Hr. rewrite eol_via_net; auto; [|apply (all_regions_solid E l b r GT HB Hr)].
      fold l. rewrite EV. reflexivity. }
  unfold via_of in NET. destruct (ce_via E (if upper then l + 1 else l - 1)) as [v|] eqn:EV.
  2:{ exists 0. split; [exact NET|]. split; [reflexivity|]. exists 0. split; [reflexivity | lia]. }
  fold (side_box v upper). set (vb := side_box v upper) in *.
  pose proof (gt_via E GT _ v EV) as (V1 & V2 & _ & _).
  assert (VB : good_box vb) by (unfold vb, side_box; destruct upper; assumption).
  set (tch := if midx_eq_dec q (via_pt (mkMI (mx q) (my q) z) upper) then true else false).
  assert (TT : tch = true <-> via_touches q z upper).
  { unfold tch. rewrite <- (via_pt_eq (mkMI (mx q) (my q) z) q z upper) by reflexivity.
    destruct (midx_eq_dec _ _); split; intros; congruence. }
  set (tb := moved (via_box E vb upper q) (getPoint g q)).
  assert (TB : solid tb).
  { apply moved_solid, good_solid. unfold via_box. destruct (ce_svia E q) as [s|] eqn:ES; [|assumption].
    apply SG in ES. destruct ES as (? & ? & _). destruct upper; assumption. }
  exists (nsum (eol_via_f E g z upper vb q) (all_regions E l b)). split; [exact NET|].
  assert (SPEC : forall m, m = nsum (fun r => tch && box_overlaps r tb false) (all_regions E l b) ->
     via_touches q z upper /\ tally (intrudes tb) (all_regions E l b) m \/ ~ via_touches q z upper /\ m = 0).
  { intros m ->. destruct tch.
    - left. split; [apply TT; reflexivity|]. cbn [andb]. apply tally_nsum. intros r Hr.
      apply overlaps_intrudes; [apply (all_regions_solid E l b r GT HB Hr) | exact TB].
    - right. split; [rewrite <- TT; congruence|]. cbn [andb]. apply nsum_false. }
  split.
  - intros NS. apply SPEC. apply nsum_ext. intros r _. unfold eol_via_f. fold tch. rewrite NS, andb_true_r.
    unfold tb, via_box. rewrite NS. reflexivity.
  - exists (nsum (fun r => tch && box_overlaps r tb false) (all_regions E l b)). split; [apply SPEC; reflexivity|].
    split; [apply nsum_pos|]. apply nsum_le. intros r _. unfold eol_via_f. fold tch. unfold tb, via_box.
    destruct tch; cbn [andb]; [|discriminate]. destruct (ce_svia E q) as [s|]; [|rewrite andb_true_r; auto].
    intros H. apply andb_true_iff in H as [_ H]. fold (side_box s upper).
    unfold box_overlaps in *. apply negb_true_iff in H. apply negb_true_iff. apply not_true_iff_false in H. apply not_true_iff_false.
    intros C. apply H. clear H. lia.
Qed.
Lemma mod_eol_net E g type b z q : good_tech E -> svia_good E -> grid_sorted g -> xy_valid g q -> kind_ok type -> solid b ->
  exists w d u, (forall a, net (mod_eol E g type b z false) q a =
      at_counter a (wire_counter type) (kind_sign type * w) + at_counter a (via_counter type) (kind_sign type * (d + u))) /\
    wire_eol E g b z q w /\
    (ce_svia E q = None -> via_eol_hits E g b z false q d /\ via_eol_hits E g b z true q u) /\
    (exists d' u', via_eol_hits E g b z false q d' /\ via_eol_hits E g b z true q u' /\ 0 <= d <= d' /\ 0 <= u <= u').
Proof.
  intros GT SG Hs Hv K HB.
  destruct (wire_eol_net E g type b z q GT Hs Hv K HB) as (w & W1 & W2).
  destruct (via_eol_hits_net E g type b z false q GT SG Hs Hv K HB) as (d & D1 & D2 & d' & D3 & D4).
  destruct (via_eol_hits_net E g type b z true q GT SG Hs Hv K HB) as (u & U1 & U2 & u' & U3 & U4).
  exists w, d, u. split.
  - intros a. rewrite mod_eol_regions by assumption. unfold eol_helper. rewrite !net_sum_two, W1, D1, U1.
    rewrite <- at_counter_add. lia.
  - split; [assumption|]. split; [intros NS; split; auto|]. exists d', u'. auto.
Qed.

(* ---- cuts ---- *)
Definition cut_cur (c : ccut) (b tb : box) : Z := if cu_c2c c then c2c_square b tb else box2boxDistSquareNew b tb.
Lemma cut_near_iff c b tb d : normalised b -> normalised tb -> (cut_near c b tb d <-> cut_cur c b tb < d * d).
Proof.
  intros. unfold cut_near, cut_cur. destruct (cu_c2c c); [|apply nearer_iff; assumption]. reflexivity.
Qed.
Lemma quot2_between l r : l <= r -> l <= Z.quot (l + r) 2 <= r.
Proof. intros. rewrite Z.quot_div by lia. destruct (Z.sgn_spec (l + r)) as [[? ->] | [[? ->] | [? ->]]]; cbn [Z.sgn];
  rewrite ?Z.mul_1_l, ?Z.mul_0_l; try rewrite Z.abs_eq by lia; try rewrite Z.abs_neq by lia; change (Z.abs 2) with 2; try lia.
Qed.
Lemma cut_cur_window c b cf cb pt D d : good_box b -> solid cf ->
  bleft cb <= bleft cf -> bright cf <= bright cb -> bbottom cb <= bbottom cf -> btop cf <= btop cb ->
  0 <= D -> D <= d -> cut_cur c b (moved cf pt) < D * D ->
  box_contains_pt (cut_window b cb d) pt true = true.
Proof.
  intros [B1 B2] [S1 S2] C1 C2 C3 C4 HD Hd H. unfold cut_window. rewrite box_set_id by (bxc; lia).
  unfold cut_cur in H. destruct (cu_c2c c).
  - unfold c2c_square in H.
    set (ux := px (centre b) - px (centre (moved cf pt))) in *. set (uy := py (centre b) - py (centre (moved cf pt))) in *.
    rewrite <- (Z.abs_square ux), <- (Z.abs_square uy) in H. apply sq_lt in H; [|lia|lia|assumption].
    subst ux uy. unfold centre, moved in H. bxc.
    pose proof (quot2_between (px (ll b)) (px (ur b)) ltac:(lia)). pose proof (quot2_between (py (ll b)) (py (ur b)) ltac:(lia)).
    pose proof (quot2_between (px (ll cf) + px pt) (px (ur cf) + px pt) ltac:(lia)).
    pose proof (quot2_between (py (ll cf) + py pt) (py (ur cf) + py pt) ltac:(lia)).
    unfold box_contains_pt. bxc. lia.
  - unfold box2boxDistSquareNew in H. apply sq_lt in H; [|lia|lia|assumption].
    unfold box2boxDxNew, box2boxDyNew, moved, box_contains_pt in *. bxc. lia.
Qed.
Lemma cut_bloat_ge rules blk : forall a, a <= fold_left (fun a c => let a := Z.max a (cu_spc c) in
                        if negb (cu_adj c =? -1) && blk then Z.max a (cu_within c) else a) rules a.
Proof. induction rules as [|c r IH]; intros a; cbn; [lia|]. etransitivity; [|apply IH]. destruct (_ && _); lia. Qed.
Lemma cut_bloat_in rules blk c : In c rules ->
  cu_spc c <= cut_bloat rules blk /\ (cu_adj c <> -1 -> blk = true -> cu_within c <= cut_bloat rules blk).
Proof.
  unfold cut_bloat. generalize 0. induction rules as [|c' r IH]; intros a H; [contradiction|]. cbn [fold_left].
  destruct H as [-> | H]; [|apply IH; assumption].
  pose proof (cut_bloat_ge r blk (let a0 := Z.max a (cu_spc c) in if negb (cu_adj c =? -1) && blk then Z.max a0 (cu_within c) else a0)) as G.
  cbn zeta in G. split.
  - etransitivity; [|apply G]. destruct (_ && _); lia.
  - intros N ->. etransitivity; [|apply G]. replace (negb (cu_adj c =? -1) && true) with true; [lia|].
    symmetry. rewrite andb_true_r. apply negb_true_iff. lia.
Qed.
Lemma cut_viol_iff c b tb blk : normalised b -> normalised tb -> cu_area c = -1 ->
  (cut_viol c b tb blk = true <-> cut_conflict c blk b tb).
Proof.
  intros Nb Nt Ha. unfold cut_viol, cut_conflict. fold (cut_cur c b tb).
  pose proof (fun d => cut_near_iff c b tb d Nb Nt) as NI. rewrite Ha. replace (-1 =? -1) with true by reflexivity. cbn [negb].
  destruct (cu_samenet c); [split; [discriminate | intros (C & _); discriminate]|].
  destruct (cu_layer c); [split; [discriminate | intros (_ & C & _); discriminate]|].
  destruct (Z.eq_dec (cu_adj c) (-1)) as [Ea|Ea].
  - rewrite Ea. replace (-1 =? -1) with true by reflexivity. cbn [negb]. rewrite (NI (cu_spc c)). unfold overlap_x, overlap_y, overlap, box2boxDxNew, box2boxDyNew.
    assert (EQ : Z.max (Z.min (bright b) (bright tb) - Z.max (bleft b) (bleft tb)) (Z.min (btop b) (btop tb) - Z.max (bbottom b) (bbottom tb)) =
            Z.max (- (Z.max (bleft b) (bleft tb) - Z.min (bright b) (bright tb))) (- (Z.max (bbottom b) (bbottom tb) - Z.min (btop b) (btop tb)))) by lia.
    rewrite EQ. set (m := Z.max (- _) _). clearbody m.
    destruct (cu_prlo c).
    + split.
      * intros H. apply andb_true_iff in H as [H1 H2]. split; [reflexivity|]. split; [reflexivity|]. split; [congruence|].
        intros _. split; [lia|]. split; [intros _; lia | discriminate].
      * intros (_ & _ & _ & H). destruct (H eq_refl) as (H1 & H2 & _). specialize (H2 eq_refl). apply andb_true_iff. split; [apply Z.gtb_lt; assumption | apply Z.ltb_lt; assumption].
    + split.
      * intros H. split; [reflexivity|]. split; [reflexivity|]. split; [congruence|]. intros _. split; [lia|].
        split; [discriminate | congruence].
      * intros (_ & _ & _ & H). destruct (H eq_refl) as (H1 & _). lia.
  - replace (cu_adj c =? -1) with false by lia. cbn [negb]. split.
    + intros H. split; [reflexivity|]. split; [reflexivity|]. split; [|congruence]. intros _. apply NI. destruct blk; lia.
    + intros (_ & _ & H & _). specialize (H Ea). apply NI in H. destruct blk; lia.
Qed.
Lemma cut_viol_near c b tb blk : cut_viol c b tb blk = true ->
  exists D, cut_cur c b tb < D * D /\ (D = cu_spc c \/ (cu_adj c <> -1 /\ blk = true /\ D = cu_within c)).
Proof.
  unfold cut_viol. fold (cut_cur c b tb). destruct (cu_samenet c); [discriminate|]. destruct (cu_layer c); [discriminate|].
  destruct (Z.eq_dec (cu_adj c) (-1)) as [Ea|Ea].
  - replace (cu_adj c =? -1) with true by lia. cbn [negb]. intros H. exists (cu_spc c). split; [|left; reflexivity].
    destruct (cu_prlo c); [lia|]. destruct (negb (cu_area c =? -1)); lia.
  - replace (cu_adj c =? -1) with false by lia. cbn [negb]. destruct blk; intros H.
    + exists (cu_within c). split; [lia | right; auto].
    + exists (cu_spc c). split; [lia | left; reflexivity].
Qed.
Lemma mod_cut_net E g type b z blk q : good_tech E -> grid_sorted g -> xy_valid g q -> kind_ok type -> good_box b ->
  exists n, (forall a, net (mod_cut E g type b z blk) q a = at_counter a (via_counter type) (kind_sign type * n)) /\
    (Forall (fun c => cu_area c = -1) (ce_cut E (getLayerNum g z + 1)) -> cut_hits E g b z blk q n).
Proof.
  intros GT Hs Hv K HB. unfold mod_cut, cut_hits. set (l := getLayerNum g z + 1).
  pose proof (gt_cut E GT l) as GC. set (rules := ce_cut E l) in *.
  destruct (ce_via E l) as [v|] eqn:EV.
  2:{ exists 0. split; [intros a; destruct rules; apply at_counter_0 | intros _; reflexivity]. }
  pose proof (gt_via E GT l v EV) as (_ & _ & V3 & V4). rewrite Forall_forall in V4.
  set (f := fun cf => existsb (fun c => cut_viol c b (moved cf (getPoint g q)) blk) rules).
  exists (if mz q =? z then nsum f (cv_cuts v) else 0). split.
  - intros a. transitivity (net (flat_map (fun p => flat_map (fun cf => if existsb (fun c => cut_viol c b (at_pt cf (getPoint g p)) blk) rules
                          then mk_via type p else []) (cv_cuts v)) (window g (cut_window b (cv_cutbb v) (cut_bloat rules blk)) z)) q a).
    { destruct rules; [|reflexivity]. cbn [existsb]. symmetry. apply net_single_out. intros p _. apply net_single_out. reflexivity. }
    rewrite window_net; [|assumption|assumption|].
    + change (getPoint g (mkMI (mx q) (my q) z)) with (getPoint g q).
      rewrite (net_sum_cond _ f (if midx_eq_dec q (mkMI (mx q) (my q) z) then at_counter a (via_counter type) (kind_sign type) else 0)).
      2:{ intros cf Hcf. rewrite at_moved by (apply solid_norm, (V4 cf Hcf)). fold (f cf). destruct (f cf); [apply mk_via_net; assumption | reflexivity]. }
      destruct (midx_eq_dec q (mkMI (mx q) (my q) z)) as [Eq|Nq].
      * replace (mz q =? z) with true by (rewrite Eq; cbn; lia).
        assert (NW : nsum f (cv_cuts v) <> 0 -> box_contains_pt (cut_window b (cv_cutbb v) (cut_bloat rules blk)) (getPoint g q) true = true).
        { intros NZ. apply nsum_some in NZ as (cf & Hcf & Hf). unfold f in Hf. apply existsb_exists in Hf as (c & Hc & Hv').
          apply cut_viol_near in Hv' as (D & HD & HD'). destruct (V4 cf Hcf) as (P0 & P1 & P2 & P3 & P4).
          rewrite Forall_forall in GC. destruct (GC c Hc) as [G1 G2]. destruct (cut_bloat_in rules blk c Hc) as [L1 L2].
          assert (DD : 0 <= D <= cut_bloat rules blk).
          { destruct HD' as [-> | (A1 & A2 & ->)]; [lia|]. specialize (L2 A1 A2). lia. }
          apply (cut_cur_window c b cf (cv_cutbb v) (getPoint g q) D); auto; lia. }
        destruct (Z.eq_dec (nsum f (cv_cuts v)) 0) as [Z0|Z0].
        -- rewrite Z0. destruct (box_contains_pt _ _ _); unfold at_counter; destruct (attr_eq_dec _ _); lia.
        -- rewrite (NW Z0). unfold at_counter. destruct (attr_eq_dec _ _); lia.
      * replace (mz q =? z) with false.
        -- destruct (box_contains_pt _ _ _); [rewrite Z.mul_0_l|]; apply at_counter_0.
        -- symmetry. apply Z.eqb_neq. intros <-. apply Nq. destruct q; reflexivity.
    + intros p Hp Hne. apply net_single_out. intros cf _. destruct (existsb _ rules); [|reflexivity].
      rewrite mk_via_net by assumption. destruct (midx_eq_dec q p) as [->|]; [destruct Hne; congruence | reflexivity].
  - intros HA. rewrite Forall_forall in HA. destruct (Z.eq_dec (mz q) z) as [Ez|Ez]; [left|right; split; [assumption | replace (mz q =? z) with false by lia; reflexivity]].
    split; [assumption|]. replace (mz q =? z) with true by lia. apply tally_nsum. intros cf Hcf. unfold f. rewrite existsb_exists.
    destruct (V4 cf Hcf) as (P0 & _).
    split; intros (c & Hc & H); exists c; (split; [assumption|]);
      apply (cut_viol_iff c b _ blk (good_norm b HB) (solid_norm _ (moved_solid _ _ P0)) (HA c Hc)); assumption.
Qed.
Lemma mod_inter_net E g type b z upper q : good_tech E -> grid_sorted g -> xy_valid g q -> kind_ok type -> good_box b ->
  exists n, (forall a, net (mod_inter E g type b z upper) q a = at_counter a (via_counter type) (kind_sign type * n)) /\
    inter_hits E g b z upper q n.
Proof.
  intros GT Hs Hv K HB. unfold mod_inter, inter_hits, inter_rule. set (l1 := getLayerNum g z + 1). set (l2 := if upper then l1 + 2 else l1 - 2).
  set (z2 := if upper then z + 1 else z - 1).
  destruct (ce_via E l2) as [v|] eqn:EV.
  2:{ exists 0. split; [intros a; apply at_counter_0 | reflexivity]. }
  pose proof (gt_via E GT l2 v EV) as (_ & _ & V3 & V4). rewrite Forall_forall in V4.
  assert (GI : forall c, (match ce_inter E l1 l2 with Some c => Some c | None => ce_inter E l2 l1 end) = Some c -> 0 <= cu_spc c).
  { intros c. destruct (ce_inter E l1 l2) eqn:E1; intros E2.
    - inversion E2; subst. apply (gt_inter E GT _ _ _ E1).
    - apply (gt_inter E GT _ _ _ E2). }
  destruct (match ce_inter E l1 l2 with Some c => Some c | None => ce_inter E l2 l1 end) as [c|].
  2:{ exists 0. split; [intros a; apply at_counter_0 | reflexivity]. }
  specialize (GI c eq_refl).
  set (e := existsb (fun cf => cut_cur c b (moved cf (getPoint g q)) <? cu_spc c * cu_spc c) (cv_cuts v)).
  exists (if (mz q =? z2) && e then 1 else 0). split.
  - intros a. rewrite window_net; [|assumption|assumption|].
    + change (getPoint g (mkMI (mx q) (my q) z)) with (getPoint g q).
      cbn zeta. replace (existsb (fun cf =>
          (if cu_c2c c then c2c_square b (at_pt cf (getPoint g q)) else box2boxDistSquareNew b (at_pt cf (getPoint g q))) <?
          cu_spc c * cu_spc c) (cv_cuts v)) with e.
      2:{ unfold e. assert (H : forall cf, In cf (cv_cuts v) -> moved cf (getPoint g q) = at_pt cf (getPoint g q)).
          { intros cf Hcf. symmetry. apply at_moved, solid_norm, (V4 cf Hcf). }
          clear - H. induction (cv_cuts v) as [|cf cs IH]; [reflexivity|]. cbn [existsb].
          rewrite <- (H cf (or_introl eq_refl)). unfold cut_cur at 1. f_equal. apply IH. intros x Hx. apply H. right; assumption. }
      assert (NW : e = true -> box_contains_pt (cut_window b (cv_cutbb v) (cu_spc c)) (getPoint g q) true = true).
      { intros He. unfold e in He. apply existsb_exists in He as (cf & Hcf & Hf). destruct (V4 cf Hcf) as (P0 & P1 & P2 & P3 & P4).
        apply (cut_cur_window c b cf (cv_cutbb v) (getPoint g q) (cu_spc c)); auto; lia. }
      cbn [mx my]. destruct e; [|rewrite andb_false_r; destruct (box_contains_pt _ _ _); apply at_counter_0].
      rewrite (NW eq_refl), andb_true_r, mk_via_net by assumption.
      destruct (midx_eq_dec q (mkMI (mx q) (my q) z2)) as [Eq|Nq].
      * replace (mz q =? z2) with true by (rewrite Eq; cbn; lia). unfold at_counter. destruct (attr_eq_dec _ _); lia.
      * replace (mz q =? z2) with false; [apply at_counter_0|]. symmetry. apply Z.eqb_neq. intros <-. apply Nq. destruct q; reflexivity.
    + intros p Hp Hne. match goal with |- context [if ?c then mk_via _ _ else []] => destruct c end; [|reflexivity].
      rewrite mk_via_net by assumption. destruct (midx_eq_dec _ _) as [E0|]; [|reflexivity].
      exfalso. destruct Hne as [N|N]; apply N; rewrite E0; reflexivity.
  - destruct (Z.eq_dec (mz q) z2) as [Ez|Ez].
    + left. split; [assumption|]. replace (mz q =? z2) with true by lia. cbn [andb]. apply one_dec. unfold e. rewrite existsb_exists.
      split; intros (cf & Hcf & H); exists cf; (split; [assumption|]); destruct (V4 cf Hcf) as (P0 & _).
      * apply (cut_near_iff c b _ _ (good_norm b HB) (solid_norm _ (moved_solid _ _ P0))). lia.
      * apply (cut_near_iff c b _ _ (good_norm b HB) (solid_norm _ (moved_solid _ _ P0))) in H. lia.
    + right. split; [assumption|]. replace (mz q =? z2) with false by lia. reflexivity.
Qed.

(* ---- vias forbidden along a wire ---- *)
Lemma via_forbidden_net E type bi ei q : kind_ok type ->
  exists n, (forall a, net (via_forbidden E type bi ei) q a = at_counter a (via_counter type) (kind_sign type * n)) /\
    forbidden_hits E bi ei q n.
Proof.
  intros K. unfold via_forbidden, forbidden_hits. set (horz := my bi =? my ei).
  set (lo := ce_forb E (mz bi) true horz). set (up := ce_forb E (mz bi) false horz).
  set (F := fun p : midx => _ ++ _).
  set (onb := if horz then (my q =? my bi) && ((mx bi <=? mx q) && (mx q <? mx ei)) else (mx q =? mx bi) && ((my bi <=? my q) && (my q <? my ei))).
  set (p0 := if horz then mkMI (mx q) (my bi) (mz bi) else mkMI (mx bi) (my q) (mz bi)).
  set (pts := if horz then _ else _).
  set (a1 := if onb && ((mz q =? mz bi - 1) && lo) then 1 else 0). set (a2 := if onb && ((mz q =? mz bi) && up) then 1 else 0).
  assert (HF : forall p a, mz p = mz bi -> net (F p) q a =
     at_counter a (via_counter type) (kind_sign type *
       ((if (mx q =? mx p) && (my q =? my p) && ((mz q =? mz bi - 1) && lo) then 1 else 0) +
        (if (mx q =? mx p) && (my q =? my p) && ((mz q =? mz bi) && up) then 1 else 0)))).
  { intros p a Hp. unfold F. rewrite net_app, <- at_counter_add. f_equal.
    - destruct lo; [|rewrite !andb_false_r; apply at_counter_0]. rewrite mk_via_net by assumption. rewrite andb_true_r.
      destruct (midx_eq_dec _ _) as [->|N]; cbn [mx my mz].
      + rewrite !Z.eqb_refl. replace (mz p - 1 =? mz bi - 1) with true by lia. cbn. unfold at_counter. destruct (attr_eq_dec _ _); lia.
      + replace (_ && _) with false; [apply at_counter_0|]. symmetry. apply not_true_iff_false. intros C. apply N.
        destruct q, p; cbn in *. f_equal; lia.
    - destruct up; [|rewrite !andb_false_r; apply at_counter_0]. rewrite mk_via_net by assumption. rewrite andb_true_r.
      destruct (midx_eq_dec _ _) as [->|N]; cbn [mx my mz].
      + rewrite !Z.eqb_refl. replace (mz p =? mz bi) with true by lia. cbn. unfold at_counter. destruct (attr_eq_dec _ _); lia.
      + replace (_ && _) with false; [apply at_counter_0|]. symmetry. apply not_true_iff_false. intros C. apply N.
        destruct q, p; cbn in *. f_equal; lia. }
  assert (ND : NoDup pts).
  { unfold pts. destruct horz; (apply FinFun.Injective_map_NoDup; [intros i j H; congruence | apply zrange_NoDup]). }
  assert (Hz : forall p, In p pts -> mz p = mz bi).
  { unfold pts. destruct horz; intros p Hp; apply in_map_iff in Hp as (i & <- & _); reflexivity. }
  assert (Hon : In p0 pts <-> (if horz then mx bi <= mx q < mx ei else my bi <= my q < my ei)).
  { unfold pts, p0. destruct horz; rewrite in_map_iff; split.
    - intros (i & Hi & H). apply zrange_in in H. inversion Hi. lia.
    - intros H. exists (mx q). split; [reflexivity | apply zrange_in; lia].
    - intros (i & Hi & H). apply zrange_in in H. inversion Hi. lia.
    - intros H. exists (my q). split; [reflexivity | apply zrange_in; lia]. }
  assert (Hother : forall p a, In p pts -> p <> p0 -> net (F p) q a = 0).
  { intros p a Hp Hne. rewrite (HF p a (Hz p Hp)).
    assert (NE : (mx q =? mx p) && (my q =? my p) = false).
    { apply not_true_iff_false. intros C. apply Hne. unfold pts in Hp. unfold p0.
      destruct horz; apply in_map_iff in Hp as (i & <- & _); cbn in *; f_equal; lia. }
    rewrite NE. cbn [andb]. symmetry. apply at_counter_0. }
  assert (Hin : forall x, onb && x = true -> In p0 pts).
  { intros x Hx. apply Hon. unfold onb in Hx. destruct horz; lia. }
  exists (a1 + a2). split.
  - intros a. destruct (in_dec midx_eq_dec p0 pts) as [I|NI].
    + rewrite (net_single_in F pts p0 q a ND I) by (intros; apply Hother; assumption).
      rewrite HF by (apply Hz; assumption). f_equal. f_equal.
      assert (EB : (mx q =? mx p0) && (my q =? my p0) = onb).
      { apply Hon in I. unfold onb, p0. destruct horz; cbn [mx my]; apply eq_true_iff_eq; split; lia. }
      rewrite EB. reflexivity.
    + rewrite net_single_out.
      * assert (onb = false) as ->.
        { apply not_true_iff_false. intros C. apply NI. apply (Hin true). rewrite C. reflexivity. }
        apply at_counter_0.
      * intros p Hp. apply Hother; [assumption|]. intros ->. contradiction.
  - exists a1, a2. split; [|split; [|reflexivity]].
    + unfold a1. apply one_dec. fold lo. unfold onb. destruct horz; rewrite !andb_true_iff;
        (split; intros H; [split; [lia | split; [lia | apply H]] | rewrite (proj2 (proj2 H)); lia]).
    + unfold a2. apply one_dec. fold up. unfold onb. destruct horz; rewrite !andb_true_iff;
        (split; intros H; [split; [lia | split; [lia | apply H]] | rewrite (proj2 (proj2 H)); lia]).
Qed.
