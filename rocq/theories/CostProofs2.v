From Coq Require Import Permutation.
From Verif Require Import Base Stl GeomModel GeomSpec GeomProofs GridModel GridSpec GridProofs GridProofs2 CostModel CostSpec CostProofs.

Ltac bxc := unfold bleft, bright, bbottom, btop in *; cbn [px py ll ur] in *.

(* ---- end-of-line regions ---- *)
Lemma box_set_id a b c d : a <= c -> b <= d -> box_set a b c d = mkBox (mkPt a b) (mkPt c d).
Proof. intros. rewrite box_set_minmax. rewrite !Z.min_l, !Z.max_r by lia. reflexivity. Qed.
Lemma regions_solid tb c r : solid tb -> good_rule c -> In r (eol_regions tb c) -> solid r.
Proof.
  intros [S1 S2] [G1 G2] H. unfold eol_regions in H. apply in_app_iff in H.
  destruct H as [H | H]; destruct (_ <? _); cbn in H; try contradiction;
    destruct H as [<- | [<- | []]]; unfold solid; bxc; lia.
Qed.
Lemma all_regions_solid E l tb r : good_tech E -> solid tb -> In r (all_regions E l tb) -> solid r.
Proof.
  intros GT S H. unfold all_regions in H. apply in_flat_map in H as (c & Hc & Hr).
  pose proof (gt_eol E GT l) as G. rewrite Forall_forall in G. apply (regions_solid tb c r S (G c Hc) Hr).
Qed.
Lemma flat_map_ext_in {A B} (f g : A -> list B) l : (forall x, In x l -> f x = g x) -> flat_map f l = flat_map g l.
Proof. induction l as [|x l IH]; intros H; cbn; [reflexivity|]. rewrite (H x), IH; auto; [|left; reflexivity]. intros y Hy. apply H. right; assumption. Qed.
Lemma flat_map_flat_map {A B C} (f : A -> list B) (g : B -> list C) l :
  flat_map g (flat_map f l) = flat_map (fun x => flat_map g (f x)) l.
Proof. induction l as [|x l IH]; cbn; [reflexivity|]. rewrite flat_map_app, IH. reflexivity. Qed.
(* the code's test boxes are the regions *)
Lemma four_regions {A} (F : box -> list A) tb c : solid tb -> good_rule c ->
  (if bright tb - bleft tb <? eo_width c then
     F (box_set (bleft tb - eo_within c) (btop tb) (bright tb + eo_within c) (btop tb + eo_space c)) ++
     F (box_set (bleft tb - eo_within c) (bbottom tb - eo_space c) (bright tb + eo_within c) (bbottom tb))
   else []) ++
  (if btop tb - bbottom tb <? eo_width c then
     F (box_set (bright tb) (bbottom tb - eo_within c) (bright tb + eo_space c) (btop tb + eo_within c)) ++
     F (box_set (bleft tb - eo_space c) (bbottom tb - eo_within c) (bleft tb) (btop tb + eo_within c))
   else []) = flat_map F (eol_regions tb c).
Proof.
  intros [S1 S2] [G1 G2]. unfold eol_regions. rewrite flat_map_app.
  f_equal; (destruct (_ <? _); [|reflexivity]); cbn [flat_map]; rewrite app_nil_r;
    rewrite !box_set_id by (bxc; lia); reflexivity.
Qed.
Lemma via_eol_regions E g type b tb z p : good_tech E -> solid tb ->
  via_eol E g type b tb z p = flat_map (fun r => via_eol_helper type b r p) (all_regions E (getLayerNum g z) tb).
Proof.
  intros GT S. unfold via_eol, all_regions. rewrite flat_map_flat_map. apply flat_map_ext_in. intros c Hc.
  pose proof (gt_eol E GT (getLayerNum g z)) as G. rewrite Forall_forall in G.
  apply (four_regions (fun r => via_eol_helper type b r p)); auto.
Qed.
Lemma mod_eol_regions E g type b z sk : good_tech E -> solid b ->
  mod_eol E g type b z sk = flat_map (fun r => eol_helper E g type r z sk) (all_regions E (getLayerNum g z) b).
Proof.
  intros GT S. unfold mod_eol, all_regions. rewrite flat_map_flat_map. apply flat_map_ext_in. intros c Hc.
  pose proof (gt_eol E GT (getLayerNum g z)) as G. rewrite Forall_forall in G.
  apply (four_regions (fun r => eol_helper E g type r z sk)); auto.
Qed.
Lemma net_sum_cond {A} (F : A -> list gop) (f : A -> bool) (k : Z) l q a :
  (forall x, In x l -> net (F x) q a = if f x then k else 0) -> net (flat_map F l) q a = k * nsum f l.
Proof.
  induction l as [|x l IH]; intros H; cbn; [lia|]. rewrite net_app, (H x (or_introl eq_refl)), IH.
  - change (fold_right _ 0 l) with (nsum f l). destruct (f x); lia.
  - intros y Hy. apply H. right; assumption.
Qed.
Lemma via_eol_net E g type b tb z p q a : good_tech E -> solid tb -> kind_ok type ->
  net (via_eol E g type b tb z p) q a =
  if midx_eq_dec q p then at_counter a (via_counter type) (kind_sign type *
      nsum (fun r => box_overlaps r b false) (all_regions E (getLayerNum g z) tb)) else 0.
Proof.
  intros GT S K. rewrite via_eol_regions by assumption.
  rewrite (net_sum_cond _ (fun r => box_overlaps r b false)
             (if midx_eq_dec q p then at_counter a (via_counter type) (kind_sign type) else 0)).
  - destruct (midx_eq_dec q p); [|lia]. unfold at_counter. destruct (attr_eq_dec _ _); lia.
  - intros r Hr. unfold via_eol_helper. destruct (box_overlaps r b false); [apply mk_via_net; assumption | reflexivity].
Qed.

(* ---- vias ---- *)
Lemma patch_length_ok E l : good_tech E -> is_patch_length E l (patch_length E l).
Proof.
  intros GT. pose proof (gt_width E GT l). pose proof (gt_manu E GT). unfold is_patch_length, patch_length.
  set (A := ce_minarea E l). set (w := ce_width E l) in *. set (m := ce_manu E) in *.
  assert (Hwm : 0 < w * m) by nia. set (k := - (- A / (w * m))).
  pose proof (Z.div_mod (- A) (w * m) ltac:(lia)) as D. pose proof (Z.mod_pos_bound (- A) (w * m) Hwm) as M.
  exists k. split; [reflexivity|]. split.
  - subst k. nia.
  - intros k' Hk'. subst k. destruct (Z.le_gt_cases (- (- A / (w * m))) k'); [assumption|]. exfalso.
    assert (- A / (w * m) <= - k' - 1) by lia. assert (w * m * (- A / (w * m)) <= w * m * (- k' - 1)) by nia. nia.
Qed.
Lemma via_prl_run E l b vb tb ps : via_prl E l b vb tb ps = run_length E l vb (patch_length E l) ps b tb.
Proof.
  unfold via_prl, run_length, patch_len, ext_y, ext_x, overlap_x, overlap_y, overlap, box2boxDxNew, box2boxDyNew.
  change (is_fat E l vb) with (is_fat E l vb).
  assert (F : is_fat E l vb = fat E l vb) by (unfold is_fat, fat; destruct (ce_horz E l); apply Z.gtb_ltb).
  rewrite F. destruct ps; cbn [negb]; [|lia].
  set (dx := Z.max (bleft b) (bleft tb) - Z.min (bright b) (bright tb)).
  set (dy := Z.max (bbottom b) (bbottom tb) - Z.min (btop b) (btop tb)).
  replace (Z.min (bright b) (bright tb) - Z.max (bleft b) (bleft tb)) with (- dx) by (subst dx; lia).
  replace (Z.min (btop b) (btop tb) - Z.max (bbottom b) (bbottom tb)) with (- dy) by (subst dy; lia).
  replace ((- dy >=? 0) && (Z.max (- dx) (- dy) =? - dy)) with ((- dx <=? - dy) && (0 <=? - dy)).
  2:{ clear. destruct (- dy >=? 0) eqn:E1, (Z.max (- dx) (- dy) =? - dy) eqn:E2, (- dx <=? - dy) eqn:E3, (0 <=? - dy) eqn:E4; cbn; lia. }
  destruct ((- dx <=? - dy) && (0 <=? - dy)) eqn:EB.
  - destruct (ce_horz E l), (fat E l vb); reflexivity.
  - replace ((- dx >=? 0) && (Z.max (- dx) (- dy) =? - dx)) with (0 <=? - dx).
    + destruct (0 <=? - dx); [|reflexivity]. destruct (ce_horz E l), (fat E l vb); reflexivity.
    + clear - EB. apply andb_false_iff in EB.
      destruct (- dx >=? 0) eqn:E1, (Z.max (- dx) (- dy) =? - dx) eqn:E2, (0 <=? - dx) eqn:E3; cbn; try reflexivity;
        destruct EB; lia.
Qed.
Lemma run_le E l b vb pt ps : good_box vb -> good_box b ->
  run_length E l vb (patch_length E l) ps b (moved vb pt) <=
  (if ps then len_mar E l vb else Z.min (box_length b) (len_mar E l vb)).
Proof.
  intros [V1 V2] [B1 B2]. unfold run_length, ext_y, ext_x, len_mar, overlap_x, overlap_y, overlap, moved, box_length.
  assert (F : is_fat E l vb = fat E l vb) by (unfold is_fat, fat; destruct (ce_horz E l); apply Z.gtb_ltb).
  rewrite F. bxc. destruct ps; cbn [negb].
  - destruct (_ && _); [destruct (ce_horz E l), (fat E l vb); cbn; lia|].
    destruct (0 <=? _) eqn:E0; [destruct (ce_horz E l), (fat E l vb); cbn; lia|].
    destruct (fat E l vb); lia.
  - destruct (fat E l vb); lia.
Qed.
Lemma fold_max_ge {A} (f : A -> bool) (v : A -> Z) l : forall a, a <= fold_left (fun a c => if f c then Z.max a (v c) else a) l a.
Proof. induction l as [|c l IH]; intros a; cbn; [lia|]. destruct (f c); [specialize (IH (Z.max a (v c))); lia | apply IH]. Qed.
Lemma fold_max_in {A} (f : A -> bool) (v : A -> Z) l : forall a c, In c l -> f c = true ->
  v c <= fold_left (fun a c => if f c then Z.max a (v c) else a) l a.
Proof.
  induction l as [|c' l IH]; intros a c Hin Hf; [contradiction|]. cbn. destruct Hin as [-> | Hin]; [|apply IH; assumption].
  rewrite Hf. pose proof (fold_max_ge f v l (Z.max a (v c))). lia.
Qed.
Lemma nsum_pos {A} (f : A -> bool) l : 0 <= nsum f l.
Proof. induction l as [|x l IH]; cbn; [lia|]. change (fold_right _ 0 l) with (nsum f l). destruct (f x); lia. Qed.
Lemma nsum_some {A} (f : A -> bool) l : nsum f l <> 0 -> exists x, In x l /\ f x = true.
Proof.
  induction l as [|x l IH]; cbn; [congruence|]. change (fold_right _ 0 l) with (nsum f l).
  destruct (f x) eqn:E; [exists x; auto|]. intros H. destruct IH as (y & Hy & Fy); [lia|]. exists y. auto.
Qed.
Lemma via_pt_eq p q z upper : mx p = mx q -> my p = my q -> mz p = z ->
  (q = via_pt p upper <-> via_touches q z upper).
Proof.
  intros E1 E2 E3. unfold via_pt, via_touches. destruct upper; split; intros H.
  - subst. reflexivity.
  - destruct p, q; cbn in *; congruence.
  - rewrite H. cbn. lia.
  - destruct p, q; cbn in *. f_equal; congruence.
Qed.
Lemma overlaps_intrudes a b : solid a -> solid b -> (box_overlaps a b false = true <-> intrudes b a).
Proof.
  intros Ha Hb. rewrite (overlaps_exc_spec a b Ha Hb). unfold intrudes. split; intros (x & y & H); exists x, y; tauto.
Qed.

Lemma mod_via_net E g type b z upper ps blk q : good_tech E -> svia_good E -> grid_sorted g -> xy_valid g q -> kind_ok type -> good_box b ->
  exists n, (forall a, net (mod_via E g type b z upper ps blk) q a = at_counter a (via_counter type) (kind_sign type * n)) /\
    (ce_svia E q = None -> via_near E g b z upper ps blk q n) /\
    (exists m, via_near E g b z upper ps blk q m /\ 0 <= n <= m).
Proof.
  intros GT SG Hs Hv K HB. unfold mod_via, via_near, layer_via, via_of. set (l := getLayerNum g z).
  assert (Z0 : forall a, 0 = at_counter a (via_counter type) (kind_sign type * 0)).
  { intros a. unfold at_counter. destruct (attr_eq_dec _ _); lia. }
  destruct (ce_via E (if upper then l + 1 else l - 1)) as [v|] eqn:EV.
  2:{ exists 0. split; [exact Z0|]. split; [reflexivity|]. exists 0. split; [reflexivity | lia]. }
  pose proof (gt_spc E GT l) as Sp. destruct (ce_spc E l) as [spc|].
  2:{ exists 0. split; [exact Z0|]. split; [reflexivity|]. exists 0. split; [reflexivity | lia]. }
  destruct (Sp spc eq_refl) as (S0 & S1 & S2 & S3). clear Sp.
  pose proof (gt_via E GT _ v EV) as (V1 & V2 & _ & _).
  fold (side_box v upper). set (vb := side_box v upper).
  assert (VB : good_box vb) by (unfold vb, side_box; destruct upper; assumption).
  set (d := via_bloat E spc l b vb ps blk). set (dx := Z.max d (bloat_eol_x E l vb)). set (dy := Z.max d (bloat_eol_y E l vb)).
  set (win := box_set _ _ _ _). set (pt := getPoint g q).
  set (tb0 := via_box E vb upper q). set (tb := moved tb0 pt).
  assert (T0 : good_box tb0).
  { unfold tb0, via_box. destruct (ce_svia E q) as [s|] eqn:ES; [|assumption]. apply SG in ES. destruct ES as (? & ? & _).
    destruct upper; assumption. }
  assert (TB : good_box tb) by (apply moved_good; assumption).
  set (r := run_length E l vb (patch_length E l) ps b tb).
  assert (F : is_fat E l vb = fat E l vb) by (unfold is_fat, fat; destruct (ce_horz E l); apply Z.gtb_ltb).
  assert (ER : forall x, via_req E spc l b vb blk x = via_spacing E spc l b vb blk x).
  { intros x. unfold via_req, via_spacing. rewrite F. reflexivity. }
  set (req := via_spacing E spc l b vb blk r).
  set (n1 := if box2boxDistSquareNew b tb <? req * req then 1 else 0).
  set (n2 := nsum (fun r => box_overlaps r b false) (all_regions E l tb)).
  assert (N1 : 0 <= n1 <= 1) by (unfold n1; destruct (_ <? _); lia).
  assert (N2 : 0 <= n2) by apply nsum_pos.
  assert (Hreq : 0 <= req) by (unfold req, via_spacing; destruct (_ && _); [assumption | apply S1]).
  set (inw := box_contains_pt win pt true).
  set (tch := if midx_eq_dec q (via_pt (mkMI (mx q) (my q) z) upper) then true else false).
  assert (TT : tch = true <-> via_touches q z upper).
  { unfold tch. rewrite <- (via_pt_eq (mkMI (mx q) (my q) z) q z upper) by reflexivity.
    destruct (midx_eq_dec _ _); split; intros; congruence. }
  exists (if inw && tch then n1 + n2 else 0). split.
  { intros a. rewrite window_net; [|assumption|assumption|].
    - fold pt. change (getPoint g (mkMI (mx q) (my q) z)) with pt. fold inw. destruct inw; cbn [andb]; [|apply Z0].
      unfold tch. destruct (midx_eq_dec q (via_pt (mkMI (mx q) (my q) z) upper)) as [Eq|Nq].
      + rewrite <- Eq. fold (via_box E vb upper q). change (match ce_svia E q with Some s => side_box s upper | None => vb end) with tb0.
        rewrite (at_moved tb0 pt) by (apply good_norm; assumption). fold tb.
        rewrite via_prl_run. fold r. rewrite ER. fold req. rewrite net_app, via_eol_net by (auto using good_solid).
        fold l n2. unfold n1. destruct (midx_eq_dec q q) as [_|C]; [|congruence].
        destruct (_ <? _); [rewrite mk_via_net by assumption|]; cbn [net];
          try (destruct (midx_eq_dec q q) as [_|C]; [|congruence]); unfold at_counter; destruct (attr_eq_dec _ _); lia.
      + rewrite net_app. rewrite via_eol_net; [|assumption| |assumption].
        * destruct (midx_eq_dec _ _) as [C|_]; [congruence|].
          match goal with |- context [if ?c then mk_via _ _ else []] => destruct c end; [rewrite mk_via_net by assumption; destruct (midx_eq_dec _ _) as [C|_]; [congruence|]|]; rewrite <- Z0; reflexivity.
        * assert (G : good_box (match ce_svia E (via_pt (mkMI (mx q) (my q) z) upper) with Some s => side_box s upper | None => vb end)).
          { destruct (ce_svia E _) as [s|] eqn:ES; [|assumption]. apply SG in ES. destruct ES as (? & ? & _).
            unfold side_box. destruct upper; assumption. }
          rewrite at_moved by (apply good_norm; assumption). apply good_solid, moved_good, G.
    - intros p Hp Hne. assert (Hq : q <> via_pt p upper).
      { intros E0. unfold via_pt in E0. destruct Hne as [N|N]; apply N; rewrite E0; destruct upper; reflexivity. }
      rewrite net_app. rewrite via_eol_net; [|assumption| |assumption].
      + destruct (midx_eq_dec q (via_pt p upper)) as [C|_]; [contradiction|].
        match goal with |- context [if ?c then mk_via _ _ else []] => destruct c end; [rewrite mk_via_net by assumption; destruct (midx_eq_dec q (via_pt p upper)) as [C|_]; [contradiction|]|]; reflexivity.
      + assert (G : good_box (match ce_svia E (via_pt p upper) with Some s => side_box s upper | None => vb end)).
        { destruct (ce_svia E _) as [s|] eqn:ES; [|assumption]. apply SG in ES. destruct ES as (? & ? & _).
          unfold side_box. destruct upper; assumption. }
        rewrite at_moved by (apply good_norm; assumption). apply good_solid, moved_good, G. }
  assert (SPEC : via_touches q z upper /\
    (exists patch m1 m2, is_patch_length E l patch /\
       one (nearer b tb (via_spacing E spc l b vb blk (run_length E l vb patch ps b tb))) m1 /\
       tally (intrudes b) (all_regions E l tb) m2 /\ n1 + n2 = m1 + m2) \/ ~ via_touches q z upper).
  { destruct tch; [left|right; rewrite <- TT; congruence]. split; [apply TT; reflexivity|].
    exists (patch_length E l), n1, n2. split; [apply patch_length_ok; assumption|]. split.
    - unfold n1. apply one_dec. fold r req. rewrite nearer_iff by (apply good_norm; assumption). lia.
    - split; [|reflexivity]. apply tally_nsum. intros x Hx.
      apply overlaps_intrudes; [|apply good_solid; assumption].
      apply (all_regions_solid E l tb x GT); [apply good_solid; assumption | assumption]. }
  split.
  - intros NS. destruct SPEC as [(T & SP) | T]; [|right; split; [assumption|]; destruct tch; [exfalso; apply T, TT; reflexivity | rewrite andb_false_r; reflexivity]].
    left. split; [assumption|]. destruct SP as (patch & m1 & m2 & P1 & P2 & P3 & P4). exists patch, m1, m2.
    split; [assumption|]. fold tb0 pt tb. split; [assumption|]. split; [assumption|]. rewrite <- P4.
    rewrite (proj2 TT T), andb_true_r.
    assert (E0 : tb0 = vb) by (unfold tb0, via_box; rewrite NS; reflexivity).
    assert (Hd : req <= d).
    { unfold d, via_bloat. rewrite ER. unfold req, via_spacing. destruct (_ && _); [lia|].
      apply S2. unfold r, tb. rewrite E0. apply run_le; assumption. }
    assert (Hx : d <= dx) by (unfold dx; lia). assert (Hy : d <= dy) by (unfold dy; lia).
    assert (NW : ~ (n1 = 0 /\ n2 = 0) -> inw = true).
    { intros NZ. unfold inw, win. destruct VB as [VB1 VB2]. destruct HB as [B1 B2].
      assert (D0 : 0 <= d) by lia.
      rewrite box_set_id by (bxc; lia). unfold box_contains_pt.
      destruct (Z.eq_dec n1 0) as [Z1|Z1].
      - assert (Z2 : n2 <> 0) by tauto. apply nsum_some in Z2 as (rg & Hrg & Ho). unfold all_regions in Hrg.
        apply in_flat_map in Hrg as (c & Hc & Hrg). pose proof (gt_eol E GT l) as G. rewrite Forall_forall in G. destruct (G c Hc) as [G1 G2].
        assert (Wd : eo_within c <= d).
        { destruct (S3 c Hc) as [W1 W2]. unfold d, via_bloat, via_req. destruct (_ && _); [assumption | apply W2]. }
        unfold tb in Hrg. rewrite E0 in Hrg. unfold eol_regions in Hrg. apply in_app_iff in Hrg.
        destruct Hrg as [Hrg | Hrg];
          (match type of Hrg with In _ (if ?c then _ else _) => destruct c eqn:EW end); cbn [In] in Hrg; try contradiction.
        + assert (SY : eo_space c <= dy).
          { unfold dy, bloat_eol_y. pose proof (fold_max_in (fun c => bright vb - bleft vb <? eo_width c) eo_space (ce_eol E l) 0 c Hc) as Q.
            cbn beta in Q. specialize (Q ltac:(unfold moved in EW; bxc; lia)). lia. }
          clear - Hrg Ho B1 B2 VB1 VB2 Wd SY G1 G2 Hx Hy D0. clearbody dx dy d.
          destruct Hrg as [<- | [<- | []]]; unfold box_overlaps, moved in Ho; bxc; lia.
        + assert (SX : eo_space c <= dx).
          { unfold dx, bloat_eol_x. pose proof (fold_max_in (fun c => btop vb - bbottom vb <? eo_width c) eo_space (ce_eol E l) 0 c Hc) as Q.
            cbn beta in Q. specialize (Q ltac:(unfold moved in EW; bxc; lia)). lia. }
          clear - Hrg Ho B1 B2 VB1 VB2 Wd SX G1 G2 Hx Hy D0. clearbody dx dy d.
          destruct Hrg as [<- | [<- | []]]; unfold box_overlaps, moved in Ho; bxc; lia.
      - assert (D : box2boxDistSquareNew b tb < req * req) by (unfold n1 in Z1; destruct (_ <? _) eqn:EQ; lia).
        unfold box2boxDistSquareNew in D. apply sq_lt in D; [|lia|lia|assumption]. destruct D as [D1 D2].
        unfold tb in D1, D2. rewrite E0 in D1, D2.
        clear - D1 D2 B1 B2 VB1 VB2 Hx Hy Hd. clearbody dx dy d req.
        unfold box2boxDxNew, box2boxDyNew, moved in *. bxc. lia. }
    destruct (Z.eq_dec n1 0) as [Z1|Z1]; [destruct (Z.eq_dec n2 0) as [Z2|Z2]|].
    + rewrite Z1, Z2. destruct inw; reflexivity.
    + rewrite NW; [reflexivity | tauto].
    + rewrite NW; [reflexivity | tauto].
  - exists (if tch then n1 + n2 else 0). split.
    + destruct SPEC as [(T & SP) | T].
      * left. split; [assumption|]. rewrite (proj2 TT T). exact SP.
      * right. split; [assumption|]. destruct tch; [exfalso; apply T, TT; reflexivity | reflexivity].
    + destruct inw, tch; cbn; lia.
Qed.
