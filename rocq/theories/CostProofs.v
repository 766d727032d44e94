From Coq Require Import Permutation.
From Verif Require Import Base Stl GeomModel GeomSpec GeomProofs GridModel GridSpec GridProofs GridProofs2 CostModel CostSpec.

(* ---- counting ---- *)
Lemma one_dec (b : bool) (P : Prop) : (b = true <-> P) -> one P (if b then 1 else 0).
Proof. intros H. destruct b; [left; split; [apply H; reflexivity | reflexivity]|]. right. split; [|reflexivity].
  intros HP. apply H in HP. discriminate. Qed.
Lemma one_iff P Q n : (P <-> Q) -> one P n -> one Q n.
Proof. unfold one. tauto. Qed.
Lemma tally_ext {A} (P Q : A -> Prop) l n : (forall x, In x l -> P x <-> Q x) -> tally P l n -> tally Q l n.
Proof.
  intros H T. induction T as [|x l n Hx T IH|x l n Hx T IH].
  - constructor.
  - apply tally_yes; [apply H; [left; reflexivity | assumption]|]. apply IH. intros y Hy. apply H. right; assumption.
  - apply tally_no; [rewrite <- H; [assumption | left; reflexivity]|]. apply IH. intros y Hy. apply H. right; assumption.
Qed.
Lemma tally_app {A} (P : A -> Prop) l1 n1 l2 n2 : tally P l1 n1 -> tally P l2 n2 -> tally P (l1 ++ l2) (n1 + n2).
Proof.
  intros T1 T2. induction T1 as [|x l n Hx T IH|x l n Hx T IH]; cbn [app].
  - replace (0 + n2) with n2 by lia. assumption.
  - replace (n + 1 + n2) with (n + n2 + 1) by lia. apply tally_yes; assumption.
  - apply tally_no; assumption.
Qed.
Lemma tally_nn {A} (P : A -> Prop) l n : tally P l n -> 0 <= n.
Proof. induction 1; lia. Qed.
Definition nsum {A} (f : A -> bool) (l : list A) : Z := fold_right (fun x s => (if f x then 1 else 0) + s) 0 l.
Lemma tally_nsum {A} (P : A -> Prop) (f : A -> bool) l : (forall x, In x l -> (f x = true <-> P x)) -> tally P l (nsum f l).
Proof.
  induction l as [|x l IH]; intros H; cbn; [constructor|].
  assert (IH' : tally P l (nsum f l)) by (apply IH; intros y Hy; apply H; right; assumption).
  pose proof (H x (or_introl eq_refl)) as Hx. destruct (f x) eqn:E.
  - change (fold_right _ 0 l) with (nsum f l). replace (1 + nsum f l) with (nsum f l + 1) by lia. apply tally_yes; [apply Hx; reflexivity | assumption].
  - change (fold_right _ 0 l) with (nsum f l). replace (0 + nsum f l) with (nsum f l) by lia. apply tally_no; [|assumption]. intros C. apply Hx in C. discriminate.
Qed.

(* ---- net effect ---- *)
Lemma net_flat {A} (F : A -> list gop) l q a : net (flat_map F l) q a = fold_right (fun x s => net (F x) q a + s) 0 l.
Proof. induction l as [|x l IH]; cbn; [reflexivity|]. rewrite net_app, IH. reflexivity. Qed.
Lemma net_zero ops q a : (forall o, In o ops -> hits o q a = false) -> net ops q a = 0.
Proof.
  induction ops as [|o ops IH]; intros H; cbn; [reflexivity|].
  rewrite (H o (or_introl eq_refl)), IH; [reflexivity|]. intros o' Ho'. apply H. right; assumption.
Qed.
Lemma net_single_in {A} (F : A -> list gop) l p0 q a : NoDup l -> In p0 l ->
  (forall p, In p l -> p <> p0 -> net (F p) q a = 0) -> net (flat_map F l) q a = net (F p0) q a.
Proof.
  induction l as [|x l IH]; intros ND Hin H; [contradiction|]. apply NoDup_cons_iff in ND as [Hx ND].
  cbn [flat_map]. rewrite net_app. destruct Hin as [-> | Hin].
  - replace (net (flat_map F l) q a) with 0; [lia|]. symmetry. rewrite net_flat.
    assert (G : forall y, In y l -> net (F y) q a = 0).
    { intros y Hy. apply H; [right; assumption|]. intros ->. contradiction. }
    clear - G. induction l as [|y l IH]; cbn; [reflexivity|]. rewrite (G y (or_introl eq_refl)), IH; [reflexivity|].
    intros z Hz. apply G. right; assumption.
  - rewrite IH; [|assumption|assumption|].
    + rewrite (H x); [lia | left; reflexivity|]. intros ->. contradiction.
    + intros p Hp. apply H. right; assumption.
Qed.
Lemma net_single_out {A} (F : A -> list gop) l q a : (forall p, In p l -> net (F p) q a = 0) -> net (flat_map F l) q a = 0.
Proof.
  induction l as [|x l IH]; intros H; [reflexivity|]. cbn [flat_map]. rewrite net_app, (H x), IH; [reflexivity| |left; reflexivity].
  intros p Hp. apply H. right; assumption.
Qed.

Lemma hits_false o q a : q <> op_point o \/ a <> op_attr o -> hits o q a = false.
Proof.
  intros H. destruct (hits o q a) eqn:E; [|reflexivity]. apply hits_true in E. tauto.
Qed.
Definition at_counter (a c : attr) (v : Z) : Z := if attr_eq_dec a c then v else 0.
Lemma mk_planar_net type p q a : kind_ok type ->
  net (mk_planar type p) q a = if midx_eq_dec q p then at_counter a (wire_counter type) (kind_sign type) else 0.
Proof.
  unfold kind_ok. intros K. assert (type = 0 \/ type = 1 \/ type = 2 \/ type = 3) as [-> | [-> | [-> | ->]]] by lia; cbn;
    unfold hits, at_counter; cbn; destruct (midx_eq_dec q p); try reflexivity; destruct (attr_eq_dec _ _); reflexivity.
Qed.
Lemma mk_via_net type p q a : kind_ok type ->
  net (mk_via type p) q a = if midx_eq_dec q p then at_counter a (via_counter type) (kind_sign type) else 0.
Proof.
  unfold kind_ok. intros K. assert (type = 0 \/ type = 1 \/ type = 2 \/ type = 3) as [-> | [-> | [-> | ->]]] by lia; cbn;
    unfold hits, at_counter; cbn; destruct (midx_eq_dec q p); try reflexivity; destruct (attr_eq_dec _ _); reflexivity.
Qed.

(* ---- windows ---- *)
Lemma zrange_NoDup a b : NoDup (zrange a b).
Proof.
  unfold zrange. apply FinFun.Injective_map_NoDup; [|apply seq_NoDup]. intros i j H. lia.
Qed.
Lemma window_in g b z p : In p (window g b z) <->
  let '(x1, y1, x2, y2) := getIdxBox g b in x1 <= mx p <= x2 /\ y1 <= my p <= y2 /\ mz p = z.
Proof.
  unfold window, getIdxBox. rewrite in_flat_map. split.
  - intros (i & Hi & H). apply in_map_iff in H as (j & <- & Hj). apply zrange_in in Hi. apply zrange_in in Hj.
    cbn [mx my mz]. auto.
  - intros (H1 & H2 & H3). exists (mx p). split; [apply zrange_in; assumption|]. apply in_map_iff. exists (my p).
    split; [destruct p; cbn in *; congruence|]. apply zrange_in; assumption.
Qed.
Lemma window_NoDup g b z : NoDup (window g b z).
Proof.
  unfold window, getIdxBox. generalize (Z.of_nat (lower_bound (gys g) (bbottom b))) (Z.of_nat (upper_bound (gys g) (btop b)) - 1).
  intros y1 y2. pose proof (zrange_NoDup (Z.of_nat (lower_bound (gxs g) (bleft b))) (Z.of_nat (upper_bound (gxs g) (bright b)) - 1)) as ND.
  induction (zrange _ _) as [|i l IH] in ND |- *; cbn; [constructor|].
  apply NoDup_cons_iff in ND as [Hi ND].
  assert (N1 : NoDup (map (fun j => mkMI i j z) (zrange y1 y2))).
  { apply FinFun.Injective_map_NoDup; [|apply zrange_NoDup]. intros j j' H. congruence. }
  specialize (IH ND).
  assert (D : forall p, In p (map (fun j => mkMI i j z) (zrange y1 y2)) ->
                        ~ In p (flat_map (fun i => map (fun j => mkMI i j z) (zrange y1 y2)) l)).
  { intros p Hp C. apply in_map_iff in Hp as (j & <- & _). apply in_flat_map in C as (i' & Hi' & C).
    apply in_map_iff in C as (j' & E & _). inversion E. subst. contradiction. }
  revert N1 D. generalize (map (fun j => mkMI i j z) (zrange y1 y2)) as m.
  induction m as [|p m IHm]; intros N1 D; cbn; [assumption|]. apply NoDup_cons_iff in N1 as [Hp N1]. constructor.
  - rewrite in_app_iff. intros [C | C]; [contradiction|]. apply (D p); [left; reflexivity | assumption].
  - apply IHm; [assumption|]. intros p' Hp'. apply D. right; assumption.
Qed.
Definition xy_valid (g : gg) (q : midx) : Prop := 0 <= mx q < nx g /\ 0 <= my q < ny g.
Lemma window_contains g b z q : grid_sorted g -> xy_valid g q ->
  (In (mkMI (mx q) (my q) z) (window g b z) <-> box_contains_pt b (getPoint g q) true = true).
Proof.
  intros (Sx & Sy & Sz) (Vx & Vy). rewrite window_in. unfold getIdxBox. cbn [mx my mz].
  pose proof (idx_interval (gxs g) (bleft b) (bright b) (mx q) Sx Vx) as Ix.
  pose proof (idx_interval (gys g) (bbottom b) (btop b) (my q) Sy Vy) as Iy.
  unfold box_contains_pt, getPoint. cbn [px py].
  set (u := nth (Z.to_nat (mx q)) (gxs g) 0) in *. set (w := nth (Z.to_nat (my q)) (gys g) 0) in *.
  split.
  - intros (A & B & _). apply Ix in A. apply Iy in B. lia.
  - intros H. split; [apply Ix; lia|]. split; [apply Iy; lia | reflexivity].
Qed.
Lemma window_valid g b z p : grid_sorted g -> 0 <= z < nz g -> In p (window g b z) -> valid g p.
Proof.
  intros (Sx & Sy & Sz) Hz H. apply window_in in H. unfold getIdxBox in H. destruct H as (A & B & C).
  pose proof (upper_bound_le (gxs g) (bright b)). pose proof (upper_bound_le (gys g) (btop b)).
  unfold valid, on_grid, nx, ny in *. subst. lia.
Qed.
Lemma window_net g b z F q a : grid_sorted g -> xy_valid g q ->
  (forall p, mz p = z -> mx p <> mx q \/ my p <> my q -> net (F p) q a = 0) ->
  net (flat_map F (window g b z)) q a =
  if box_contains_pt b (getPoint g q) true then net (F (mkMI (mx q) (my q) z)) q a else 0.
Proof.
  intros Hs Hv H. pose proof (window_contains g b z q Hs Hv) as W.
  assert (HH : forall p, In p (window g b z) -> p <> mkMI (mx q) (my q) z -> net (F p) q a = 0).
  { intros p Hp Hne. apply window_in in Hp. destruct (getIdxBox g b) as [[[? ?] ?] ?]. destruct Hp as (_ & _ & Hz).
    apply H; [assumption|]. destruct (Z.eq_dec (mx p) (mx q)), (Z.eq_dec (my p) (my q)); auto.
    exfalso. apply Hne. destruct p; cbn in *; congruence. }
  destruct (box_contains_pt b (getPoint g q) true).
  - apply net_single_in; [apply window_NoDup | apply W; reflexivity | exact HH].
  - apply net_single_out. intros p Hp. apply HH; [assumption|]. intros ->. apply W in Hp. discriminate.
Qed.

(* ---- geometry ---- *)
Lemma nearer_iff a b d : normalised a -> normalised b -> (nearer a b d <-> box2boxDistSquareNew a b < d * d).
Proof.
  intros Ha Hb. rewrite box2boxNew_eq. destruct (box2box_spec a b Ha Hb) as ((p & q & Hp & Hq & E) & M). split.
  - intros (p' & q' & Hp' & Hq' & H). specialize (M p' q' Hp' Hq'). lia.
  - intros H. exists p, q. split; [assumption|]. split; [assumption|]. lia.
Qed.
Lemma sq_lt x y d : 0 <= x -> 0 <= y -> 0 <= d -> x * x + y * y < d * d -> x < d /\ y < d.
Proof. intros. nia. Qed.
Lemma min_sum a1 a2 b1 b2 : 0 <= a1 -> 0 <= a2 -> 0 <= b1 -> 0 <= b2 ->
  Z.min (a2 * a2 + b2 * b2) (Z.min (a2 * a2 + b1 * b1) (Z.min (a1 * a1 + b1 * b1) (a1 * a1 + b2 * b2))) =
  Z.min a1 a2 * Z.min a1 a2 + Z.min b1 b2 * Z.min b1 b2.
Proof.
  intros. destruct (Z.le_gt_cases a1 a2), (Z.le_gt_cases b1 b2);
    rewrite ?(Z.min_l a1 a2), ?(Z.min_r a1 a2), ?(Z.min_l b1 b2), ?(Z.min_r b1 b2) by lia; nia.
Qed.
Lemma corner_exact h pt b : 0 <= h -> wide_enough b (2 * h) ->
  corner_dist h pt b = box2boxDistSquareNew b (wire_end h pt).
Proof.
  intros Hh [W1 W2]. unfold corner_dist, pt2boxDistSquare, box2boxDistSquareNew, box2boxDxNew, box2boxDyNew, wire_end.
  unfold bleft, bright, bbottom, btop in *. cbn [px py ll ur] in *.
  set (x := px pt). set (y := py pt). destruct b as [[l bo] [r t]]. cbn [px py ll ur] in *.
  set (a1 := Z.max (Z.max (l - (x + h)) (x + h - r)) 0). set (a2 := Z.max (Z.max (l - (x - h)) (x - h - r)) 0).
  set (b1 := Z.max (Z.max (bo - (y - h)) (y - h - t)) 0). set (b2 := Z.max (Z.max (bo - (y + h)) (y + h - t)) 0).
  rewrite (min_sum a1 a2 b1 b2) by (subst a1 a2 b1 b2; lia).
  replace (Z.max (Z.max l (x - h) - Z.min r (x + h)) 0) with (Z.min a1 a2) by (subst a1 a2; lia).
  replace (Z.max (Z.max bo (y - h) - Z.min t (y + h)) 0) with (Z.min b1 b2) by (subst b1 b2; lia). reflexivity.
Qed.
(* whatever the width, a corner is never nearer than the whole wire end *)
Lemma corner_sound h pt b : 0 <= h -> normalised b -> box2boxDistSquareNew b (wire_end h pt) <= corner_dist h pt b.
Proof.
  intros Hh Hn. rewrite box2boxNew_eq.
  assert (Hw : normalised (wire_end h pt)) by (unfold normalised, wire_end; cbn; lia).
  destruct (box2box_spec b (wire_end h pt) Hn Hw) as (_ & M).
  assert (C : forall c, in_box c (wire_end h pt) -> box2boxDistSquare b (wire_end h pt) <= pt2boxDistSquare c b).
  { intros c Hc. destruct (pt2box_spec c b Hn) as ((p & q & -> & Hq & <-) & _).
    specialize (M q c Hq Hc). replace (dist2 c q) with (dist2 q c) by (unfold dist2; ring). assumption. }
  unfold corner_dist. repeat apply Z.min_glb; apply C; unfold in_box, wire_end; cbn; lia.
Qed.
Lemma at_moved b pt : normalised b -> at_pt b pt = moved b pt.
Proof.
  intros [H1 H2]. unfold at_pt, box_transform, box_of_pts, moved, bleft, bright, bbottom, btop. cbn [pt_transform xo yo ori px py].
  rewrite box_set_minmax. rewrite !Z.min_l, !Z.max_r by lia. f_equal; f_equal; lia.
Qed.
Lemma good_norm b : good_box b -> normalised b.
Proof. unfold good_box, normalised, bleft, bright, bbottom, btop. lia. Qed.
Lemma good_solid b : good_box b -> solid b.
Proof. unfold good_box, solid, bleft, bright, bbottom, btop. lia. Qed.
Lemma moved_good b pt : good_box b -> good_box (moved b pt).
Proof. unfold good_box, moved, bleft, bright, bbottom, btop. cbn. lia. Qed.
Lemma moved_solid b pt : solid b -> solid (moved b pt).
Proof. unfold solid, moved, bleft, bright, bbottom, btop. cbn. lia. Qed.
Lemma solid_norm b : solid b -> normalised b.
Proof. unfold solid, normalised. lia. Qed.

(* ---- wires ---- *)
Lemma at_counter_mul a c s n : n = 0 \/ n = 1 -> at_counter a c (s * n) = if n =? 1 then at_counter a c s else 0.
Proof. intros [-> | ->]; unfold at_counter; cbn; destruct (attr_eq_dec a c); lia. Qed.
Lemma mod_planar_net E g type b z blk q : good_tech E -> grid_sorted g -> xy_valid g q -> kind_ok type -> good_box b ->
  exists n, (forall a, net (mod_planar E g type b z blk) q a = at_counter a (wire_counter type) (kind_sign type * n)) /\
    (wide_enough b (ce_width E (getLayerNum g z)) -> wire_near E g b z blk q n) /\
    (exists m, wire_near E g b z blk q m /\ 0 <= n <= m).
Proof.
  intros GT Hs Hv K HB. unfold mod_planar, wire_near. set (l := getLayerNum g z).
  pose proof (gt_width E GT l) as Wl. pose proof (gt_spc E GT l) as Sp.
  destruct (ce_spc E l) as [spc|] eqn:ES.
  2:{ exists 0. split; [intros a; unfold at_counter; cbn; destruct (attr_eq_dec _ _); lia|]. split; [intros _; reflexivity|].
      exists 0. split; [reflexivity | lia]. }
  destruct (Sp spc eq_refl) as (S0 & S1 & S2 & S3). clear Sp.
  fold (half_width E l). set (h := half_width E l).
  assert (Hh : 1 <= h) by (subst h; unfold half_width; apply Z.quot_le_lower_bound; lia).
  assert (Hh2 : 2 * h <= ce_width E l) by (subst h; unfold half_width; pose proof (Z.mul_quot_le (ce_width E l) 2 ltac:(lia) ltac:(lia)); lia).
  change (planar_dist E spc l b blk) with (wire_spacing E spc l b blk). set (d := wire_spacing E spc l b blk).
  assert (Hd : 0 <= d) by (subst d; unfold wire_spacing; destruct (blk && ce_obsmin E); [assumption | apply S1]).
  clearbody d.
  set (win := box_set _ _ _ _).
  set (n := if midx_eq_dec q (mkMI (mx q) (my q) z) then if corner_dist h (getPoint g q) b <? d * d then 1 else 0 else 0).
  assert (Hwin : corner_dist h (getPoint g q) b < d * d -> box_contains_pt win (getPoint g q) true = true).
  { intros H. pose proof (corner_sound h (getPoint g q) b ltac:(lia) (good_norm b HB)) as C.
    assert (D : box2boxDistSquareNew b (wire_end h (getPoint g q)) < d * d) by lia.
    unfold box2boxDistSquareNew in D. apply sq_lt in D; [|lia|lia|lia]. destruct D as [D1 D2].
    destruct HB as [B1 B2]. subst win. rewrite box_set_minmax.
    unfold box2boxDxNew, box2boxDyNew, box_contains_pt, wire_end, bleft, bright, bbottom, btop in *. cbn [px py ll ur] in *.
    set (x := px (getPoint g q)) in *. set (y := py (getPoint g q)) in *. lia. }
  exists n. split.
  - intros a. rewrite window_net; [|assumption|assumption|].
    + change (getPoint g (mkMI (mx q) (my q) z)) with (getPoint g q).
      unfold n. destruct (corner_dist h (getPoint g q) b <? d * d) eqn:EC.
      * rewrite Hwin by lia. rewrite mk_planar_net by assumption.
        destruct (midx_eq_dec _ _); unfold at_counter; destruct (attr_eq_dec _ _); lia.
      * destruct (box_contains_pt _ _ _); cbn; destruct (midx_eq_dec _ _); unfold at_counter; destruct (attr_eq_dec _ _); lia.
    + intros p Hp Hne. destruct (corner_dist h (getPoint g p) b <? d * d); [|reflexivity]. rewrite mk_planar_net by assumption.
      destruct (midx_eq_dec q p) as [->|]; [destruct Hne; congruence | reflexivity].
  - assert (Hw : normalised (wire_end h (getPoint g q))) by (unfold normalised, wire_end; cbn; lia).
    pose proof (nearer_iff b (wire_end h (getPoint g q)) d (good_norm b HB) Hw) as NI.
    destruct (Z.eq_dec (mz q) z) as [Ez|Ez].
    + assert (En : n = if corner_dist h (getPoint g q) b <? d * d then 1 else 0).
      { unfold n. destruct (midx_eq_dec _ _) as [|C]; [reflexivity|]. exfalso. apply C. destruct q; cbn in *; congruence. }
      split.
      * intros [W1 W2]. left. split; [assumption|]. rewrite En. apply one_dec.
        rewrite (corner_exact h (getPoint g q) b) by (try split; lia). rewrite NI. lia.
      * exists (if box2boxDistSquareNew b (wire_end h (getPoint g q)) <? d * d then 1 else 0). split.
        -- left. split; [assumption|]. apply one_dec. rewrite NI. lia.
        -- pose proof (corner_sound h (getPoint g q) b ltac:(lia) (good_norm b HB)). rewrite En.
           destruct (corner_dist h (getPoint g q) b <? d * d) eqn:E1; destruct (box2boxDistSquareNew b _ <? d * d) eqn:E2; lia.
    + assert (En : n = 0).
      { unfold n. destruct (midx_eq_dec _ _) as [C|]; [|reflexivity]. exfalso. apply Ez. rewrite C. reflexivity. }
      split; [intros _; right; auto|]. exists 0. split; [right; auto | lia].
Qed.
