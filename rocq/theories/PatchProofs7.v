(* Proofs about minimum-area patches: which of the two places is taken. *)
From Verif Require Import Base Stl GeomModel GridModel GridProofs2 PatchModel PatchSpec PatchProofs PatchProofs2 PatchProofs5.

Definition zs (f : Z -> Z) (l : list Z) : Z := fold_left (fun c i => c + f i) l 0.
Lemma fold_shift f l : forall c, fold_left (fun c i => c + f i) l c = c + zs f l.
Proof.
  unfold zs. induction l as [|a l IH]; intros c; cbn [fold_left]; [lia|]. rewrite IH, (IH (0 + f a)). lia.
Qed.
Lemma zs_cons f a l : zs f (a :: l) = f a + zs f l.
Proof. unfold zs at 1. cbn [fold_left]. rewrite fold_shift. lia. Qed.
Lemma zs_nonneg f l : (forall i, In i l -> 0 <= f i) -> 0 <= zs f l.
Proof.
  induction l as [|a l IH]; intros H; [unfold zs; cbn; lia|]. rewrite zs_cons.
  pose proof (H a (or_introl eq_refl)). specialize (IH (fun i I => H i (or_intror I))). lia.
Qed.
Lemma zs_zero f l : (forall i, In i l -> 0 <= f i) -> (zs f l = 0 <-> forall i, In i l -> f i = 0).
Proof.
  induction l as [|a l IH]; intros H; [split; [intros _ i []|reflexivity]|]. rewrite zs_cons.
  pose proof (H a (or_introl eq_refl)) as Ha. pose proof (zs_nonneg f l (fun i I => H i (or_intror I))) as Hl.
  destruct (IH (fun i I => H i (or_intror I))) as (I1 & I2).
  split; [intros Hz i [<-|I]; [lia|apply I1; [lia|exact I]]|intros Hz].
  rewrite (Hz a (or_introl eq_refl)), I2; [lia|intros i I; apply Hz; right; exact I].
Qed.
Lemma zs_irange f v b : (forall i, 0 <= i -> i < b -> f i <= v (i + 1) - v i) -> forall n a, 0 <= a -> b - a = Z.of_nat n ->
  zs f (irange a b) <= v b - v a.
Proof.
  intros H. induction n as [|n IH]; intros a Ha Hn.
  - unfold irange. replace (Z.to_nat (b - a)) with O by lia. unfold zs. cbn. replace b with a by lia. lia.
  - specialize (IH (a + 1) ltac:(lia) ltac:(lia)).
    assert (Er : irange a b = a :: irange (a + 1) b).
    { unfold irange. replace (Z.to_nat (b - a)) with (S n) by lia. replace (Z.to_nat (b - (a + 1))) with n by lia.
      cbn [seq map]. f_equal; [lia|]. rewrite <- seq_shift, map_map. apply map_ext. intros k. lia. }
    rewrite Er, zs_cons. specialize (H a ltac:(lia) ltac:(lia)). lia.
Qed.
Lemma irange_In a b i : In i (irange a b) <-> a <= i < b.
Proof.
  unfold irange. rewrite in_map_iff. split.
  - intros (k & <- & K). apply in_seq in K. lia.
  - intros H. exists (Z.to_nat (i - a)). rewrite in_seq. lia.
Qed.

Section C.
Variables (E : penv) (g : gg).
Hypotheses (GG : grid_ok g) (CF : costs_fit E g).

Lemma step_cost_range p d len : 0 < len ->
  0 <= step_cost E g p d len /\ (step_cost E g p d len = 0 <-> ~ charged E g p d) /\
  step_cost E g p d len <= len * (pe_drc E + pe_shape E + pe_marker E).
Proof.
  intros H. destruct CF as (C1 & C2 & C3 & _). unfold step_cost, charged.
  pose proof (Z.mul_nonneg_nonneg len _ (Z.lt_le_incl _ _ H) C1) as M1.
  pose proof (Z.mul_nonneg_nonneg len _ (Z.lt_le_incl _ _ H) C2) as M2.
  pose proof (Z.mul_nonneg_nonneg len _ (Z.lt_le_incl _ _ H) C3) as M3.
  assert (Z1 : len * pe_drc E = 0 <-> ~ 0 < pe_drc E) by nia.
  assert (Z2 : len * pe_shape E = 0 <-> ~ 0 < pe_shape E) by nia.
  assert (Z3 : len * pe_marker E = 0 <-> ~ 0 < pe_marker E) by nia.
  assert (D : len * (pe_drc E + pe_shape E + pe_marker E) = len * pe_drc E + len * pe_shape E + len * pe_marker E) by lia.
  rewrite D. set (a := len * pe_drc E) in *. set (b := len * pe_shape E) in *. set (c := len * pe_marker E) in *.
  destruct (hasDRCCost g p d), (hasShapeCost g p d), (hasMarkerCost g p d); (split; [lia|split; [|lia]]);
    (split; [intros Hz; intros [(Q & Q')|[(Q & Q')|(Q & Q')]]; try discriminate; lia
            |intros Hn; lia]).
Qed.

Lemma line_cost l lo hi (at_ : Z -> midx) d : l = gxs g \/ l = gys g ->
  let c := zs (fun i => step_cost E g (at_ i) d (edge_len l i)) (irange (Z.max 0 (Z.of_nat (lower_bound l lo) - 1)) (Z.of_nat (upper_bound l hi) - 1)) in
  0 <= c < int_max /\
  (c = 0 <-> forall i, 0 <= i -> i + 1 < Z.of_nat (length l) -> lo <= nth (Z.to_nat (i + 1)) l 0 <= hi -> ~ charged E g (at_ i) d).
Proof.
  intros Hl c.
  assert (Sl : sorted_lt l) by (destruct GG; destruct Hl as [-> | ->]; assumption).
  pose proof (upper_bound_le l hi) as UB.
  set (a := Z.max 0 (Z.of_nat (lower_bound l lo) - 1)) in *. set (b := Z.of_nat (upper_bound l hi) - 1) in *.
  assert (EL : forall i, 0 <= i -> i + 1 < Z.of_nat (length l) -> 0 < edge_len l i).
  { intros i H1 H2. unfold edge_len. assert (nth (Z.to_nat i) l 0 < nth (Z.to_nat (i + 1)) l 0) by (apply nth_mono; auto; lia). lia. }
  assert (IR : forall i, In i (irange a b) -> 0 <= i /\ i + 1 < Z.of_nat (length l)) by (intros i I; apply irange_In in I; unfold a, b in I; lia).
  assert (NN : forall i, In i (irange a b) -> 0 <= step_cost E g (at_ i) d (edge_len l i)).
  { intros i I. apply IR in I. apply step_cost_range. apply EL; lia. }
  split.
  - split; [apply zs_nonneg, NN|].
    assert (IM : 0 < int_max) by (unfold int_max; lia).
    destruct (Z_lt_le_dec a b) as [H|H].
    + set (W := pe_drc E + pe_shape E + pe_marker E).
      assert (Q : c <= nth (Z.to_nat b) l 0 * W - nth (Z.to_nat a) l 0 * W).
      { apply (zs_irange _ (fun i => nth (Z.to_nat i) l 0 * W) b) with (n := Z.to_nat (b - a)); [|unfold a; lia|lia].
        intros i H1 H2. destruct (step_cost_range (at_ i) d (edge_len l i)) as (_ & _ & B); [apply EL; unfold b in H2; lia|].
        fold W in B. unfold edge_len in *. lia. }
      destruct CF as (_ & _ & _ & F). specialize (F l (Z.to_nat a) (Z.to_nat b) Hl ltac:(unfold a, b in *; lia) ltac:(unfold b in *; lia)).
      fold W in F. nia.
    + unfold c, irange. replace (Z.to_nat (b - a)) with O by lia. unfold zs. cbn [seq map fold_left]. exact IM.
  - unfold c. rewrite (zs_zero _ _ NN). split.
    + intros H i H1 H2 H3. pose proof (idx_interval l lo hi (i + 1) Sl ltac:(lia)) as II. apply II in H3.
      apply (step_cost_range (at_ i) d (edge_len l i)); [apply EL; assumption|]. apply H, irange_In. unfold a, b. lia.
    + intros H i I. pose proof (IR i I) as (I1 & I2). apply (step_cost_range (at_ i) d (edge_len l i)); [apply EL; assumption|].
      apply H; auto. apply (idx_interval l lo hi (i + 1) Sl ltac:(lia)). apply irange_In in I. unfold a, b in I. lia.
Qed.

(* the cost of a place *)
Lemma place_cost p left gap P (w := pl_width (pe_layer E (mz p))) (horz := pl_horz (pe_layer E (mz p))) :
  P = pwire g p horz left (patch_length E gap w) w ->
  let c := patch_cost E g p horz left (patch_length E gap w) in
  (tip_inside E P p left -> 0 <= c < int_max /\ (c = 0 <-> clean_under E g P p left)) /\ (~ tip_inside E P p left -> c = int_max).
Proof.
  intros -> c. set (len := patch_length E gap w) in *.
  assert (T : patch_tip (pwire g p horz left len w) horz left = patch_end g p horz left len).
  { unfold patch_tip, patch_end, pwire. cbn [pa_origin pa_off]. destruct horz, left; unfold bleft, bright, bbottom, btop; cbn [ll ur px py]; f_equal; lia. }
  unfold tip_inside, clean_under. fold horz. rewrite T. cbn [pa_origin pwire].
  set (e := patch_end g p horz left len) in *. set (o := getPoint g p) in *.
  unfold c, patch_cost. fold e. fold o.
  assert (BC : box_contains_pt (pe_box E) e true = true <-> bleft (pe_box E) <= px e <= bright (pe_box E) /\ bbottom (pe_box E) <= py e <= btop (pe_box E)).
  { unfold box_contains_pt. rewrite !andb_true_iff, !Z.leb_le. lia. }
  destruct (box_contains_pt (pe_box E) e true); cbn [negb].
  - split; [intros _|intros H; exfalso; apply H, BC; reflexivity].
    unfold getIdxBox. unfold bleft, bright, bbottom, btop. cbn [ll ur px py]. cbv zeta.
    destruct horz; [apply (line_cost (gxs g) _ _ (fun i => mkMI i (my p) (mz p)))|apply (line_cost (gys g) _ _ (fun i => mkMI (mx p) i (mz p)))]; auto.
  - split; [intros H; apply BC in H; discriminate|reflexivity].
Qed.
End C.

(* the place taken for a stretch *)
Lemma stretch_choice E g st gap z : good_penv E -> grid_ok g -> costs_fit E g -> st <> [] -> (forall r, In r st -> mz r = z) ->
  exists p1 l1 P1 p2 l2 P2 p l P, first_place E st p1 l1 /\ patch_at E g gap p1 l1 P1 /\
    last_place E st p2 l2 /\ patch_at E g gap p2 l2 P2 /\ stretch_patch E g st gap = [P] /\
    ((p = p1 /\ l = l1 /\ P = P1) \/ (p = p2 /\ l = l2 /\ P = P2)) /\
    (tip_inside E P1 p1 l1 \/ tip_inside E P2 p2 l2 -> tip_inside E P p l) /\
    ((tip_inside E P1 p1 l1 /\ clean_under E g P1 p1 l1) \/ (tip_inside E P2 p2 l2 /\ clean_under E g P2 p2 l2) ->
     clean_under E g P p l).
Proof.
  intros GE GG CF N Z. destruct (stretch_patch_places E g st gap z N Z) as (p & lp & q & lq & F & L & Zp & Zq & Eq & _).
  pose proof (GM E GE) as Gm. pose proof (fun z => GW E GE z) as Gw.
  set (P1 := pwire g p (pl_horz (pe_layer E (mz p))) lp (patch_length E gap (pl_width (pe_layer E (mz p)))) (pl_width (pe_layer E (mz p)))).
  set (P2 := pwire g q (pl_horz (pe_layer E (mz q))) lq (patch_length E gap (pl_width (pe_layer E (mz q)))) (pl_width (pe_layer E (mz q)))).
  pose proof (place_cost E g GG CF p lp gap P1 eq_refl) as (A1 & A2).
  pose proof (place_cost E g GG CF q lq gap P2 eq_refl) as (B1 & B2).
  assert (DA : tip_inside E P1 p lp \/ ~ tip_inside E P1 p lp) by (unfold tip_inside; lia).
  assert (DB : tip_inside E P2 q lq \/ ~ tip_inside E P2 q lq) by (unfold tip_inside; lia).
  rewrite Zp in A1, A2. rewrite Zq in B1, B2.
  unfold add_patch in Eq. rewrite Zp in Eq.
  destruct (Z.leb_spec (patch_cost E g p (pl_horz (pe_layer E z)) lp (patch_length E gap (pl_width (pe_layer E z))))
                       (patch_cost E g q (pl_horz (pe_layer E z)) lq (patch_length E gap (pl_width (pe_layer E z))))) as [C|C].
  - exists p, lp, P1, q, lq, P2, p, lp, P1.
    split; [exact F|]. split; [apply pwire_at; auto|]. split; [exact L|]. split; [apply pwire_at; auto|].
    split; [rewrite Eq; unfold P1; rewrite Zp; reflexivity|]. split; [left; auto|].
    destruct DA as [DA|DA], DB as [DB|DB]; try specialize (A1 DA); try specialize (A2 DA); try specialize (B1 DB); try specialize (B2 DB); try (split; tauto).
    + split; [tauto|]. intros [(_ & H)|(_ & H)]; [exact H|]. apply A1. apply B1 in H. lia.
    + exfalso. lia.
  - exists p, lp, P1, q, lq, P2, q, lq, P2.
    split; [exact F|]. split; [apply pwire_at; auto|]. split; [exact L|]. split; [apply pwire_at; auto|].
    split; [rewrite Eq; unfold P2; rewrite Zq; reflexivity|]. split; [right; auto|].
    destruct DA as [DA|DA], DB as [DB|DB]; try specialize (A1 DA); try specialize (A2 DA); try specialize (B1 DB); try specialize (B2 DB); try (split; tauto).
    + split; [tauto|]. intros [(_ & H)|(_ & H)]; [|exact H]. apply A1 in H. exfalso. lia.
    + exfalso. lia.
Qed.
Theorem patch_choice E g aps am path P : good_penv E -> grid_ok g -> costs_fit E g -> records aps am -> (forall p a, In (p, a) aps -> 0 <= a) ->
  In P (min_area_patches E g aps path) ->
  exists pre st post p1 l1 P1 p2 l2 P2 p l, stretch (expand path) pre st post /\ short E g am (pre, st, post) /\
    first_place E st p1 l1 /\ patch_at E g (missing E g am pre st post) p1 l1 P1 /\
    last_place E st p2 l2 /\ patch_at E g (missing E g am pre st post) p2 l2 P2 /\
    ((p = p1 /\ l = l1 /\ P = P1) \/ (p = p2 /\ l = l2 /\ P = P2)) /\
    (tip_inside E P1 p1 l1 \/ tip_inside E P2 p2 l2 -> tip_inside E P p l) /\
    ((tip_inside E P1 p1 l1 /\ clean_under E g P1 p1 l1) \/ (tip_inside E P2 p2 l2 /\ clean_under E g P2 p2 l2) ->
     clean_under E g P p l).
Proof.
  intros G GG CF R NN HI. destruct (patches_of_stretches_eq E g aps am path G R NN) as (sts & _ & I & F).
  assert (K : exists s, In s sts /\ match s with (pre, st, post) => stretch_patch E g st (missing E g am pre st post) = [P] end).
  { clear - F HI. induction F as [|s Q l l' H F IH]; [destruct HI|]. destruct HI as [<-|HI]; [exists s; split; [left; reflexivity|exact H]|].
    destruct (IH HI) as (t & T & Ht). exists t. split; [right; exact T|exact Ht]. }
  destruct K as (((pre & st) & post) & Ks & Kp). apply I in Ks. destruct Ks as (St & Sh). pose proof St as (_ & Ns & z & Hz & _).
  destruct (stretch_choice E g st (missing E g am pre st post) z G GG CF Ns Hz)
    as (p1 & l1 & P1 & p2 & l2 & P2 & p & l & P' & C1 & C2 & C3 & C4 & C5 & C6 & C7 & C8).
  rewrite Kp in C5. inversion C5; subst P'.
  exists pre, st, post, p1, l1, P1, p2, l2, P2, p, l. repeat (split; [assumption|]). assumption.
Qed.
