From Verif Require Import Base GeomModel GeomSpec GCellModel GCellSpec.

Lemma quot_bounds a b : 0 < b -> 
  (0 <= a -> 0 <= Z.quot a b /\ b * Z.quot a b <= a < b * (Z.quot a b + 1)) /\
  (a < 0 -> Z.quot a b <= 0).
Proof.
  intros Hb. split; intros Ha.
  - pose proof (Z.quot_rem' a b). pose proof (Z.rem_bound_pos a b Ha Hb).
    assert (0 <= Z.quot a b) by (apply Z.quot_pos; lia). lia.
  - pose proof (Z.quot_rem' a b). pose proof (Z.rem_bound_neg_pos a b). nia.
Qed.

Lemma idx1_range g c : 0 < gspacing g -> 1 <= gcount g -> 0 <= gcell_idx1 g c < gcount g.
Proof. intros. unfold gcell_idx1. zcases; lia. Qed.

Lemma idx1_contains g lo hi c : axis_ok g lo hi -> lo <= c <= hi ->
  gcell_lo g lo (gcell_idx1 g c) <= c <= gcell_hi g hi (gcell_idx1 g c).
Proof.
  intros (Hs & Hc & Hlh & H1 & H2) Hr. unfold gcell_lo, gcell_hi, gcell_idx1.
  pose proof (quot_bounds (c - gstart g) (gspacing g) Hs) as [Hp Hn].
  set (q := Z.quot _ _) in *.
  destruct (Z.leb_spec 0 (c - gstart g)).
  - specialize (Hp H). zcases; split; try lia; try nia.
  - specialize (Hn ltac:(lia)). zcases; split; try lia; try nia.
Qed.

Lemma lo_le_hi g lo hi i : axis_ok g lo hi -> 0 <= i < gcount g ->
  gcell_lo g lo i <= gcell_hi g hi i.
Proof. intros (Hs & Hc & Hlh & H1 & H2) Hi. unfold gcell_lo, gcell_hi. zcases; nia. Qed.
Lemma in_die g lo hi i : axis_ok g lo hi -> 0 <= i < gcount g ->
  lo <= gcell_lo g lo i /\ gcell_hi g hi i <= hi.
Proof. intros (Hs & Hc & Hlh & H1 & H2) Hi. unfold gcell_lo, gcell_hi. zcases; nia. Qed.
Lemma cells_ordered g lo hi i j : axis_ok g lo hi -> 0 <= i -> i < j -> j < gcount g ->
  gcell_hi g hi i <= gcell_lo g lo j.
Proof. intros (Hs & Hc & Hlh & H1 & H2) Hi Hij Hj. unfold gcell_lo, gcell_hi. zcases; nia. Qed.
Lemma clamp_id g i : 0 <= i < gcount g -> gcell_clamp g i = i.
Proof. intros. unfold gcell_clamp. zcases; lia. Qed.

Lemma gcell_box_eq die xg yg i : grid_ok die xg yg -> idx_ok xg yg i ->
  gcell_box die xg yg i =
  mkBox (mkPt (gcell_lo xg (bleft die) (px i)) (gcell_lo yg (bbottom die) (py i)))
        (mkPt (gcell_hi xg (bright die) (px i)) (gcell_hi yg (btop die) (py i))).
Proof.
  intros [Hx Hy] [Ix Iy]. unfold gcell_box. rewrite !clamp_id by assumption.
  pose proof (lo_le_hi _ _ _ _ Hx Ix). pose proof (lo_le_hi _ _ _ _ Hy Iy).
  unfold box_set. zcases; try lia; reflexivity.
Qed.

Lemma gcell_idx_ok die xg yg p : grid_ok die xg yg -> idx_ok xg yg (gcell_idx xg yg p).
Proof.
  intros [(?&?&_) (?&?&_)]. split; cbn; apply idx1_range; assumption.
Qed.
Lemma gcell_box_contains die xg yg p : grid_ok die xg yg -> in_box p die ->
  in_box p (gcell_box die xg yg (gcell_idx xg yg p)).
Proof.
  intros H [Px Py]. pose proof (gcell_idx_ok die xg yg p H).
  rewrite gcell_box_eq by assumption. destruct H as [Hx Hy].
  split; cbn [ll ur px py gcell_idx]; apply idx1_contains; assumption.
Qed.
Lemma gcell_box_in_die die xg yg i p : grid_ok die xg yg -> idx_ok xg yg i ->
  in_box p (gcell_box die xg yg i) -> in_box p die.
Proof.
  intros H I. rewrite gcell_box_eq by assumption. destruct H as [Hx Hy], I as [Ix Iy].
  pose proof (in_die _ _ _ _ Hx Ix). pose proof (in_die _ _ _ _ Hy Iy).
  unfold in_box, bleft, bright, bbottom, btop in *. cbn [ll ur px py]. lia.
Qed.
Lemma gcell_boxes_disjoint die xg yg i j : grid_ok die xg yg -> idx_ok xg yg i -> idx_ok xg yg j ->
  i <> j -> forall x2 y2, in_interior2 x2 y2 (gcell_box die xg yg i) ->
  in_interior2 x2 y2 (gcell_box die xg yg j) -> False.
Proof.
  intros H I J Hne x2 y2. rewrite !gcell_box_eq by assumption.
  destruct H as [Hx Hy], I as [Ix Iy], J as [Jx Jy].
  unfold in_interior2. cbn [ll ur px py]. intros Hi Hj.
  destruct (Z.lt_trichotomy (px i) (px j)) as [L|[E|L]].
  - pose proof (cells_ordered _ _ _ (px i) (px j) Hx ltac:(lia) L ltac:(lia)). lia.
  - destruct (Z.lt_trichotomy (py i) (py j)) as [L'|[E'|L']].
    + pose proof (cells_ordered _ _ _ (py i) (py j) Hy ltac:(lia) L' ltac:(lia)). lia.
    + apply Hne. destruct i, j; cbn in *; congruence.
    + pose proof (cells_ordered _ _ _ (py j) (py i) Hy ltac:(lia) L' ltac:(lia)). lia.
  - pose proof (cells_ordered _ _ _ (px j) (px i) Hx ltac:(lia) L ltac:(lia)). lia.
Qed.

Lemma quot2_between a b : a + 2 <= b -> a <= Z.quot (a + b) 2 < b.
Proof.
  intros H. pose proof (Z.quot_rem' (a + b) 2).
  destruct (Z.leb_spec 0 (a + b)).
  - pose proof (Z.rem_bound_pos (a + b) 2). lia.
  - pose proof (Z.rem_bound_neg_pos (a + b) 2). lia.
Qed.
Lemma quot2_ge a b : a <= b -> a <= Z.quot (a + b) 2 <= b.
Proof.
  intros H. pose proof (Z.quot_rem' (a + b) 2).
  destruct (Z.leb_spec 0 (a + b)).
  - pose proof (Z.rem_bound_pos (a + b) 2). lia.
  - pose proof (Z.rem_bound_neg_pos (a + b) 2). lia.
Qed.

(* the midpoint of a cell stays strictly below its high edge *)
Definition mid_ok (l h : Z) : Prop := l < h /\ (0 <= l \/ l + 2 <= h).
Lemma quot2_mid a b : mid_ok a b -> a <= Z.quot (a + b) 2 < b.
Proof.
  intros [H1 [H2|H2]].
  - pose proof (Z.quot_rem' (a + b) 2). pose proof (Z.rem_bound_pos (a + b) 2). lia.
  - apply quot2_between. exact H2.
Qed.

Lemma idx1_of_center g lo hi i : axis_ok g lo hi ->
  (0 <= lo /\ lo < gstart g + gspacing g \/ 2 <= gspacing g /\ lo + 2 <= gstart g + gspacing g) ->
  0 <= i < gcount g -> gcell_idx1 g (gcell_center1 g lo hi i) = i.
Proof.
  intros (Hs & Hc & Hlh & H1 & H2) Hm Hi. unfold gcell_center1.
  set (l := if i =? 0 then lo else gspacing g * i + gstart g).
  set (h := if i =? gcount g - 1 then hi else gspacing g * (i + 1) + gstart g).
  set (c := Z.quot (l + h) 2). unfold gcell_idx1.
  pose proof (quot_bounds (c - gstart g) (gspacing g) Hs) as [Hp Hn].
  set (q := Z.quot (c - gstart g) (gspacing g)) in *.
  assert (Hlc : l <= c). { apply quot2_ge. subst l h; zcases; nia. }
  destruct (Z.eqb_spec i (gcount g - 1)) as [Ei|Ei].
  - (* last cell: everything right of its low line clamps to it *)
    destruct (Z.eqb_spec i 0) as [E0|E0].
    + zcases; lia.
    + assert (l = gspacing g * i + gstart g) by (subst l; reflexivity).
      specialize (Hp ltac:(nia)). assert (i <= q) by nia. zcases; lia.
  - assert (h = gspacing g * (i + 1) + gstart g) by (subst h; reflexivity).
    assert (Hch : c < h). { apply quot2_mid. unfold mid_ok. subst l; zcases; nia. }
    destruct (Z.leb_spec 0 (c - gstart g)).
    + specialize (Hp H0). assert (q <= i) by nia.
      destruct (Z.eqb_spec i 0) as [E0|E0].
      * zcases; lia.
      * assert (l = gspacing g * i + gstart g) by (subst l; reflexivity).
        assert (i <= q) by nia. zcases; lia.
    + specialize (Hn ltac:(lia)).
      destruct (Z.eqb_spec i 0) as [E0|E0].
      * zcases; lia.
      * assert (l = gspacing g * i + gstart g) by (subst l; reflexivity). nia.
Qed.
Lemma idx_of_center die xg yg i : grid_ok die xg yg ->
  0 <= bleft die < gstart xg + gspacing xg -> 0 <= bbottom die < gstart yg + gspacing yg ->
  idx_ok xg yg i -> gcell_idx xg yg (gcell_center die xg yg i) = i.
Proof.
  intros [Hx Hy] Lx Ly [Ix Iy]. unfold gcell_idx, gcell_center. cbn [px py].
  rewrite !idx1_of_center by (assumption || lia). destruct i; reflexivity.
Qed.
Lemma idx_of_center_neg die xg yg i : grid_ok die xg yg -> 2 <= gspacing xg -> 2 <= gspacing yg ->
  bleft die + 2 <= gstart xg + gspacing xg -> bbottom die + 2 <= gstart yg + gspacing yg ->
  idx_ok xg yg i -> gcell_idx xg yg (gcell_center die xg yg i) = i.
Proof.
  intros [Hx Hy] Sx Sy Lx Ly [Ix Iy]. unfold gcell_idx, gcell_center. cbn [px py].
  rewrite !idx1_of_center by (assumption || lia). destruct i; reflexivity.
Qed.

(* ---- building the grid from the guides ---- *)
Lemma build_pattern_ok lo hi G off g : 0 < G -> 0 <= lo -> 0 <= off < G -> lo + G <= hi ->
  build_pattern lo hi G off = Some g ->
  axis_ok g lo hi /\ gspacing g = G /\ lo - G < gstart g <= lo /\
  Z.modulo (gstart g) G = off.
Proof.
  intros HG Hlo Hoff Hd. unfold build_pattern.
  pose proof (proj1 (quot_bounds lo G HG) Hlo) as Hq.
  set (q := Z.quot lo G) in *. set (s0 := q * G + off).
  assert (Hs : lo - G < (if s0 >? lo then s0 - G else s0) <= lo) by (subst s0; zcases; nia).
  assert (Hm : Z.modulo (if s0 >? lo then s0 - G else s0) G = off).
  { subst s0. destruct (q * G + off >? lo).
    - replace (q * G + off - G) with (off + (q - 1) * G) by ring.
      rewrite Z.mod_add by lia. apply Z.mod_small; lia.
    - replace (q * G + off) with (off + q * G) by ring.
      rewrite Z.mod_add by lia. apply Z.mod_small; lia. }
  set (s := if s0 >? lo then s0 - G else s0) in *.
  destruct (Z.quot (hi - off) G <? 1); [discriminate|]. intros E; inversion E; subst g; clear E.
  cbn [gspacing gstart]. split; [|auto].
  pose proof (proj1 (quot_bounds (hi - s) G HG) ltac:(lia)) as Hc.
  unfold axis_ok; cbn [gspacing gstart gcount].
  repeat split; try lia; nia.
Qed.
Lemma build_pattern_some lo hi G off : 0 < G -> 0 <= off < G -> off + G <= hi ->
  exists g, build_pattern lo hi G off = Some g.
Proof.
  intros HG Ho Hh. unfold build_pattern.
  pose proof (proj1 (quot_bounds (hi - off) G HG) ltac:(lia)).
  destruct (Z.ltb_spec (Z.quot (hi - off) G) 1); [nia|]. eauto.
Qed.

Lemma guide_offset_mod G e : 0 < G -> 0 <= e -> guide_offset G e = Z.modulo e G.
Proof.
  intros HG He. unfold guide_offset. rewrite Z.rem_mod_nonneg by lia.
  pose proof (Z.mod_pos_bound e G HG). zcases; lia.
Qed.

(* counting *)
Fixpoint ksorted (m : list (Z * Z)) : Prop :=
  match m with
  | [] => True
  | (k, _) :: m' => (forall k' c', In (k', c') m' -> k < k') /\ ksorted m'
  end.
Definition mget (v : Z) (m : list (Z * Z)) : Z :=
  match find (fun kc => fst kc =? v) m with Some (_, c) => c | None => 0 end.

Lemma count_add_in v m k c : In (k, c) (count_add v m) -> k = v \/ exists c', In (k, c') m.
Proof.
  induction m as [|[k0 c0] m IH]; cbn.
  - intros [E|[]]; inversion E; auto.
  - destruct (v <? k0) eqn:E1; [|destruct (v =? k0) eqn:E2]; cbn.
    + intros [E|[E|H]]; [inversion E; auto| inversion E; subst; eauto | eauto].
    + intros [E|H]; [inversion E; subst; left; lia | eauto].
    + intros [E|H]; [inversion E; subst; eauto|]. destruct (IH H) as [?|[c' ?]]; eauto.
Qed.
Lemma count_add_sorted v m : ksorted m -> ksorted (count_add v m).
Proof.
  induction m as [|[k c] m IH]; cbn; [tauto|]. intros [H1 H2].
  destruct (v <? k) eqn:E1; [|destruct (v =? k) eqn:E2].
  - cbn. split; [|auto]. intros k' c' [E|Hin]; [inversion E; lia|]. specialize (H1 _ _ Hin); lia.
  - cbn. auto.
  - cbn. split; [|auto]. intros k' c' Hin. apply count_add_in in Hin as [->|[c'' Hin]]; [lia|eauto].
Qed.
Lemma mget_notin v m : (forall c, ~ In (v, c) m) -> mget v m = 0.
Proof.
  unfold mget. intros H. destruct (find _ m) as [[k c]|] eqn:E; [|reflexivity].
  apply find_some in E as [Hin Hk]. cbn in Hk. assert (k = v) by lia. subst. destruct (H _ Hin).
Qed.
Lemma mget_cons v k c m : mget v ((k, c) :: m) = if k =? v then c else mget v m.
Proof. unfold mget. cbn. destruct (k =? v); reflexivity. Qed.
Lemma mget_add v w m : ksorted m ->
  mget w (count_add v m) = mget w m + (if w =? v then 1 else 0).
Proof.
  induction m as [|[k c] m IH]; intros Hs.
  - cbn [count_add]. rewrite mget_cons. cbn. zcases; lia.
  - cbn [count_add]. destruct Hs as [H1 H2].
    destruct (v <? k) eqn:E1; [|destruct (v =? k) eqn:E2].
    + rewrite !mget_cons. destruct (v =? w) eqn:E; destruct (w =? v) eqn:E'; try lia.
      assert (mget v ((k, c) :: m) = 0).
      { apply mget_notin. intros c' [Hin|Hin]; [inversion Hin; lia|]. specialize (H1 _ _ Hin). lia. }
      rewrite mget_cons in H. assert (w = v) by lia. subst w. lia.
    + rewrite !mget_cons. destruct (k =? w) eqn:E; destruct (w =? v) eqn:E'; try lia.
    + rewrite !mget_cons. destruct (k =? w) eqn:E; [destruct (w =? v) eqn:E'; lia|].
      rewrite IH by assumption. reflexivity.
Qed.
Lemma fold_count vs m : ksorted m -> 
  ksorted (fold_left (fun m v => count_add v m) vs m) /\
  forall w, mget w (fold_left (fun m v => count_add v m) vs m) = mget w m + occ w vs.
Proof.
  revert m. induction vs as [|v vs IH]; intros m Hs; cbn [fold_left].
  - split; [assumption|]. intros. unfold occ; cbn; lia.
  - destruct (IH (count_add v m) (count_add_sorted v m Hs)) as [HA HB]. split; [assumption|].
    intros w. rewrite HB, mget_add by assumption. unfold occ. cbn [count_occ].
    destruct (Z.eq_dec v w); destruct (w =? v) eqn:E; lia.
Qed.
Lemma ksorted_mget k c m : ksorted m -> In (k, c) m -> mget k m = c.
Proof.
  induction m as [|[k0 c0] m IH]; intros Hs Hin; [destruct Hin|].
  rewrite mget_cons. destruct Hs as [H1 H2]. destruct Hin as [E|Hin].
  - inversion E; subst. rewrite Z.eqb_refl. reflexivity.
  - specialize (H1 _ _ Hin). destruct (k0 =? k) eqn:E; [lia|]. auto.
Qed.
Lemma pick_fold m b bc best bestc :
  fold_left pick_step m (b, bc) = (best, bestc) ->
  (best = b /\ bestc = bc \/ In (best, bestc) m) /\ bc <= bestc /\
  (forall k c, In (k, c) m -> c <= bestc).
Proof.
  revert b bc. induction m as [|[k c] m IH]; intros b bc; cbn [fold_left].
  - intros E; inversion E; subst. split; [auto|]. split; [lia|]. intros ? ? [].
  - unfold pick_step at 2; cbn [fst snd]. destruct (c >? bc) eqn:E1; intros E; apply IH in E as (HA & HB & HC).
    + split; [destruct HA as [[-> ->]|?]; cbn; auto|]. split; [lia|].
      intros k' c' [Ei|Hin]; [inversion Ei; lia|eauto].
    + split; [destruct HA as [[-> ->]|?]; cbn; auto|]. split; [lia|].
      intros k' c' [Ei|Hin]; [inversion Ei; lia|eauto].
Qed.
Lemma mget_pos_in v m : 0 < mget v m -> exists c, In (v, c) m.
Proof.
  unfold mget. destruct (find _ m) as [[k c]|] eqn:E; [|lia]. intros _.
  apply find_some in E as [Hin Hk]. cbn in Hk. assert (k = v) by lia. subst; eauto.
Qed.
Lemma count_all_vals vs k c : In (k, c) (count_all vs) -> c = occ k vs /\ 0 < c.
Proof.
  unfold count_all. destruct (fold_count vs [] I) as [HA HB]. intros Hin.
  specialize (HB k). rewrite (ksorted_mget _ _ _ HA Hin) in HB. cbn in HB.
  split; [exact HB|].
  (* every stored count is positive *)
  clear HB. assert (G : forall vs m, (forall k c, In (k, c) m -> 0 < c) ->
    forall k c, In (k, c) (fold_left (fun m v => count_add v m) vs m) -> 0 < c).
  { clear. induction vs as [|v vs IH]; cbn; intros m Hm k c; [apply Hm|]. apply IH.
    clear IH k c. intros k c. induction m as [|[k0 c0] m IHm]; cbn.
    - intros [E|[]]; inversion E; lia.
    - pose proof (Hm k0 c0 (or_introl eq_refl)).
      destruct (v <? k0); [|destruct (v =? k0)]; cbn.
      + intros [E|H1]; [inversion E; lia|]. apply (Hm k c). exact H1.
      + intros [E|H1]; [inversion E; lia|]. apply (Hm k c). right; exact H1.
      + intros [E|H1]; [inversion E; lia|]. apply IHm; [|exact H1]. intros; apply (Hm k1 c1); right; assumption. }
  pose proof (G vs [] ltac:(intros ? ? []) k c Hin). lia.
Qed.
Lemma pick_mode_spec vs g : pick_mode (count_all vs) = Some g ->
  In g vs /\ forall v, occ v vs <= occ g vs.
Proof.
  unfold pick_mode. destruct (fold_left _ _ _) as [best bestc] eqn:E; cbn [fst].
  apply pick_fold in E as (HA & HB & HC).
  destruct (best =? -1) eqn:E1; [discriminate|]. intros E; inversion E; subst g; clear E.
  destruct HA as [[-> ->]|Hin]; [lia|].
  destruct (count_all_vals _ _ _ Hin) as [H1 H2]. split.
  - apply (count_occ_In Z.eq_dec). unfold occ in H1. lia.
  - intros v. destruct (Z.leb_spec (occ v vs) 0) as [?|Hp]; [lia|].
    destruct (fold_count vs [] I) as [_ HM]. specialize (HM v). cbn in HM.
    destruct (mget_pos_in v (count_all vs)) as [c Hc]; [unfold count_all; lia|].
    pose proof (HC _ _ Hc). destruct (count_all_vals _ _ _ Hc) as [H3 _]. lia.
Qed.
Lemma pick_mode_some vs : vs <> [] -> (forall v, In v vs -> 0 <= v) ->
  exists g, pick_mode (count_all vs) = Some g.
Proof.
  intros Hne Hnn. unfold pick_mode. destruct (fold_left _ _ _) as [best bestc] eqn:E; cbn [fst].
  apply pick_fold in E as (HA & HB & HC).
  destruct vs as [|v0 vs]; [congruence|].
  destruct (fold_count (v0 :: vs) [] I) as [_ HM]. specialize (HM v0).
  assert (0 < occ v0 (v0 :: vs)) by (unfold occ; cbn; destruct (Z.eq_dec v0 v0); lia).
  destruct (mget_pos_in v0 (count_all (v0 :: vs))) as [c Hc];
    [unfold count_all; rewrite HM; change (mget v0 []) with 0; lia|].
  pose proof (HC _ _ Hc). destruct (count_all_vals _ _ _ Hc) as [H3 H4].
  destruct HA as [[-> ->]|Hin]; [lia|].
  destruct (count_all_vals _ _ _ Hin) as [H5 H6].
  assert (In best (v0 :: vs)) by (apply (count_occ_In Z.eq_dec); unfold occ in H5; lia).
  specialize (Hnn _ H1). destruct (best =? -1) eqn:E; [lia|]. eauto.
Qed.
