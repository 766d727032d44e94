(* Proofs about history costs. *)
From Verif Require Import Base Stl GeomModel GridModel GridSpec GridProofs GridProofs2 HistModel HistSpec.

(* ---- the points of a wire ---- *)
Lemma getPoint_x g q : px (getPoint g q) = nth (Z.to_nat (mx q)) (gxs g) 0. Proof. reflexivity. Qed.
Lemma getPoint_y g q : py (getPoint g q) = nth (Z.to_nat (my q)) (gys g) 0. Proof. reflexivity. Qed.
Definition range_points (m1 m2 : midx) (r : Z * Z) : list midx :=
  map (fun i => if seg_h m1 m2 then mkMI i (my m1) (mz m1) else mkMI (mx m1) i (mz m1)) (zrange (fst r) (snd r)).
Definition in_stretch (g : gg) (m1 m2 : midx) (b : box) (q : midx) : Prop :=
  on_wire m1 m2 q /\ (my m1 = my m2 -> bleft b <= px (getPoint g q) <= bright b) /\ (my m1 <> my m2 -> bbottom b <= py (getPoint g q) <= btop b).
Lemma stretch_in g m1 m2 b q : grid_sorted g -> wire_ok g m1 m2 -> In q (range_points m1 m2 (stretch g m1 m2 b)) <-> in_stretch g m1 m2 b q.
Proof.
  intros (Sx & Sy & _) (V1 & V2 & Ez & Hd). unfold range_points, in_stretch, on_wire. rewrite in_map_iff. unfold stretch, getIdxBox, seg_h.
  destruct (Z.eqb_spec (my m1) (my m2)) as [E|E]; cbn [fst snd].
  - destruct Hd as [[_ Hd]|[_ Hd]]; [|lia]. split.
    + intros (i & <- & Hi). apply zrange_in in Hi. cbn [mx my mz]. split; [lia|]. split; [|congruence]. intros _. rewrite getPoint_x. cbn [mx].
      apply (idx_interval (gxs g) (bleft b) (bright b) i Sx); [unfold valid, on_grid, nx in *; lia|lia].
    + intros ((A & B & C) & I & _). exists (mx q). split; [destruct q as [qx qy qz]; cbn [mx my mz] in *; f_equal; lia|]. apply zrange_in. specialize (I E). rewrite getPoint_x in I.
      apply (idx_interval (gxs g) (bleft b) (bright b) (mx q) Sx) in I; [lia|unfold valid, on_grid, nx in *; lia].
  - destruct Hd as [[Hd _]|[Hx Hd]]; [lia|]. split.
    + intros (i & <- & Hi). apply zrange_in in Hi. cbn [mx my mz]. split; [lia|]. split; [congruence|]. intros _. rewrite getPoint_y. cbn [my].
      apply (idx_interval (gys g) (bbottom b) (btop b) i Sy); [unfold valid, on_grid, ny in *; lia|lia].
    + intros ((A & B & C) & _ & I). exists (my q). split; [destruct q as [qx qy qz]; cbn [mx my mz] in *; f_equal; lia|]. apply zrange_in. specialize (I E). rewrite getPoint_y in I.
      apply (idx_interval (gys g) (bbottom b) (btop b) (my q) Sy) in I; [lia|unfold valid, on_grid, ny in *; lia].
Qed.
Lemma range_inj m1 m2 i j : (if seg_h m1 m2 then mkMI i (my m1) (mz m1) else mkMI (mx m1) i (mz m1)) = (if seg_h m1 m2 then mkMI j (my m1) (mz m1) else mkMI (mx m1) j (mz m1)) -> i = j.
Proof. destruct (seg_h m1 m2); congruence. Qed.
Lemma range_two m1 m2 r : fst r < snd r <-> two_points (fun q => In q (range_points m1 m2 r)).
Proof.
  unfold two_points, range_points. split.
  - intros H. do 2 eexists. split; [apply in_map_iff; exists (fst r); split; [reflexivity|apply zrange_in; lia]|].
    split; [apply in_map_iff; exists (snd r); split; [reflexivity|apply zrange_in; lia]|]. intros E. apply range_inj in E. lia.
  - intros (a & b & Ha & Hb & N). apply in_map_iff in Ha as (i & <- & Hi), Hb as (j & <- & Hj). apply zrange_in in Hi, Hj.
    destruct (Z.eq_dec i j) as [->|D]; [congruence|lia].
Qed.
(* the box at distance d from the marker *)
Definition at_dist (mbox b : box) (d : Z) : Prop := bleft b = bleft mbox - d /\ bright b = bright mbox + d /\ bbottom b = bbottom mbox - d /\ btop b = btop mbox + d.
Lemma bloat_dist mbox b d w : bleft mbox <= bright mbox -> bbottom mbox <= btop mbox -> 0 <= d -> 0 <= w -> at_dist mbox b d -> at_dist mbox (box_bloat b w) (d + w).
Proof.
  intros P1 P2 D W (A & B & C & E). unfold at_dist, box_bloat, box_set in *. unfold bleft, bright, bbottom, btop in *. cbn [ll ur px py].
  rewrite !Z.gtb_ltb. destruct (Z.ltb_spec (px (ur b) + w) (px (ll b) - w)), (Z.ltb_spec (py (ur b) + w) (py (ll b) - w)); lia.
Qed.
Lemma near_dist g m1 m2 mbox b d q : at_dist mbox b d -> in_stretch g m1 m2 b q <-> wire_near g mbox m1 m2 d q.
Proof. intros (A & B & C & E). unfold in_stretch, wire_near. rewrite A, B, C, E. tauto. Qed.
Lemma two_iff (P Q : midx -> Prop) : (forall q, P q <-> Q q) -> two_points P <-> two_points Q.
Proof. intros H. unfold two_points. split; intros (a & b & A & B & N); exists a, b; rewrite ?H in *; [rewrite <- !H|]; auto; rewrite !H; auto. Qed.
Lemma stretch_two g m1 m2 mbox b d : grid_sorted g -> wire_ok g m1 m2 -> at_dist mbox b d ->
  (fst (stretch g m1 m2 b) >=? snd (stretch g m1 m2 b)) = false <-> two_points (wire_near g mbox m1 m2 d).
Proof.
  intros S W D. rewrite Z.geb_leb, Z.leb_gt, (range_two m1 m2). apply two_iff. intros q. rewrite (stretch_in g m1 m2 b q S W). apply near_dist, D.
Qed.
Lemma widen_spec g m1 m2 mbox w : grid_sorted g -> wire_ok g m1 m2 -> bleft mbox <= bright mbox -> bbottom mbox <= btop mbox -> 0 <= w -> forall n k b, 0 <= k -> at_dist mbox b (k * w) ->
  exists k', k <= k' <= k + Z.of_nat n /\ at_dist mbox (widen n g m1 m2 w b) (k' * w) /\ (forall j, k <= j < k' -> ~ two_points (wire_near g mbox m1 m2 (j * w))) /\
    (k' < k + Z.of_nat n -> two_points (wire_near g mbox m1 m2 (k' * w))).
Proof.
  intros S W P1 P2 W0. induction n as [|n IH]; intros k b K D; cbn [widen].
  - exists k. split; [lia|]. split; [exact D|]. split; [intros; lia|intros; lia].
  - destruct (_ >=? _) eqn:E.
    + assert (N : ~ two_points (wire_near g mbox m1 m2 (k * w))). { intros T. apply (stretch_two g m1 m2 mbox b (k * w) S W D) in T. congruence. }
      destruct (IH (k + 1) (box_bloat b w)) as (k' & R & D' & N' & T'); [lia|replace ((k + 1) * w) with (k * w + w) by lia; apply bloat_dist; auto; apply Z.mul_nonneg_nonneg; lia|].
      exists k'. split; [lia|]. split; [exact D'|]. split; [|intros; apply T'; lia].
      intros j Hj. destruct (Z.eq_dec j k) as [->|Hn]; [exact N|apply N'; lia].
    + exists k. split; [lia|]. split; [exact D|]. split; [intros; lia|]. intros _. apply (stretch_two g m1 m2 mbox b (k * w) S W D), E.
Qed.
Lemma seg_points_spec g mbox w m1 m2 : grid_sorted g -> wire_ok g m1 m2 -> bleft mbox <= bright mbox -> bbottom mbox <= btop mbox -> 0 <= w ->
  exists k, reach g mbox m1 m2 w k /\ forall q, In q (seg_points g mbox w m1 m2) <-> wire_near g mbox m1 m2 (k * w) q.
Proof.
  intros S W P1 P2 W0. destruct (widen_spec g m1 m2 mbox w S W P1 P2 W0 5 1 (box_bloat mbox w)) as (k & R & D & N & T); [lia| |].
  { replace (1 * w) with (0 + w) by lia. apply bloat_dist; auto; try lia. unfold at_dist. lia. }
  exists k. split; [split; [lia|]; split; [exact N|intros; apply T; lia]|]. intros q. unfold seg_points.
  destruct (stretch g m1 m2 (widen 5 g m1 m2 w (box_bloat mbox w))) as [lo hi] eqn:E.
  rewrite <- (near_dist g m1 m2 mbox _ (k * w) q D), <- (stretch_in g m1 m2 _ q S W), E. reflexivity.
Qed.
Lemma seg_points_nodup g mbox w m1 m2 : NoDup (seg_points g mbox w m1 m2).
Proof.
  unfold seg_points. destruct (stretch _ _ _ _) as [lo hi]. apply FinFun.Injective_map_NoDup; [intros i j; apply range_inj|].
  unfold zrange. apply FinFun.Injective_map_NoDup; [|apply seq_NoDup]. intros i j H. lia.
Qed.
Lemma patch_points_in g b lNum q : In q (patch_points g b lNum) <-> at_patch g b lNum q.
Proof.
  unfold patch_points, at_patch. rewrite in_flat_map. split.
  - intros (x & Hx & H). apply in_map_iff in H as (y & <- & Hy). apply zrange_in in Hx, Hy. cbn [mx my mz] in *. auto.
  - intros (A & B & C). exists (mx q). split; [apply zrange_in, A|]. apply in_map_iff. exists (my q). split; [destruct q; cbn in *; congruence|apply zrange_in, B].
Qed.
