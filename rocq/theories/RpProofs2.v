(* Distances at which shapes are too close lie in the ranges computed for them. *)
From Verif Require Import Base Stl GeomModel GeomSpec TechModel TechSpec TechProofs GcModel GcSpec GcProofs RpModel RpSpec RpProofs.

Lemma in_box_iff p b : in_box p b <-> bleft b <= px p <= bright b /\ bbottom b <= py p <= btop b.
Proof. reflexivity. Qed.
Definition half (dirx : bool) (a b : box) : Z := Z.quot (ext_along dirx a + ext_along dirx b) 2.
Lemma half_centred dirx a b : centred a -> centred b -> half dirx a b = if dirx then bright a + bright b else btop a + btop b.
Proof.
  intros (A1 & A2 & _) (B1 & B2 & _). unfold half, ext_along. destruct dirx.
  - rewrite A1, B1. replace (bright a - - bright a + (bright b - - bright b)) with ((bright a + bright b) * 2) by lia.
    apply Z.quot_mul. lia.
  - rewrite A2, B2. replace (btop a - - btop a + (btop b - - btop b)) with ((btop a + btop b) * 2) by lia.
    apply Z.quot_mul. lia.
Qed.
Lemma moved_box dirx d b :
  bleft (moved dirx d b) = bleft b + (if dirx then d else 0) /\ bright (moved dirx d b) = bright b + (if dirx then d else 0) /\
  bbottom (moved dirx d b) = bbottom b + (if dirx then 0 else d) /\ btop (moved dirx d b) = btop b + (if dirx then 0 else d).
Proof. destruct b as [[? ?] [? ?]]. cbn. auto. Qed.
Lemma abs_lt_sq x y v : 0 <= v -> x * x + y * y < v * v -> Z.abs x < v /\ Z.abs y < v.
Proof.
  intros Hv H. split; apply Z.square_lt_simpl_nonneg; try lia; rewrite Z.abs_square;
    [pose proof (Z.square_nonneg y)|pose proof (Z.square_nonneg x)]; lia.
Qed.
Lemma abs_le_sq x y v : 0 <= v -> x * x + y * y <= v * v -> Z.abs x <= v /\ Z.abs y <= v.
Proof.
  intros Hv H. split; apply Z.square_le_simpl_nonneg; try lia; rewrite Z.abs_square;
    [pose proof (Z.square_nonneg y)|pose proof (Z.square_nonneg x)]; lia.
Qed.
Lemma moved_apart dirx d a b : centred a -> centred b -> 0 < d -> ~ touching a (moved dirx d b) -> half dirx a b < d.
Proof.
  intros Ca Cb Hd H. rewrite half_centred by assumption. destruct Ca as (A1 & A2 & A3 & A4), Cb as (B1 & B2 & B3 & B4).
  destruct (moved_box dirx d b) as (M1 & M2 & M3 & M4).
  assert (N : ~ (d <= if dirx then bright a + bright b else btop a + btop b)); [|lia].
  intros N. apply H. destruct dirx.
  - exists (mkPt (Z.min (bright a) (bright b + d)) 0). rewrite !in_box_iff, M1, M2, M3, M4, A1, A2, B1, B2. cbn [px py]. lia.
  - exists (mkPt 0 (Z.min (btop a) (btop b + d))). rewrite !in_box_iff, M1, M2, M3, M4, A1, A2, B1, B2. cbn [px py]. lia.
Qed.
Lemma moved_close dirx d a b v : centred a -> centred b -> 0 <= v -> closer_than a (moved dirx d b) v -> d < v + half dirx a b.
Proof.
  intros Ca Cb Hv (p & q & Hp & Hq & L). rewrite half_centred by assumption.
  destruct Ca as (A1 & A2 & A3 & A4), Cb as (B1 & B2 & B3 & B4). destruct (moved_box dirx d b) as (M1 & M2 & M3 & M4).
  unfold dist2 in L. apply abs_lt_sq in L; [|exact Hv]. destruct L as [L1 L2].
  rewrite in_box_iff in Hp, Hq. rewrite M1, M2, M3, M4 in Hq. destruct dirx; lia.
Qed.
Lemma moved_run dirx d a b : centred a -> centred b -> half dirx a b < d ->
  run_length a (moved dirx d b) = Z.min (ext_across dirx a) (ext_across dirx b).
Proof.
  intros Ca Cb. rewrite half_centred by assumption. destruct Ca as (A1 & A2 & A3 & A4), Cb as (B1 & B2 & B3 & B4).
  destruct (moved_box dirx d b) as (M1 & M2 & M3 & M4).
  unfold run_length, signed_overlap, ext_across. rewrite M1, M2, M3, M4. destruct dirx; cbn match in *; intros H.
  - rewrite (Z.min_l (bright a)) by lia. rewrite (Z.max_r (bleft a)) by lia. lia.
  - rewrite (Z.min_l (btop a)) by lia. rewrite (Z.max_r (bbottom a)) by lia. lia.
Qed.
Lemma moved_width dirx d b : box_width (moved dirx d b) = box_width b.
Proof. unfold box_width. destruct (moved_box dirx d b) as (-> & -> & -> & ->). destruct dirx; lia. Qed.

Lemma sticks_out_across T l dirx b : sticks_out T l dirx b <-> rl_width (rt_layer T l) < ext_across dirx b.
Proof. unfold sticks_out, ext_across. destruct dirx; reflexivity. Qed.

(* a distance inside a range of the entry is forbidden *)
Lemma v2v_by_range T z s1 s2 dirx v1 v2 a b d : good_tech T -> 0 <= z -> layer_at z <= rt_top T ->
  leaves T (layer_at z) s1 v1 -> leaves T (layer_at z) s2 v2 ->
  In (a, b) (v2v_ranges T (layer_at z) v1 v2 dirx) -> a < d < b -> v2v_query T z s1 s2 dirx d = Some true.
Proof.
  intros G Hz Ht L1 L2 Hin Hd. rewrite v2v_query_entry by assumption.
  assert (Hl : 1 <= layer_at z <= rt_top T) by (unfold layer_at in *; lia).
  rewrite (leaves_side _ _ _ _ Hl L1), (leaves_side _ _ _ _ Hl L2).
  cbn [v2v_entry]. f_equal. eapply merge_complete; eauto.
Qed.

Lemma close_pads_range T l s1 s2 dirx v1 v2 d : good_tech T -> leaves T l s1 v1 -> leaves T l s2 v2 -> 0 < d ->
  sticks_out T l dirx (pad v1 s1) -> sticks_out T l dirx (pad v2 s2) ->
  too_close T l (pad v1 s1) (moved dirx d (pad v2 s2)) ->
  exists a b, In (a, b) (v2v_minspc_here T l v1 v2 dirx) /\ a < d < b.
Proof.
  intros G L1 L2 Hd S1 S2 (v & (rows & cols & vals & Er & OK & TV) & NT & CL).
  destruct (leaves_facts _ _ _ _ G L1) as (_ & _ & P1 & C1 & _). destruct (leaves_facts _ _ _ _ G L2) as (_ & _ & P2 & C2 & _).
  rewrite sticks_out_across in S1, S2. pose proof (moved_apart _ _ _ _ C1 C2 Hd NT) as Hg.
  rewrite moved_width, (moved_run _ _ _ _ C1 C2 Hg) in TV.
  destruct (table_value_bounds _ _ _ _ _ _ OK TV) as [F (hi & _ & B)].
  pose proof (moved_close _ _ _ _ _ C1 C2 (proj1 B) CL) as Hc.
  unfold v2v_minspc_here. rewrite P1, P2, Er. cbn [rule_find]. rewrite F.
  destruct (Z.ltb_spec (rl_width (rt_layer T l)) (ext_across dirx (pad v1 s1))); [|lia].
  destruct (Z.ltb_spec (rl_width (rt_layer T l)) (ext_across dirx (pad v2 s2))); [|lia]. cbn [andb].
  fold (half dirx (pad v1 s1) (pad v2 s2)). do 2 eexists. split; [left; reflexivity|]. lia.
Qed.

(* run-length tables grow with the width *)
Lemma last_below_mono hdr v w i j : last_below hdr v i -> last_below hdr w j -> v <= w -> (i <= j)%nat.
Proof.
  intros (H1 & H2 & H3) (K1 & K2 & K3) Hvw. destruct (le_lt_dec i j) as [H|H]; [exact H|].
  specialize (K3 i H H1). destruct H2 as [-> | H2]; lia.
Qed.
Lemma table_grows rows cols vals w prl v w' prl' v' : prl_table_ok rows cols vals ->
  table_value rows cols vals w prl v -> table_value rows cols vals w' prl' v' -> w <= w' -> prl <= prl' -> v <= v'.
Proof.
  intros (_ & _ & _ & _ & _ & M & _) (i & j & Hi & Hj & ->) (i' & j' & Hi' & Hj' & ->) Hw Hp.
  apply M.
  - split; [exact (last_below_mono _ _ _ _ _ Hi Hi' Hw)|apply Hi'].
  - split; [exact (last_below_mono _ _ _ _ _ Hj Hj' Hp)|apply Hj'].
Qed.
Lemma table_total rows cols vals w prl : prl_table_ok rows cols vals -> exists v, table_value rows cols vals w prl v /\
  find2 rows cols vals w prl = Some v /\ 0 <= v.
Proof.
  intros OK. pose proof OK as (R & C & SR & SC & T & _).
  destruct (find2_spec rows cols vals w prl R C SR SC T) as (i & j & Hi & Hj & E).
  exists (cell vals i j). assert (TV : table_value rows cols vals w prl (cell vals i j)) by (exists i, j; auto).
  destruct (table_value_bounds _ _ _ _ _ _ OK TV) as [_ (hi & _ & B)]. split; [exact TV|]. split; [exact E|lia].
Qed.
Lemma same_side_same_via T l s v1 v2 : leaves T l s v1 -> leaves T l s v2 -> v1 = v2.
Proof. unfold leaves. intros [_ H1] [_ H2]. congruence. Qed.

Lemma far_pads_range T l s v d : good_tech T -> leaves T l s v -> 0 < d ->
  too_close T (far_layer l s) (far_pad v s) (moved true d (far_pad v s)) ->
  exists a b, In (a, b) (v2v_minspc_other T l v v true) /\ a < d < b.
Proof.
  intros G L Hd (w & (rows & cols & vals & Er & OK & TV) & NT & CL).
  destruct (leaves_facts _ _ _ _ G L) as (_ & F1 & P & _ & C & _).
  pose proof (moved_apart _ _ _ _ C C Hd NT) as Hg.
  rewrite moved_width, (moved_run _ _ _ _ C C Hg), Z.max_id, Z.min_id in TV.
  destruct (table_value_bounds _ _ _ _ _ _ OK TV) as [_ (hi & _ & B)].
  pose proof (moved_close _ _ _ _ _ C C (proj1 B) CL) as Hc.
  unfold v2v_minspc_other. rewrite Z.eqb_refl, F1, P.
  destruct (table_total rows cols vals (Z.max (box_width (far_pad v s)) (box_width (pad v s))) (ext_across true (far_pad v s)) OK)
    as (u & TU & FU & _).
  pose proof (table_grows _ _ _ _ _ _ _ _ _ OK TV TU ltac:(lia) ltac:(lia)) as Hu.
  rewrite half_centred in Hg, Hc by assumption. destruct C as (C1 & _).
  destruct s; cbn [negb far_pad far_layer pad] in *; rewrite Er; cbn [rule_find]; rewrite FU;
    do 2 eexists; (split; [left; reflexivity|]); lia.
Qed.

Lemma once_inter_rule T c1 c2 r : once_between T c1 c2 -> inter_rule T c1 c2 r -> v2v_inter_rule T c1 c2 = Some r.
Proof.
  intros O H. unfold v2v_inter_rule. unfold inter_rule, given_between in *.
  destruct (rl_inter (rt_layer T c1) true c2) as [x|] eqn:E1.
  { destruct H as [H|[H _]]; [|exfalso; apply (H x); auto]. f_equal. apply (O true); unfold given_between; rewrite ?E1; auto. }
  destruct (rl_inter (rt_layer T c2) true c1) as [x|] eqn:E2.
  { destruct H as [H|[H _]]; [|exfalso; apply (H x); auto]. destruct H as [H|H]; [discriminate|exact H]. }
  destruct H as [[H|H]|[_ H]]; try discriminate.
  destruct (rl_inter (rt_layer T c1) false c2) as [x|] eqn:E3.
  { f_equal. apply (O false); unfold given_between; rewrite ?E3; auto. }
  destruct H as [H|H]; [discriminate|exact H].
Qed.
Lemma sides_cut T l s1 s2 v1 v2 : good_tech T -> leaves T l s1 v1 -> leaves T l s2 v2 ->
  (rv_cutl v1 =? rv_cutl v2) = Bool.eqb s1 s2.
Proof.
  intros G L1 L2. destruct (leaves_facts _ _ _ _ G L1) as (-> & _), (leaves_facts _ _ _ _ G L2) as (-> & _).
  destruct s1, s2; cbn [Bool.eqb]; [apply Z.eqb_refl| | |apply Z.eqb_refl]; apply Z.eqb_neq; lia.
Qed.
Lemma centre_moved dirx d a b : centred a -> centred b -> dist2 (twice_centre a) (twice_centre (moved dirx d b)) = (2 * d) * (2 * d).
Proof.
  intros (A1 & A2 & _) (B1 & B2 & _). unfold dist2, twice_centre. destruct (moved_box dirx d b) as (-> & -> & -> & ->).
  rewrite A1, A2, B1, B2. cbn [px py]. destruct dirx; ring.
Qed.
Lemma half_same dirx a : half dirx a a = ext_along dirx a.
Proof. unfold half. replace (ext_along dirx a + ext_along dirx a) with (ext_along dirx a * 2) by lia. apply Z.quot_mul. lia. Qed.
Lemma conflict_within r dirx d a b : centred a -> centred b -> 0 <= rc_spc r -> 0 < d ->
  cuts_conflict r a (moved dirx d b) -> d < rc_spc r + (if rc_c2c r then 0 else half dirx a b).
Proof.
  intros Ca Cb Hs Hd. unfold cuts_conflict. destruct (rc_c2c r).
  - rewrite centre_moved by assumption. intros H. apply (Z.square_lt_simpl_nonneg (2 * d) (2 * rc_spc r)) in H; lia.
  - intros H. exact (moved_close _ _ _ _ _ Ca Cb Hs H).
Qed.
Lemma close_cuts_range T l s1 s2 dirx v1 v2 r d : good_tech T -> leaves T l s1 v1 -> leaves T l s2 v2 -> 0 < d -> 0 <= rc_spc r ->
  ((s1 = s2 /\ cut_rule T (rv_cutl v1) r) \/
   (s1 <> s2 /\ once_between T (rv_cutl v1) (rv_cutl v2) /\ inter_rule T (rv_cutl v1) (rv_cutl v2) r /\ rc_stack r = false)) ->
  cuts_conflict r (rv_bc v1) (moved dirx d (rv_bc v2)) ->
  exists a b, In (a, b) (v2v_cutspc T v1 v2 dirx) /\ a < d < b.
Proof.
  intros G L1 L2 Hd Hs HR HC.
  destruct (leaves_facts _ _ _ _ G L1) as (_ & _ & _ & _ & _ & C1). destruct (leaves_facts _ _ _ _ G L2) as (_ & _ & _ & _ & _ & C2).
  pose proof (conflict_within _ _ _ _ _ C1 C2 Hs Hd HC) as Hc.
  unfold v2v_cutspc. rewrite (sides_cut _ _ _ _ _ _ G L1 L2).
  destruct HR as [[<- ((P1 & P2 & P3 & P4) & HR)]|(Hne & O & HR & St)].
  - rewrite Bool.eqb_reflx. rewrite <- (same_side_same_via _ _ _ _ _ L1 L2), half_same in Hc.
    assert (PP : rc_plain r = true) by (unfold rc_plain; rewrite P1, P2, P3, P4; reflexivity).
    exists 0, (rc_spc r + (if rc_c2c r then 0 else ext_along dirx (rv_bc v1))). split; [|lia].
    apply in_flat_map. exists r. destruct HR as [[Hin Hsame]|(He & Hin & Hsame)].
    + destruct (rl_cuts (rt_layer T (rv_cutl v1)) true) as [|x y] eqn:E; [destruct Hin|].
      split; [rewrite E; exact Hin|]. rewrite PP, Hsame. left. reflexivity.
    + rewrite He. split; [exact Hin|]. rewrite PP, Hsame. left. reflexivity.
  - destruct (Bool.eqb s1 s2) eqn:E; [apply Bool.eqb_prop in E; contradiction|].
    rewrite (once_inter_rule _ _ _ _ O HR), St.
    fold (half dirx (rv_bc v1) (rv_bc v2)).
    destruct (Z.eqb_spec (rc_spc r) 0) as [E0|E0].
    + exfalso. unfold cuts_conflict in HC. rewrite E0 in HC. destruct (rc_c2c r).
      * rewrite centre_moved in HC by assumption. rewrite E0 in Hc. lia.
      * destruct HC as (p & q & _ & _ & L). unfold dist2 in L.
        pose proof (Z.square_nonneg (px p - px q)). pose proof (Z.square_nonneg (py p - py q)). lia.
    + destruct (Z.eqb_spec (rc_spc r + (if rc_c2c r then 0 else half dirx (rv_bc v1) (rv_bc v2))) 0); [lia|].
      cbn [negb andb]. do 2 eexists. split; [left; reflexivity|]. lia.
Qed.

Lemma wide_metal_iff c b : mc_wide c b = true <-> wide_metal c b.
Proof.
  unfold mc_wide, wide_metal. rewrite andb_true_iff, Z.ltb_lt. destruct (mc_len c) as [[len dist]|]; rewrite ?Z.ltb_lt; tauto.
Qed.
Lemma from_side_iff c down : conn_checks (mc_conn c) (negb down) = true <-> from_side c down.
Proof. unfold from_side. destruct (mc_conn c), down; simpl; intuition congruence. Qed.
Lemma at_metal_within c dirx d metal cutb : centred metal -> centred cutb -> cut_at_metal c dirx metal (moved dirx d cutb) ->
  d < mc_reach c dirx cutb metal.
Proof.
  intros (A1 & A2 & _) (B1 & B2 & _). unfold cut_at_metal, mc_reach. destruct (moved_box dirx d cutb) as (-> & -> & -> & ->).
  rewrite A1, A2, B1, B2. destruct (mc_len c) as [[? dist]|]; destruct dirx; lia.
Qed.
Lemma wide_metal_range T l s1 s2 v1 v2 c d : good_tech T -> leaves T l s1 v1 -> leaves T l s2 v2 -> 0 < d ->
  In c (rl_mincut (rt_layer T l)) -> wide_metal c (pad v1 s1) -> from_side c s2 ->
  cut_at_metal c (rl_horz (rt_layer T l)) (pad v1 s1) (moved (rl_horz (rt_layer T l)) d (rv_bc v2)) ->
  exists a b, In (a, b) (v2v_mincut T l v1 v2) /\ a < d < b.
Proof.
  intros G L1 L2 Hd Hin W FS HC.
  destruct (leaves_facts _ _ _ _ G L1) as (_ & F1 & P1 & C1 & _). destruct (leaves_facts _ _ _ _ G L2) as (_ & F2 & P2 & _ & _ & C2).
  exists 0, (mc_reach c (rl_horz (rt_layer T l)) (rv_bc v2) (pad v1 s1)).
  pose proof (at_metal_within _ _ _ _ _ C1 C2 HC) as Hc. split; [|lia].
  unfold v2v_mincut. apply in_flat_map. exists c. split; [exact Hin|].
  rewrite P1, P2, F1, F2. apply wide_metal_iff in W. apply from_side_iff in FS. rewrite W, FS. left. reflexivity.
Qed.
(* the mirror image: the cut of the first via at the metal of the second one *)
Lemma wide_metal_range2 T l s1 s2 v1 v2 c d : good_tech T -> leaves T l s1 v1 -> leaves T l s2 v2 -> 0 < d ->
  In c (rl_mincut (rt_layer T l)) -> wide_metal c (pad v2 s2) -> from_side c s1 ->
  (wide_metal c (pad v1 s1) -> from_side c s2) ->
  cut_at_metal c (rl_horz (rt_layer T l)) (pad v2 s2) (moved (rl_horz (rt_layer T l)) d (rv_bc v1)) ->
  exists a b, In (a, b) (v2v_mincut T l v1 v2) /\ a < d < b.
Proof.
  intros G L1 L2 Hd Hin W FS Hno HC.
  destruct (leaves_facts _ _ _ _ G L1) as (_ & F1 & P1 & _ & _ & C1). destruct (leaves_facts _ _ _ _ G L2) as (_ & F2 & P2 & C2 & _).
  exists 0, (mc_reach c (rl_horz (rt_layer T l)) (rv_bc v1) (pad v2 s2)).
  pose proof (at_metal_within _ _ _ _ _ C2 C1 HC) as Hc. split; [|lia].
  unfold v2v_mincut. apply in_flat_map. exists c. split; [exact Hin|].
  rewrite P1, P2, F1, F2. apply wide_metal_iff in W. apply from_side_iff in FS. rewrite W, FS.
  destruct (mc_wide c (pad v1 s1)) eqn:E.
  - apply wide_metal_iff in E. apply Hno, from_side_iff in E. rewrite E. right. left. reflexivity.
  - left. reflexivity.
Qed.

(* --- the turn table --- *)
Lemma half_odd r w : 0 < r -> 0 <= w -> Z.quot (2 * r + w) 2 = r + Z.quot w 2.
Proof. intros Hr Hw. rewrite !Z.quot_div_nonneg by lia. rewrite Z.mul_comm, Z.add_comm, Z.div_add by lia. lia. Qed.
Lemma wire_box T l dirx d lo hi :
  let h := Z.quot (rl_width (rt_layer T l)) 2 in
  bleft (turned_wire T l dirx d lo hi) = (if dirx then d - h else lo) /\
  bright (turned_wire T l dirx d lo hi) = (if dirx then d + h else hi) /\
  bbottom (turned_wire T l dirx d lo hi) = (if dirx then lo else d - h) /\
  btop (turned_wire T l dirx d lo hi) = (if dirx then hi else d + h).
Proof. unfold turned_wire. destruct dirx; cbn; auto. Qed.
