(* The turn table is exact; whatever the via table forbids has a cause. *)
From Verif Require Import Base Stl GeomModel GeomSpec TechModel TechSpec TechProofs GcModel GcSpec GcProofs RpModel RpSpec RpProofs RpProofs2.

(* --- turns --- *)
Lemma turn_by_range T z s dirx v d : good_tech T -> 0 <= z -> layer_at z <= rt_top T -> leaves T (layer_at z) s v ->
  turn_query T z s dirx d = Some (is_included (merge_ranges (turn_minspc T (layer_at z) v dirx)) d).
Proof.
  intros G Hz Ht L. rewrite turn_query_entry by assumption.
  assert (Hl : 1 <= layer_at z <= rt_top T) by (unfold layer_at in *; lia).
  rewrite (leaves_side _ _ _ _ Hl L). reflexivity.
Qed.
Definition reach (dirx : bool) (a : box) : Z := if dirx then bright a else btop a.
Lemma turn_half dirx a w : centred a -> 0 <= w -> Z.quot (ext_along dirx a + w) 2 = reach dirx a + Z.quot w 2.
Proof.
  intros (A1 & A2 & A3 & A4) Hw. unfold ext_along, reach. destruct dirx.
  - rewrite A1. replace (bright a - - bright a) with (2 * bright a) by lia. now apply half_odd.
  - rewrite A2. replace (btop a - - btop a) with (2 * btop a) by lia. now apply half_odd.
Qed.
Lemma quot2_bound w : 0 <= w -> 0 <= Z.quot w 2 /\ 2 * Z.quot w 2 <= w.
Proof.
  intros H. rewrite Z.quot_div_nonneg by lia. pose proof (Z.div_pos w 2 H ltac:(lia)).
  pose proof (Z.mul_div_le w 2 ltac:(lia)). lia.
Qed.
Lemma close_turn T l s dirx v d lo hi : good_tech T -> leaves T l s v -> 0 <= rl_width (rt_layer T l) -> 0 < d -> lo <= 0 <= hi ->
  sticks_out T l dirx (pad v s) -> too_close T l (pad v s) (turned_wire T l dirx d lo hi) ->
  is_included (merge_ranges (turn_minspc T l v dirx)) d = true.
Proof.
  intros G L Hw Hd Hlo S (w & (rows & cols & vals & Er & OK & TV) & NT & CL).
  destruct (leaves_facts _ _ _ _ G L) as (_ & _ & P & C & _). rewrite sticks_out_across in S.
  destruct (wire_box T l dirx d lo hi) as (W1 & W2 & W3 & W4). cbv zeta in *.
  unfold turn_minspc. rewrite P, Er, (turn_half dirx (pad v s) (rl_width (rt_layer T l)) C Hw).
  set (dw := rl_width (rt_layer T l)) in *. set (a := pad v s) in *.
  destruct (Z.ltb_spec dw (ext_across dirx a)) as [_|]; [|lia].
  destruct (table_total rows cols vals (Z.max (box_width a) dw) (ext_across dirx a) OK) as (u & TU & FU & _).
  cbn [rule_find]. rewrite FU. apply merge_single.
  destruct (table_value_bounds _ _ _ _ _ _ OK TV) as [_ (top & _ & B)].
  assert (Hgap : reach dirx a + Z.quot dw 2 < d).
  { destruct (Z_lt_le_dec (reach dirx a + Z.quot dw 2) d) as [H|H]; [exact H|exfalso]. apply NT.
    destruct C as (A1 & A2 & A3 & A4). unfold reach in H. pose proof (quot2_bound dw Hw) as [Q1 Q2].
    destruct dirx.
    - exists (mkPt (Z.min (bright a) (d + Z.quot dw 2)) 0). rewrite !in_box_iff, W1, W2, W3, W4, A1, A2. cbn [px py]. lia.
    - exists (mkPt 0 (Z.min (btop a) (d + Z.quot dw 2))). rewrite !in_box_iff, W1, W2, W3, W4, A1, A2. cbn [px py]. lia. }
  assert (Hclose : d < w + (reach dirx a + Z.quot dw 2)).
  { destruct CL as (p & q & Hp & Hq & E). unfold dist2 in E. apply abs_lt_sq in E; [|lia]. destruct E as [E1 E2].
    rewrite in_box_iff in Hp, Hq. rewrite W1, W2, W3, W4 in Hq. unfold reach in *. destruct dirx; lia. }
  assert (Huw : w <= u).
  { apply (table_grows _ _ _ _ _ _ _ _ _ OK TV TU).
    - assert (Hbw : box_width (turned_wire T l dirx d lo hi) <= dw).
      { unfold box_width. rewrite W1, W2, W3, W4. pose proof (quot2_bound dw Hw). destruct dirx; lia. }
      lia.
    - unfold run_length, signed_overlap, ext_across, reach in *. rewrite W1, W2, W3, W4.
      destruct C as (A1 & A2 & A3 & A4). pose proof (quot2_bound dw Hw) as [Q1 Q2].
      destruct dirx; cbn match in *.
      + apply Z.max_lub; [|lia]. clear - Hgap A1 A2 A3 A4 Q1. lia.
      + apply Z.max_lub; [lia|]. clear - Hgap A1 A2 A3 A4 Q1. lia. }
  lia.
Qed.
(* the wire passes the whole pad *)
Definition spans (dirx : bool) (a : box) (lo hi : Z) : Prop :=
  if dirx then lo <= bbottom a /\ btop a <= hi else lo <= bleft a /\ bright a <= hi.
Lemma turn_exact T l s dirx v d lo hi rows cols vals : good_tech T -> leaves T l s v ->
  rl_spc (rt_layer T l) = PrlTable rows cols vals -> prl_table_ok rows cols vals ->
  0 < rl_width (rt_layer T l) -> Z.even (rl_width (rt_layer T l)) = true -> 0 < d ->
  spans dirx (pad v s) lo hi -> rl_width (rt_layer T l) <= hi - lo ->
  (is_included (merge_ranges (turn_minspc T l v dirx)) d = true <->
   sticks_out T l dirx (pad v s) /\ too_close T l (pad v s) (turned_wire T l dirx d lo hi)).
Proof.
  intros G L Er OK Hw Hev Hd Sp Hlen.
  destruct (leaves_facts _ _ _ _ G L) as (_ & _ & P & C & _). split.
  2:{ intros [H1 H2]. apply (close_turn T l s dirx v d lo hi); auto; [lia|].
      destruct C as (A1 & A2 & A3 & A4). unfold spans in Sp. destruct dirx; lia. }
  unfold turn_minspc. rewrite P, Er, (turn_half dirx (pad v s) (rl_width (rt_layer T l)) C ltac:(lia)).
  rewrite sticks_out_across. destruct (wire_box T l dirx d lo hi) as (W1 & W2 & W3 & W4). cbv zeta in *.
  assert (He : 2 * Z.quot (rl_width (rt_layer T l)) 2 = rl_width (rt_layer T l)).
  { apply Z.even_spec in Hev. destruct Hev as [k Hk]. rewrite Hk. rewrite (Z.mul_comm 2 k), Z.quot_mul by lia. lia. }
  set (dw := rl_width (rt_layer T l)) in *. set (a := pad v s) in *. set (h := Z.quot dw 2) in *.
  destruct (Z.ltb_spec dw (ext_across dirx a)) as [Hs|]; [|simpl; discriminate].
  cbn [rule_find].
  destruct (table_total rows cols vals (Z.max (box_width a) dw) (ext_across dirx a) OK) as (u & TU & FU & Hu).
  rewrite FU. intros H. apply merge_single in H. split; [exact Hs|].
  destruct C as (A1 & A2 & A3 & A4).
  assert (Hrun : run_length a (turned_wire T l dirx d lo hi) = ext_across dirx a).
  { unfold run_length, signed_overlap, ext_across, reach, spans in *. rewrite W1, W2, W3, W4. destruct dirx; lia. }
  assert (Hwid : box_width (turned_wire T l dirx d lo hi) = dw).
  { unfold box_width. rewrite W1, W2, W3, W4. destruct dirx; lia. }
  exists u. split.
  { exists rows, cols, vals. rewrite Hrun, Hwid. auto. }
  split.
  - intros ([x y] & Hp & Hq). rewrite in_box_iff in Hp, Hq. rewrite W1, W2, W3, W4 in Hq. cbn [px py] in *.
    unfold reach in *. destruct dirx; lia.
  - assert (Hsq : forall g, 0 <= g < u -> g * g < u * u) by (intros g Hg; apply Z.square_lt_mono_nonneg; lia).
    unfold reach, spans in *. destruct dirx.
    + exists (mkPt (bright a) 0), (mkPt (d - h) 0). rewrite !in_box_iff, W1, W2, W3, W4. cbn [px py].
      split; [lia|]. split; [lia|]. unfold dist2. cbn [px py]. specialize (Hsq (d - h - bright a) ltac:(lia)).
      replace ((bright a - (d - h)) * (bright a - (d - h)) + (0 - 0) * (0 - 0)) with ((d - h - bright a) * (d - h - bright a)) by ring.
      exact Hsq.
    + exists (mkPt 0 (btop a)), (mkPt 0 (d - h)). rewrite !in_box_iff, W1, W2, W3, W4. cbn [px py].
      split; [lia|]. split; [lia|]. unfold dist2. cbn [px py]. specialize (Hsq (d - h - btop a) ltac:(lia)).
      replace ((0 - 0) * (0 - 0) + (btop a - (d - h)) * (btop a - (d - h))) with ((d - h - btop a) * (d - h - btop a)) by ring.
      exact Hsq.
Qed.

(* --- causes --- *)
Lemma moved_at_most dirx d a b v : centred a -> centred b -> 0 <= v -> 0 < d -> d <= v + half dirx a b -> at_most a (moved dirx d b) v.
Proof.
  intros Ca Cb Hv Hd H. rewrite half_centred in H by assumption.
  destruct Ca as (A1 & A2 & A3 & A4), Cb as (B1 & B2 & B3 & B4). destruct (moved_box dirx d b) as (M1 & M2 & M3 & M4).
  assert (Hsq : forall g, 0 <= g <= v -> g * g <= v * v) by (intros g Hg; apply Z.square_le_mono_nonneg; lia).
  destruct dirx.
  - set (x := Z.min (bright a) (bright b + d)). set (y := Z.max (bleft b + d) x).
    exists (mkPt x 0), (mkPt y 0). rewrite !in_box_iff, M1, M2, M3, M4. cbn [px py].
    split; [unfold x; lia|]. split; [unfold y, x; lia|]. unfold dist2. cbn [px py].
    specialize (Hsq (y - x) ltac:(unfold y, x; lia)).
    replace ((x - y) * (x - y) + (0 - 0) * (0 - 0)) with ((y - x) * (y - x)) by ring. exact Hsq.
  - set (x := Z.min (btop a) (btop b + d)). set (y := Z.max (bbottom b + d) x).
    exists (mkPt 0 x), (mkPt 0 y). rewrite !in_box_iff, M1, M2, M3, M4. cbn [px py].
    split; [unfold x; lia|]. split; [unfold y, x; lia|]. unfold dist2. cbn [px py].
    specialize (Hsq (y - x) ltac:(unfold y, x; lia)).
    replace ((0 - 0) * (0 - 0) + (x - y) * (x - y)) with ((y - x) * (y - x)) by ring. exact Hsq.
Qed.
Lemma moved_not_over dirx d a b : centred a -> centred b -> half dirx a b <= d -> ~ overlapping a (moved dirx d b).
Proof.
  intros Ca Cb. rewrite half_centred by assumption. destruct Ca as (A1 & A2 & A3 & A4), Cb as (B1 & B2 & B3 & B4).
  destruct (moved_box dirx d b) as (M1 & M2 & M3 & M4). unfold overlapping. rewrite M1, M2, M3, M4. destruct dirx; lia.
Qed.
Lemma moved_run_le dirx d a b : centred a -> centred b -> half dirx a b <= d ->
  run_length a (moved dirx d b) = Z.min (ext_across dirx a) (ext_across dirx b).
Proof.
  intros Ca Cb. rewrite half_centred by assumption. destruct Ca as (A1 & A2 & A3 & A4), Cb as (B1 & B2 & B3 & B4).
  destruct (moved_box dirx d b) as (M1 & M2 & M3 & M4).
  unfold run_length, signed_overlap, ext_across. rewrite M1, M2, M3, M4. destruct dirx; cbn match in *; intros H.
  - rewrite (Z.min_l (bright a)) by lia. rewrite (Z.max_r (bleft a)) by lia. lia.
  - rewrite (Z.min_l (btop a)) by lia. rewrite (Z.max_r (bbottom a)) by lia. lia.
Qed.
Lemma half_pos dirx a b : centred a -> centred b -> 0 < half dirx a b.
Proof. intros Ca Cb. rewrite half_centred by assumption. destruct Ca as (_ & _ & ? & ?), Cb as (_ & _ & ? & ?). destruct dirx; lia. Qed.

Lemma pads_cause T l s1 s2 dirx v1 v2 a b d : good_tech T -> leaves T l s1 v1 -> leaves T l s2 v2 -> prl_rule (rl_spc (rt_layer T l)) ->
  In (a, b) (v2v_minspc_here T l v1 v2 dirx) -> 0 < d -> a <= d <= b ->
  sticks_out T l dirx (pad v1 s1) /\ sticks_out T l dirx (pad v2 s2) /\ pads_near T l (pad v1 s1) (moved dirx d (pad v2 s2)).
Proof.
  intros G L1 L2 R Hin Hd Hr. rewrite !sticks_out_across.
  destruct (leaves_facts _ _ _ _ G L1) as (_ & _ & P1 & C1 & _). destruct (leaves_facts _ _ _ _ G L2) as (_ & _ & P2 & C2 & _).
  unfold v2v_minspc_here in Hin. rewrite P1, P2 in Hin.
  destruct (Z.ltb_spec (rl_width (rt_layer T l)) (ext_across dirx (pad v1 s1))) as [S1|]; [|destruct Hin].
  destruct (Z.ltb_spec (rl_width (rt_layer T l)) (ext_across dirx (pad v2 s2))) as [S2|]; [|destruct Hin]. cbn [andb] in Hin.
  split; [exact S1|]. split; [exact S2|].
  destruct R as [R|(rows & cols & vals & R & OK)]; [rewrite R in Hin; destruct Hin|]. rewrite R in Hin. cbn [rule_find] in Hin.
  destruct (table_total rows cols vals (Z.max (box_width (pad v1 s1)) (box_width (pad v2 s2)))
             (Z.min (ext_across dirx (pad v1 s1)) (ext_across dirx (pad v2 s2))) OK) as (u & TU & FU & Hu).
  rewrite FU in Hin. fold (half dirx (pad v1 s1) (pad v2 s2)) in Hin. destruct Hin as [E|[]]. injection E as <- <-.
  exists u. split.
  - exists rows, cols, vals. rewrite moved_width, (moved_run_le _ _ _ _ C1 C2) by lia. auto.
  - split; [apply moved_not_over; auto; lia|apply moved_at_most; auto; lia].
Qed.
Lemma far_cause T l s v a b d : good_tech T -> leaves T l s v -> prl_rule (rl_spc (rt_layer T (far_layer l s))) ->
  In (a, b) (v2v_minspc_other T l v v true) -> 0 < d -> a <= d <= b -> far_pads_near T l s v d.
Proof.
  intros G L R Hin Hd Hr. destruct (leaves_facts _ _ _ _ G L) as (_ & F1 & P & _ & C & _).
  unfold v2v_minspc_other in Hin. rewrite Z.eqb_refl, F1, P in Hin.
  destruct R as [R|(rows & cols & vals & R & OK)].
  { destruct s; cbn [negb far_layer] in *; rewrite R in Hin; destruct Hin. }
  destruct (table_total rows cols vals (Z.max (box_width (far_pad v s)) (box_width (pad v s))) (ext_across true (far_pad v s)) OK)
    as (u & TU & FU & Hu).
  assert (E : (a, b) = (half true (far_pad v s) (far_pad v s), u + half true (far_pad v s) (far_pad v s))).
  { rewrite half_same. unfold ext_along. destruct s; cbn [negb far_layer far_pad pad] in *; rewrite R in Hin; cbn [rule_find] in Hin;
      rewrite FU in Hin; destruct Hin as [<- | []]; reflexivity. }
  injection E as -> ->. exists rows, cols, vals, u. split; [exact R|]. split.
  - rewrite (moved_run_le _ _ _ _ C C), Z.min_id by lia. exact TU.
  - split; [apply moved_not_over; auto; lia|apply moved_at_most; auto; lia].
Qed.
Lemma reach_near c horz d metal cutb : centred metal -> centred cutb -> 0 < d -> d <= mc_reach c horz cutb metal ->
  cut_near_metal c horz metal (moved horz d cutb).
Proof.
  intros (A1 & A2 & _) (B1 & B2 & _). unfold cut_near_metal, mc_reach. destruct (moved_box horz d cutb) as (-> & -> & -> & ->).
  rewrite A1, A2, B1, B2. destruct (mc_len c) as [[? dist]|]; destruct horz; lia.
Qed.
Lemma mincut_has_cause T l s1 s2 v1 v2 a b d : good_tech T -> leaves T l s1 v1 -> leaves T l s2 v2 ->
  In (a, b) (v2v_mincut T l v1 v2) -> 0 < d -> a <= d <= b -> mincut_cause T l s1 s2 v1 v2 d.
Proof.
  intros G L1 L2 Hin Hd Hr.
  destruct (leaves_facts _ _ _ _ G L1) as (_ & F1 & P1 & C1 & _ & K1). destruct (leaves_facts _ _ _ _ G L2) as (_ & F2 & P2 & C2 & _ & K2).
  unfold v2v_mincut in Hin. rewrite P1, P2, F1, F2 in Hin. apply in_flat_map in Hin. destruct Hin as (c & Hc & Hin).
  exists c. split; [exact Hc|].
  assert (Hsec : In (a, b) (if mc_wide c (pad v2 s2) then
            if conn_checks (mc_conn c) (negb s1) then [(0, mc_reach c (rl_horz (rt_layer T l)) (rv_bc v1) (pad v2 s2))] else [] else []) ->
     wide_metal c (pad v2 s2) /\ from_side c s1 /\
      cut_near_metal c (rl_horz (rt_layer T l)) (pad v2 s2) (moved (rl_horz (rt_layer T l)) d (rv_bc v1))).
  { intros H. destruct (mc_wide c (pad v2 s2)) eqn:W; [|destruct H]. destruct (conn_checks (mc_conn c) (negb s1)) eqn:S; [|destruct H].
    destruct H as [E|[]]. injection E as <- <-. apply wide_metal_iff in W. apply from_side_iff in S.
    split; [exact W|]. split; [exact S|]. apply reach_near; auto; lia. }
  destruct (mc_wide c (pad v1 s1)) eqn:W; [|right; exact (Hsec Hin)].
  destruct (conn_checks (mc_conn c) (negb s2)) eqn:S; [|destruct Hin]. destruct Hin as [E|Hin]; [|right; exact (Hsec Hin)].
  injection E as <- <-. apply wide_metal_iff in W. apply from_side_iff in S. left.
  split; [exact W|]. split; [exact S|]. apply reach_near; auto; lia.
Qed.
Lemma chosen_inter T c1 c2 r : v2v_inter_rule T c1 c2 = Some r -> inter_rule T c1 c2 r.
Proof.
  unfold v2v_inter_rule, inter_rule, given_between.
  destruct (rl_inter (rt_layer T c1) true c2) as [x|]; [intros H; auto|].
  destruct (rl_inter (rt_layer T c2) true c1) as [x|]; [intros H; auto|].
  destruct (rl_inter (rt_layer T c1) false c2) as [x|]; intros H; right; (split; [|auto]); intros r' [?|?]; discriminate.
Qed.
Lemma near_cuts r dirx d a b : centred a -> centred b -> 0 <= rc_spc r -> 0 < d ->
  d <= rc_spc r + (if rc_c2c r then 0 else half dirx a b) -> cuts_near r a (moved dirx d b).
Proof.
  intros Ca Cb Hs Hd H. unfold cuts_near. destruct (rc_c2c r).
  - rewrite centre_moved by assumption. apply Z.square_le_mono_nonneg; lia.
  - now apply moved_at_most.
Qed.
Lemma cuts_have_cause T l s1 s2 dirx v1 v2 a b d : good_tech T -> cut_rules_ok T -> leaves T l s1 v1 -> leaves T l s2 v2 ->
  In (a, b) (v2v_cutspc T v1 v2 dirx) -> 0 < d -> a <= d <= b -> cut_cause T s1 s2 dirx v1 v2 d.
Proof.
  intros G [O1 O2] L1 L2 Hin Hd Hr.
  destruct (leaves_facts _ _ _ _ G L1) as (_ & _ & _ & _ & _ & C1). destruct (leaves_facts _ _ _ _ G L2) as (_ & _ & _ & _ & _ & C2).
  unfold cut_cause. unfold v2v_cutspc in Hin. rewrite (sides_cut _ _ _ _ _ _ G L1 L2) in Hin.
  destruct (Bool.eqb s1 s2) eqn:Es.
  - apply Bool.eqb_prop in Es. subst s2. pose proof (same_side_same_via _ _ _ _ _ L1 L2) as <-.
    apply in_flat_map in Hin. destruct Hin as (r & Hr1 & Hr2). exists r.
    destruct (rc_plain r) eqn:P; [|destruct Hr2].
    assert (PR : plain_rule r).
    { unfold rc_plain in P. unfold plain_rule. destruct (rc_second r), (rc_adj r), (rc_prlo r), (rc_area r); simpl in P; auto; discriminate. }
    assert (K : cut_rule T (rv_cutl v1) r /\ (a, b) = (0, rc_spc r + (if rc_c2c r then 0 else ext_along dirx (rv_bc v1)))).
    { unfold cut_rule. destruct (rl_cuts (rt_layer T (rv_cutl v1)) true) as [|x y] eqn:E.
      - destruct (rc_same r) eqn:Sm; [destruct Hr2|]. cbn [negb orb] in Hr2. destruct Hr2 as [<- | []]. auto 10.
      - rewrite E in Hr1. destruct (rc_same r) eqn:Sm; [|destruct Hr2]. cbn [negb orb] in Hr2. destruct Hr2 as [<- | []]. auto 10. }
    destruct K as [K E]. injection E as -> ->. split; [exact K|]. apply near_cuts; auto.
    + eapply O1. exact Hr1.
    + rewrite half_same. lia.
  - destruct (v2v_inter_rule T (rv_cutl v1) (rv_cutl v2)) as [r|] eqn:E; [|destruct Hin]. exists r.
    apply chosen_inter in E. fold (half dirx (rv_bc v1) (rv_bc v2)) in Hin.
    assert (Hs : 0 <= rc_spc r).
    { destruct E as [[E|E]|[_ [E|E]]]; eapply O2; exact E. }
    destruct (Z.eqb_spec (rc_spc r) 0) as [E0|E0]; [destruct Hin|].
    destruct (Z.eqb_spec (rc_spc r + (if rc_c2c r then 0 else half dirx (rv_bc v1) (rv_bc v2))) 0) as [E1|E1]; [destruct Hin|].
    cbn [negb andb] in Hin. destruct (rc_stack r) eqn:St; [destruct Hin|]. destruct Hin as [E'|[]]. injection E' as <- <-.
    split; [auto|]. apply near_cuts; auto. lia.
Qed.
