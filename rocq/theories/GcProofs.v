From Verif Require Import Base Stl GeomModel GeomSpec GeomProofs TechModel TechSpec TechProofs GcModel GcSpec.

Ltac bx b := let a1 := fresh b "xl" in let a2 := fresh b "yl" in
  let a3 := fresh b "xh" in let a4 := fresh b "yh" in destruct b as [[a1 a2] [a3 a4]].
Ltac bxs := unfold deltaX, deltaY in *; unfold bleft, bright, bbottom, btop in *; cbn [ll ur px py] in *.

(* --- geometry ---------------------------------------------------------------------------- *)
Lemma mid_two_spec a b c d : a <= b -> c <= d ->
  mid_two a b c d = (Z.min (Z.max a c) (Z.min b d), Z.max (Z.max a c) (Z.min b d)).
Proof.
  intros H1 H2. unfold mid_two. cbn [insert_z].
  destruct (c <=? d) eqn:E1; [|lia]. cbn [insert_z].
  destruct (b <=? c) eqn:E2; cbn [insert_z]; [|destruct (b <=? d) eqn:E3]; cbn [insert_z];
  repeat (match goal with |- context [a <=? ?x] => destruct (a <=? x) eqn:? end; cbn [insert_z]);
  cbn [nth]; f_equal; lia.
Qed.

Lemma gen_intersect_between a b : normalised a -> normalised b -> gen_intersect a b = between a b.
Proof.
  intros [H1 H2] [H3 H4]. unfold gen_intersect, between. bx a; bx b; bxs.
  rewrite !mid_two_spec by assumption. reflexivity.
Qed.

Lemma ivl_dist_spec a b c d : a <= b -> c <= d -> ivl_dist a b c d = Z.max (Z.max a c - Z.min b d) 0.
Proof. intros. unfold ivl_dist. zcases; lia. Qed.

Lemma pair_geom_spec a b : normalised a -> normalised b ->
  g_marker (pair_geom a b) = between a b /\
  g_dx (pair_geom a b) = box2boxDx a b /\ g_dy (pair_geom a b) = box2boxDy a b /\
  (~ (g_dx (pair_geom a b) = 0 /\ g_dy (pair_geom a b) = 0) -> g_prl (pair_geom a b) = run_length a b).
Proof.
  intros Ha Hb. unfold pair_geom. cbn [g_marker g_dx g_dy g_prl].
  rewrite gen_intersect_between by assumption.
  destruct Ha as [A1 A2], Hb as [B1 B2].
  rewrite !ivl_dist_spec by assumption.
  split; [reflexivity|]. split; [reflexivity|]. split; [reflexivity|].
  intros _. unfold run_length, signed_overlap, between. bx a; bx b; bxs.
  zcases; lia.
Qed.

Lemma pair_geom_sym a b : normalised a -> normalised b -> pair_geom a b = pair_geom b a.
Proof.
  intros Ha Hb. unfold pair_geom. rewrite !gen_intersect_between by assumption.
  destruct Ha as [A1 A2], Hb as [B1 B2]. rewrite !ivl_dist_spec by assumption.
  assert (Em : between a b = between b a).
  { unfold between. bx a; bx b; bxs. f_equal; f_equal; lia. }
  rewrite Em. rewrite (Z.max_comm (bleft a)), (Z.min_comm (bright a)), (Z.max_comm (bbottom a)), (Z.min_comm (btop a)).
  reflexivity.
Qed.

Lemma touching_iff a b : normalised a -> normalised b ->
  (touching a b <-> box2boxDx a b = 0 /\ box2boxDy a b = 0).
Proof.
  intros Ha Hb. unfold touching, in_box, box2boxDx, box2boxDy. destruct Ha, Hb. bx a; bx b; bxs. split.
  - intros ([x y] & P). bxs. lia.
  - intros [P Q]. exists (mkPt (Z.max axl bxl) (Z.max ayl byl)). bxs. lia.
Qed.

Lemma closer_iff_dist a b v : normalised a -> normalised b ->
  (closer_than a b v <-> box2boxDistSquare a b < v * v).
Proof.
  intros Ha Hb. destruct (box2box_spec a b Ha Hb) as [(p & q & Hp & Hq & E) Hm]. split.
  - intros (p' & q' & Hp' & Hq' & L). specialize (Hm p' q' Hp' Hq'). lia.
  - intros L. exists p, q. split; [exact Hp|]. split; [exact Hq|]. lia.
Qed.

(* a shape closer than [d] meets the window *)
Lemma window_meets a b v d : normalised a -> normalised b -> 0 <= v <= d ->
  closer_than a b v -> box_overlaps (my_bloat a d) b true = true.
Proof.
  intros Ha Hb Hv (p & q & Hp & Hq & L). unfold dist2 in L.
  set (x := px p - px q) in *. set (y := py p - py q) in *.
  assert (Hx : Z.abs x < v).
  { apply Z.square_lt_simpl_nonneg; [lia|]. rewrite Z.abs_square. pose proof (Z.square_nonneg y). lia. }
  assert (Hy : Z.abs y < v).
  { apply Z.square_lt_simpl_nonneg; [lia|]. rewrite Z.abs_square. pose proof (Z.square_nonneg x). lia. }
  unfold x, y in *. clear x y.
  unfold box_overlaps, my_bloat. unfold in_box, normalised in *. bx a; bx b; bxs. lia.
Qed.

(* --- the required spacing ---------------------------------------------------------------- *)
Lemma table_value_bounds rows cols vals w prl v : prl_table_ok rows cols vals ->
  table_value rows cols vals w prl v ->
  find2 rows cols vals w prl = Some v /\
  exists hi, find2_max vals = Some hi /\ 0 <= v <= hi.
Proof.
  intros (R & C & SR & SC & T & M & N) (i & j & Hi & Hj & ->).
  destruct (find2_spec rows cols vals w prl R C SR SC T) as (i' & j' & Hi' & Hj' & E).
  rewrite (last_below_unique _ _ _ _ Hi Hi'), (last_below_unique _ _ _ _ Hj Hj').
  split; [exact E|].
  destruct (find2_max_spec rows cols vals R C T) as [Emax Emin].
  destruct Hi' as [Li _], Hj' as [Lj _].
  exists (cell vals (length rows - 1) (length cols - 1)). split; [exact Emax|].
  split.
  - transitivity (cell vals 0 0); [exact N|]. apply M; lia.
  - apply M; lia.
Qed.

Lemma req_spc_required E r1 r2 v : normalised (gbox r1) -> normalised (gbox r2) ->
  gnet r1 <> gnet r2 -> required E r1 r2 v ->
  req_spc E r1 r2 (run_length (gbox r1) (gbox r2)) = Some v /\
  exists d, max_spc E = Some d /\ 0 <= v <= d.
Proof.
  intros N1 N2 Hn (rows & cols & vals & ER & OK & TV).
  destruct (table_value_bounds _ _ _ _ _ _ OK TV) as [F (hi & FM & B)].
  split; [|exists hi; unfold max_spc; rewrite ER; auto].
  unfold req_spc. rewrite ER.
  replace (if is_obs E (gnet r1) && e_minobs E then e_width E else rwidth r1) with (rule_width E r1)
    by (unfold is_obs, rule_width, rwidth; destruct (e_kind E (gnet r1)); try reflexivity;
        destruct (e_minobs E); reflexivity).
  replace (if is_obs E (gnet r2) && e_minobs E then e_width E else rwidth r2) with (rule_width E r2)
    by (unfold is_obs, rule_width, rwidth; destruct (e_kind E (gnet r2)); try reflexivity;
        destruct (e_minobs E); reflexivity).
  rewrite F. rewrite (proj2 (Z.eqb_neq _ _) Hn). rewrite andb_false_r. reflexivity.
Qed.

Lemma req_spc_sym E r1 r2 prl : req_spc E r1 r2 prl = req_spc E r2 r1 prl.
Proof.
  unfold req_spc. destruct (e_rule E); try reflexivity.
  rewrite (orb_comm (is_obs E (gnet r1))), (Z.max_comm (if is_obs E (gnet r1) && e_minobs E then _ else _)).
  destruct (find2 _ _ _ _ _); [|reflexivity].
  rewrite (Z.eqb_sym (gnet r1)). destruct (gnet r2 =? gnet r1) eqn:En; [|rewrite andb_false_r; reflexivity].
  apply Z.eqb_eq in En. rewrite En. reflexivity.
Qed.

Lemma query_In E q r : In r (query_rects E q) <-> In r (e_rects E) /\ box_overlaps q (gbox r) true = true.
Proof. unfold query_rects. apply filter_In. Qed.

Lemma window_complete E r1 r2 v d : normalised (gbox r1) -> normalised (gbox r2) ->
  In r2 (e_rects E) -> 0 <= v <= d -> closer_than (gbox r1) (gbox r2) v ->
  In r2 (query_rects E (my_bloat (gbox r1) d)).
Proof.
  intros N1 N2 I B C. apply query_In. split; [exact I|]. exact (window_meets _ _ _ _ N1 N2 B C).
Qed.

Lemma closer_sym a b v : closer_than a b v -> closer_than b a v.
Proof.
  intros (p & q & Hp & Hq & L). exists q, p. split; [exact Hq|]. split; [exact Hp|].
  unfold dist2 in *. nia.
Qed.

(* --- true polygon edges ------------------------------------------------------------------ *)
Definition fle (f g : eflags) : Prop :=
  (fL f = true -> fL g = true) /\ (fR f = true -> fR g = true) /\
  (fB f = true -> fB g = true) /\ (fT f = true -> fT g = true).
Lemma fle_refl f : fle f f. Proof. unfold fle; auto. Qed.
Lemma fle_trans f g h : fle f g -> fle g h -> fle f h. Proof. unfold fle; intuition. Qed.
Lemma edge_flag_le m prl f e : fle f (edge_flag m prl f e).
Proof.
  unfold edge_flag. destruct (prl <=? 0); destruct (edr e);
  match goal with |- context [if ?c then _ else _] => destruct c end; unfold fle; cbn; auto.
Qed.
Lemma fold_flag_le m prl es f : fle f (fold_left (edge_flag m prl) es f).
Proof.
  revert f. induction es as [|e es IH]; intros f; [apply fle_refl|].
  cbn [fold_left]. eapply fle_trans; [apply edge_flag_le|apply IH].
Qed.
Lemma edge_flag_mono m prl f g e : fle f g -> fle (edge_flag m prl f e) (edge_flag m prl g e).
Proof.
  intros H. unfold edge_flag. destruct (prl <=? 0); destruct (edr e);
  match goal with |- context [if ?c then _ else _] => destruct c end; unfold fle in *; cbn; tauto.
Qed.
Lemma fold_flag_mono m prl es f g : fle f g ->
  fle (fold_left (edge_flag m prl) es f) (fold_left (edge_flag m prl) es g).
Proof.
  revert f g. induction es as [|e es IH]; intros f g H; [exact H|].
  cbn [fold_left]. apply IH. apply edge_flag_mono. exact H.
Qed.
Lemma fold_flag_In m prl es e : In e es ->
  fle (edge_flag m prl (mkEF false false false false) e)
      (fold_left (edge_flag m prl) es (mkEF false false false false)).
Proof.
  generalize (mkEF false false false false) as f.
  induction es as [|a es IH]; intros f; [contradiction|].
  intros [-> |H]; cbn [fold_left]; [apply fold_flag_le|].
  eapply fle_trans; [|apply IH; exact H]. apply edge_flag_mono. apply edge_flag_le.
Qed.
