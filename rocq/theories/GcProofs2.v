From Verif Require Import Base Stl GeomModel GeomSpec GeomProofs TechModel TechSpec TechProofs GcModel GcSpec GcProofs.

Definition relevant (E : genv) (n1 n2 : Z) (m : box) : list gedge :=
  filter (fun e => (enet e =? n1) || (enet e =? n2)) (query_edges E m).

Lemma relevant_In E n1 n2 m e : In e (e_edges E) -> enet e = n1 \/ enet e = n2 ->
  box_overlaps m (box_of_pts (elow e) (ehigh e)) true = true -> In e (relevant E n1 n2 m).
Proof.
  intros I N O. unfold relevant, query_edges. apply filter_In. split; [apply filter_In; auto|]. lia.
Qed.

Lemma flags_y E n1 n2 a b na nb prl :
  solid a -> solid b -> (na = n1 \/ na = n2) -> (nb = n1 \/ nb = n2) ->
  incl (outline na a) (e_edges E) -> incl (outline nb b) (e_edges E) ->
  btop a < bbottom b ->
  (prl <= 0 \/ 0 < signed_overlap (bleft a) (bright a) (bleft b) (bright b)) ->
  let m := between a b in
  let f := fold_left (edge_flag m prl) (relevant E n1 n2 m) (mkEF false false false false) in
  fB f && fT f = true.
Proof.
  intros Sa Sb Na Nb Ia Ib L P m f.
  set (e1 := mkGE na EW (mkPt (bright a) (btop a)) (mkPt (bleft a) (btop a))).
  set (e2 := mkGE nb EE (mkPt (bleft b) (bbottom b)) (mkPt (bright b) (bbottom b))).
  assert (I1 : In e1 (relevant E n1 n2 m)).
  { apply relevant_In; [apply Ia; cbn; auto|exact Na|].
    subst e1 m. unfold box_overlaps, between, box_of_pts, box_set. destruct Sa, Sb. cbn [elow ehigh].
    bx a; bx b; bxs. zcases; bxs; lia. }
  assert (I2 : In e2 (relevant E n1 n2 m)).
  { apply relevant_In; [apply Ib; cbn; auto|exact Nb|].
    subst e2 m. unfold box_overlaps, between, box_of_pts, box_set. destruct Sa, Sb. cbn [elow ehigh].
    bx a; bx b; bxs. zcases; bxs; lia. }
  pose proof (fold_flag_In m prl _ _ I1) as F1. pose proof (fold_flag_In m prl _ _ I2) as F2.
  fold f in F1, F2. apply andb_true_iff. split.
  - apply F1. subst e1 m. unfold edge_flag, between. destruct Sa, Sb. unfold signed_overlap in P. cbn [elow ehigh edr].
    bx a; bx b; bxs. zcases; bxs; cbn [fB]; try reflexivity; lia.
  - apply F2. subst e2 m. unfold edge_flag, between. destruct Sa, Sb. unfold signed_overlap in P. cbn [elow ehigh edr].
    bx a; bx b; bxs. zcases; bxs; cbn [fT]; try reflexivity; lia.
Qed.

Lemma flags_x E n1 n2 a b na nb prl :
  solid a -> solid b -> (na = n1 \/ na = n2) -> (nb = n1 \/ nb = n2) ->
  incl (outline na a) (e_edges E) -> incl (outline nb b) (e_edges E) ->
  bright a < bleft b ->
  (prl <= 0 \/ 0 < signed_overlap (bbottom a) (btop a) (bbottom b) (btop b)) ->
  let m := between a b in
  let f := fold_left (edge_flag m prl) (relevant E n1 n2 m) (mkEF false false false false) in
  fL f && fR f = true.
Proof.
  intros Sa Sb Na Nb Ia Ib L P m f.
  set (e1 := mkGE na EN (mkPt (bright a) (bbottom a)) (mkPt (bright a) (btop a))).
  set (e2 := mkGE nb ES (mkPt (bleft b) (btop b)) (mkPt (bleft b) (bbottom b))).
  assert (I1 : In e1 (relevant E n1 n2 m)).
  { apply relevant_In; [apply Ia; cbn; auto|exact Na|].
    subst e1 m. unfold box_overlaps, between, box_of_pts, box_set. destruct Sa, Sb. cbn [elow ehigh].
    bx a; bx b; bxs. zcases; bxs; lia. }
  assert (I2 : In e2 (relevant E n1 n2 m)).
  { apply relevant_In; [apply Ib; cbn; auto|exact Nb|].
    subst e2 m. unfold box_overlaps, between, box_of_pts, box_set. destruct Sa, Sb. cbn [elow ehigh].
    bx a; bx b; bxs. zcases; bxs; lia. }
  pose proof (fold_flag_In m prl _ _ I1) as F1. pose proof (fold_flag_In m prl _ _ I2) as F2.
  fold f in F1, F2. apply andb_true_iff. split.
  - apply F1. subst e1 m. unfold edge_flag, between. destruct Sa, Sb. unfold signed_overlap in P. cbn [elow ehigh edr].
    bx a; bx b; bxs. zcases; bxs; cbn [fL]; try reflexivity; lia.
  - apply F2. subst e2 m. unfold edge_flag, between. destruct Sa, Sb. unfold signed_overlap in P. cbn [elow ehigh edr].
    bx a; bx b; bxs. zcases; bxs; cbn [fR]; try reflexivity; lia.
Qed.

Lemma between_sym a b : between a b = between b a.
Proof. unfold between. bx a; bx b; bxs. f_equal; f_equal; lia. Qed.

Lemma isolated_edges E r1 r2 : isolated E r1 -> isolated E r2 ->
  let a := gbox r1 in let b := gbox r2 in
  ~ (box2boxDx a b = 0 /\ box2boxDy a b = 0) ->
  let prl := run_length a b in
  has_poly_edge E (gnet r1) (gnet r2) (between a b)
    (if prl <=? 0 then 2 else if box2boxDx a b =? 0 then 0 else if box2boxDy a b =? 0 then 1 else 0) prl = true.
Proof.
  intros [S1 I1] [S2 I2] a b NT prl. unfold has_poly_edge.
  fold (relevant E (gnet r1) (gnet r2) (between a b)).
  set (f := fold_left _ _ _).
  assert (Y : box2boxDy a b <> 0 -> (prl <= 0 \/ 0 < signed_overlap (bleft a) (bright a) (bleft b) (bright b)) ->
              fB f && fT f = true).
  { intros D P. assert (btop a < bbottom b \/ btop b < bbottom a) as [L|L].
    { unfold box2boxDy in D. destruct S1, S2. fold a in H, H0. fold b in H1, H2. bxs. lia. }
    - apply (flags_y E (gnet r1) (gnet r2) a b (gnet r1) (gnet r2) prl S1 S2); auto.
    - unfold f. rewrite between_sym.
      apply (flags_y E (gnet r1) (gnet r2) b a (gnet r2) (gnet r1) prl S2 S1); auto.
      unfold signed_overlap in *. lia. }
  assert (X : box2boxDx a b <> 0 -> (prl <= 0 \/ 0 < signed_overlap (bbottom a) (btop a) (bbottom b) (btop b)) ->
              fL f && fR f = true).
  { intros D P. assert (bright a < bleft b \/ bright b < bleft a) as [L|L].
    { unfold box2boxDx in D. destruct S1, S2. fold a in H, H0. fold b in H1, H2. bxs. lia. }
    - apply (flags_x E (gnet r1) (gnet r2) a b (gnet r1) (gnet r2) prl S1 S2); auto.
    - unfold f. rewrite between_sym.
      apply (flags_x E (gnet r1) (gnet r2) b a (gnet r2) (gnet r1) prl S2 S1); auto.
      unfold signed_overlap in *. lia. }
  assert (Q1 : box2boxDx a b <> 0 -> signed_overlap (bleft a) (bright a) (bleft b) (bright b) < 0)
    by (unfold box2boxDx, signed_overlap; lia).
  assert (Q2 : box2boxDy a b <> 0 -> signed_overlap (bbottom a) (btop a) (bbottom b) (btop b) < 0)
    by (unfold box2boxDy, signed_overlap; lia).
  assert (PR : prl = Z.max (signed_overlap (bleft a) (bright a) (bleft b) (bright b))
                           (signed_overlap (bbottom a) (btop a) (bbottom b) (btop b))) by reflexivity.
  clearbody f prl.
  destruct (Z.eq_dec (box2boxDy a b) 0) as [EY|EY].
  - assert (EX : box2boxDx a b <> 0) by tauto.
    specialize (X EX). specialize (Q1 EX). rewrite EY.
    destruct (prl <=? 0) eqn:EP.
    + cbn [Z.eqb orb andb]. rewrite X by lia. destruct (fB f && fT f); reflexivity.
    + destruct (box2boxDx a b =? 0) eqn:E0; [lia|]. cbn [Z.eqb orb andb Pos.eqb]. rewrite X by lia. reflexivity.
  - specialize (Y EY). specialize (Q2 EY).
    destruct (prl <=? 0) eqn:EP.
    + cbn [Z.eqb orb andb Pos.eqb]. rewrite Y by lia. reflexivity.
    + assert (EX : box2boxDx a b = 0) by (destruct (Z.eq_dec (box2boxDx a b) 0); [assumption|specialize (Q1 n); lia]).
      rewrite EX. cbn [Z.eqb orb andb]. rewrite Y by lia. reflexivity.
Qed.

(* --- routed metal in the window ---------------------------------------------------------- *)
Lemma zrange_In a b x : In x (zrange a b) <-> a <= x < b.
Proof.
  unfold zrange. rewrite in_map_iff. split.
  - intros (k & <- & H). apply in_seq in H. lia.
  - intros H. exists (Z.to_nat (x - a)). split; [lia|]. apply in_seq. lia.
Qed.
Lemma cells_In b x y : In (x, y) (cells b) <-> bleft b <= x < bright b /\ bbottom b <= y < btop b.
Proof.
  unfold cells. rewrite in_flat_map. split.
  - intros (x' & Hx & H). apply in_map_iff in H as (y' & E & Hy). inversion E; subst.
    apply zrange_In in Hx, Hy. lia.
  - intros [Hx Hy]. exists x. split; [apply zrange_In; lia|]. apply in_map_iff. exists y.
    split; [reflexivity|]. apply zrange_In. lia.
Qed.
Lemma cell_in_spec x y b : cell_in (x, y) b = true <-> bleft b <= x < bright b /\ bbottom b <= y < btop b.
Proof. unfold cell_in. cbn [fst snd]. lia. Qed.

Lemma filter_none {A} (f : A -> bool) l : (forall x, In x l -> f x = false) -> filter f l = [].
Proof.
  induction l as [|a l IH]; intros H; [reflexivity|]. cbn [filter]. rewrite H by (left; reflexivity).
  apply IH. intros x Hx. apply H. right; exact Hx.
Qed.

Lemma routed_has_route E a b r : solid (gbox r) -> normalised a -> normalised b ->
  gbox r = a \/ gbox r = b -> routed E r -> has_route E (between a b) r = true.
Proof.
  intros S Na Nb W [_ HF]. unfold has_route.
  set (w := box_and (my_bloat (between a b) (rwidth r)) (gbox r)).
  assert (Hw : 0 < rwidth r).
  { unfold rwidth, box_width. destruct S. bxs. lia. }
  assert (Hc : exists x y, In (x, y) (cells w)).
  { assert (bleft w < bright w /\ bbottom w < btop w) as [P Q].
    { subst w. unfold box_and, my_bloat, between. destruct Na, Nb, S. revert Hw H H0 H1 H2 H3 H4.
      generalize (rwidth r). intros k. destruct W as [-> | ->]; bx a; bx b; bxs; lia. }
    exists (bleft w), (bbottom w). apply cells_In. lia. }
  unfold area_in. rewrite filter_none.
  - destruct Hc as (x & y & H). destruct (cells w); [contradiction|]. reflexivity.
  - intros [x y] H. apply cells_In in H. apply not_true_iff_false. intros X.
    apply existsb_exists in X as (s & Is & Cs). apply cell_in_spec in Cs.
    specialize (HF s Is). subst w. unfold box_overlaps in HF. unfold box_and in H. 
    destruct r as [g0 rb rn rf]; cbn [gbox] in *. bx rb. bx s. bxs. lia.
Qed.

(* --- the pair check ---------------------------------------------------------------------- *)
Lemma solid_normalised b : solid b -> normalised b.
Proof. intros [H1 H2]. split; lia. Qed.

Lemma check_pair_report E r1 r2 v :
  isolated E r1 -> isolated E r2 -> gid r1 <> gid r2 -> ~ touching (gbox r1) (gbox r2) ->
  routed E r1 \/ routed E r2 ->
  req_spc E r1 r2 (run_length (gbox r1) (gbox r2)) = Some v ->
  closer_than (gbox r1) (gbox r2) v ->
  check_pair E r1 r2 = Some (Some (mkMk (between (gbox r1) (gbox r2)) (e_lnum E) 0 (gnet r1) (gnet r2))).
Proof.
  intros I1 I2 Hid NT R RQ C.
  pose proof (solid_normalised _ (proj1 I1)) as N1. pose proof (solid_normalised _ (proj1 I2)) as N2.
  destruct (pair_geom_spec _ _ N1 N2) as (Gm & Gx & Gy & Gp).
  rewrite (touching_iff _ _ N1 N2) in NT.
  rewrite Gx, Gy in Gp. specialize (Gp NT).
  unfold check_pair. rewrite (proj2 (Z.eqb_neq _ _) Hid). rewrite Gm, Gx, Gy, Gp.
  destruct ((box2boxDx (gbox r1) (gbox r2) =? 0) && (box2boxDy (gbox r1) (gbox r2) =? 0)) eqn:EZ; [lia|].
  unfold check_prl. rewrite RQ.
  destruct (gfixed r1 && gfixed r2) eqn:EF.
  { destruct R as [[F _]|[F _]]; rewrite F in EF; [discriminate|rewrite andb_false_r in EF; discriminate]. }
  apply (closer_iff_dist _ _ _ N1 N2) in C. unfold box2boxDistSquare in C.
  destruct (_ >=? v * v) eqn:EC; [lia|].
  rewrite (isolated_edges E r1 r2 I1 I2 NT).
  assert (HR : has_route E (between (gbox r1) (gbox r2)) r1 || has_route E (between (gbox r1) (gbox r2)) r2 = true).
  { apply orb_true_iff. destruct R as [R|R]; [left|right].
    - apply routed_has_route; auto. exact (proj1 I1).
    - apply routed_has_route; auto. exact (proj1 I2). }
  rewrite HR. reflexivity.
Qed.

Lemma check_pair_sound E r1 r2 m : normalised (gbox r1) -> normalised (gbox r2) ->
  check_pair E r1 r2 = Some (Some m) ->
  gid r1 <> gid r2 /\ mbox m = between (gbox r1) (gbox r2) /\ mlayer m = e_lnum E /\
  msrc1 m = gnet r1 /\ msrc2 m = gnet r2 /\ ~ (gfixed r1 = true /\ gfixed r2 = true) /\
  ((mcon m = 0 /\ ~ touching (gbox r1) (gbox r2) /\
      exists v, req_spc E r1 r2 (run_length (gbox r1) (gbox r2)) = Some v /\
        closer_than (gbox r1) (gbox r2) v) \/
   (mcon m = 1 /\ touching (gbox r1) (gbox r2) /\ gnet r1 <> gnet r2) \/
   (mcon m = 2 /\ touching (gbox r1) (gbox r2) /\ gnet r1 = gnet r2)).
Proof.
  intros N1 N2 H. destruct (pair_geom_spec _ _ N1 N2) as (Gm & Gx & Gy & Gp).
  unfold check_pair in H. destruct (gid r1 =? gid r2) eqn:Eid; [discriminate|].
  assert (Hid : gid r1 <> gid r2) by lia.
  rewrite Gm, Gx, Gy in H. rewrite Gx, Gy in Gp.
  destruct ((box2boxDx (gbox r1) (gbox r2) =? 0) && (box2boxDy (gbox r1) (gbox r2) =? 0)) eqn:EZ.
  - injection H as H. unfold check_short in H.
    destruct (gfixed r1 && gfixed r2) eqn:EF; [discriminate|].
    destruct (skip_obs_pin _ _ _ _); [discriminate|].
    destruct (_ && _) eqn:? in H; [discriminate|].
    destruct ((gnet r1 =? gnet r2) && _) eqn:? in H; [discriminate|].
    assert (T : touching (gbox r1) (gbox r2)) by (apply touching_iff; auto; lia).
    assert (NF : ~ (gfixed r1 = true /\ gfixed r2 = true)).
    { intros [F1 F2]. rewrite F1, F2 in EF. discriminate. }
    injection H as <-. cbn [mbox mlayer mcon msrc1 msrc2].
    split; [exact Hid|]. split; [reflexivity|]. split; [reflexivity|]. split; [reflexivity|].
    split; [reflexivity|]. split; [exact NF|].
    destruct (gnet r1 =? gnet r2) eqn:EN; [right; right|right; left];
      (split; [reflexivity|]; split; [exact T|lia]).
  - assert (NT : ~ (box2boxDx (gbox r1) (gbox r2) = 0 /\ box2boxDy (gbox r1) (gbox r2) = 0)) by lia.
    rewrite (Gp NT) in H. unfold check_prl in H.
    destruct (req_spc _ _ _ _) as [v|] eqn:RQ; [|discriminate]. injection H as H.
    destruct (gfixed r1 && gfixed r2) eqn:EF; [discriminate|].
    destruct (_ >=? v * v) eqn:EC; [discriminate|].
    destruct (negb (has_poly_edge _ _ _ _ _ _)); [discriminate|].
    destruct (negb (_ || _)); [discriminate|]. injection H as <-.
    assert (NF : ~ (gfixed r1 = true /\ gfixed r2 = true)).
    { intros [F1 F2]. rewrite F1, F2 in EF. discriminate. }
    cbn [mbox mlayer mcon msrc1 msrc2].
    split; [exact Hid|]. split; [reflexivity|]. split; [reflexivity|]. split; [reflexivity|].
    split; [reflexivity|]. split; [exact NF|]. left. split; [reflexivity|].
    split; [rewrite (touching_iff _ _ N1 N2); exact NT|].
    exists v. split; [reflexivity|]. apply (closer_iff_dist _ _ _ N1 N2). unfold box2boxDistSquare. lia.
Qed.
