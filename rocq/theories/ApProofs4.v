(* The checks record exactly the legal accesses. *)
From Verif Require Import Base GeomModel GridModel ApModel ApSpec ApProofs ApProofs2 ApProofs3.
From Coq Require Import Sorting.Sorted.

(* --- planar ---------------------------------------------------------------------------------------- *)
Lemma on_pin_iff E l p : on_pin E l p = true <-> exists r, In r (e_rects E l) /\ inside r p.
Proof.
  unfold on_pin. rewrite existsb_exists. split; intros (r & I & Q); exists r; split; auto; unfold box_contains_pt, inside in *; lia.
Qed.
Lemma end_iff E l p d q : planar_dir d -> (two_widths E l p d q <-> q = end_point E l p d).
Proof.
  destruct q as [x y]. unfold planar_dir, two_widths, end_point. intros [->|[->|[->| ->]]]; cbn [px py];
  (split; [intros [-> ->]; reflexivity | intros Q; injection Q as -> ->; auto]).
Qed.
(* the access set up before the check, in direction d *)
Definition setup (E : aenv) (l low : Z) (d : dir) : bool :=
  let wrong := allow_planar E l && negb (e_rectonly E l) in
  let right := allow_planar E l && negb (e_rightway E l && negb (low =? 0)) in
  match d with
  | DW | DE => if e_horz E l then right else wrong
  | DS | DN => if e_horz E l then wrong else right
  | _ => false
  end.
Lemma setup_iff E l low d : planar_dir d ->
  (setup E l low d = true <->
   (e_kind E = StdPin -> e_vialayer E < l /\ ~ (e_inpin_lo E <= l <= e_inpin_hi E)) /\
   (~ right_way E l d -> e_rectonly E l = false) /\ (right_way E l d -> e_rightway E l = true -> low = 0)).
Proof.
  intros PD.
  assert (AP : allow_planar E l = true <-> (e_kind E = StdPin -> e_vialayer E < l /\ ~ (e_inpin_lo E <= l <= e_inpin_hi E))).
  { unfold allow_planar. destruct (e_kind E).
    - split; [intros Q _; lia | intros Q; specialize (Q eq_refl); lia].
    - split; auto. intros _ Q; discriminate.
    - split; auto. intros _ Q; discriminate. }
  rewrite <- AP. clear AP.
  assert (WR : allow_planar E l && negb (e_rectonly E l) = true <-> allow_planar E l = true /\ e_rectonly E l = false)
    by (destruct (allow_planar E l), (e_rectonly E l); cbn; intuition discriminate).
  assert (RI : allow_planar E l && negb (e_rightway E l && negb (low =? 0)) = true <-> allow_planar E l = true /\ (e_rightway E l = true -> low = 0))
    by (destruct (allow_planar E l), (e_rightway E l); cbn [andb negb]; destruct (Z.eqb_spec low 0); cbn [negb]; intuition (discriminate || lia)).
  unfold setup, right_way. cbv zeta.
  destruct PD as [->|[->|[->| ->]]]; destruct (e_horz E l); first [rewrite WR | rewrite RI];
    intuition (try discriminate; try tauto).
Qed.
Lemma planar_iff E l p low d : planar_dir d -> check_planar E l p d (setup E l low d) = true <-> legal_planar E l p low d.
Proof.
  intros PD. unfold check_planar, legal_planar. pose proof (setup_iff E l low d PD) as S.
  assert (OP : on_pin E l (end_point E l p d) = true <-> exists q r, two_widths E l p d q /\ In r (e_rects E l) /\ inside r q).
  { rewrite on_pin_iff. split.
    - intros (r & I & J). exists (end_point E l p d), r. rewrite end_iff by auto. auto.
    - intros (q & r & Q & I & J). rewrite end_iff in Q by auto. subst. eauto. }
  destruct (setup E l low d); cbn [negb].
  - destruct S as [S _]. specialize (S eq_refl). destruct S as (S1 & S2 & S3).
    destruct (negb (is_macro E) && on_pin E l (end_point E l p d)) eqn:B.
    + split; [discriminate|]. intros (_ & X & _). exfalso. apply andb_prop in B. destruct B as [B1 B2].
      unfold is_macro in B1. destruct (e_kind E); try discriminate. specialize (X eq_refl). destruct X as (_ & _ & X).
      apply OP in B2. destruct B2 as (q & r & Q & I & J). exact (X q r Q I J).
    + split; [|intros (_ & _ & _ & _ & W); auto]. intros W. split; auto. split; [|auto]. intros K. destruct (S1 K) as [S4 S5].
      split; auto. split; auto. intros q r Q I J. unfold is_macro in B. rewrite K in B. cbn [negb andb] in B.
      assert (on_pin E l (end_point E l p d) = true) by (apply OP; eauto). congruence.
  - split; [discriminate|]. intros (_ & X & Y & Z & _). destruct S as [_ S]. discriminate S. split; [|auto].
    intros K. specialize (X K). tauto.
Qed.

(* --- overhang of a via --------------------------------------------------------------------------- *)
Definition mins (f : box -> Z) (l : list box) (m : Z) : Prop := (exists b, In b l /\ f b = m) /\ forall b, In b l -> m <= f b.
Definition maxs (f : box -> Z) (l : list box) (m : Z) : Prop := (exists b, In b l /\ f b = m) /\ forall b, In b l -> f b <= m.
Lemma hull_fold bs : forall b, let h := fold_left hull bs b in
  mins bleft (b :: bs) (bleft h) /\ mins bbottom (b :: bs) (bbottom h) /\ maxs bright (b :: bs) (bright h) /\ maxs btop (b :: bs) (btop h).
Proof.
  induction bs as [|c bs IH]; intros b; cbn [fold_left].
  - unfold mins, maxs. repeat split; try (exists b; split; [left|]; auto; fail); intros x [<- |[]]; lia.
  - destruct (IH (hull b c)) as (H1 & H2 & H3 & H4). cbv zeta.
    assert (GM : forall f m, f (hull b c) = Z.min (f b) (f c) -> mins f (hull b c :: bs) m -> mins f (b :: c :: bs) m).
    { intros f m F [(x & [<- |I] & Q) M].
      - split; [|intros y [<- |[<- |J]]; [pose proof (M _ (or_introl eq_refl)); lia | pose proof (M _ (or_introl eq_refl)); lia | apply M; right; auto]].
        destruct (Z.le_gt_cases (f b) (f c)); [exists b | exists c]; (split; [cbn; auto | lia]).
      - split; [exists x; split; [cbn; auto|auto]|]. intros y [<- |[<- |J]]; [pose proof (M _ (or_introl eq_refl)); lia | pose proof (M _ (or_introl eq_refl)); lia | apply M; right; auto]. }
    assert (GX : forall f m, f (hull b c) = Z.max (f b) (f c) -> maxs f (hull b c :: bs) m -> maxs f (b :: c :: bs) m).
    { intros f m F [(x & [<- |I] & Q) M].
      - split; [|intros y [<- |[<- |J]]; [pose proof (M _ (or_introl eq_refl)); lia | pose proof (M _ (or_introl eq_refl)); lia | apply M; right; auto]].
        destruct (Z.le_gt_cases (f b) (f c)); [exists c | exists b]; (split; [cbn; auto | lia]).
      - split; [exists x; split; [cbn; auto|auto]|]. intros y [<- |[<- |J]]; [pose proof (M _ (or_introl eq_refl)); lia | pose proof (M _ (or_introl eq_refl)); lia | apply M; right; auto]. }
    split; [apply GM; auto|]. split; [apply GM; auto|]. split; apply GX; auto.
Qed.

Lemma overlapping_In E l b r : overlapping E l b r <-> In r (e_rects E l) /\ has_area (overlap r b) = true.
Proof. unfold overlapping, has_area, overlap, bleft, bright, bbottom, btop. cbn [ll ur px py]. intuition lia. Qed.

Lemma extents_cases E l b :
  ((forall r, ~ overlapping E l b r) /\ extents E l b = mkBox (mkPt 0 0) (mkPt 0 0)) \/
  ((exists r, overlapping E l b r) /\
   least_gap E l b (fun r => bleft r - bleft b) (Z.max 0 (bleft (extents E l b) - bleft b)) /\
   least_gap E l b (fun r => bright b - bright r) (Z.max 0 (- bright (extents E l b) + bright b)) /\
   least_gap E l b (fun r => bbottom r - bbottom b) (Z.max 0 (bbottom (extents E l b) - bbottom b)) /\
   least_gap E l b (fun r => btop b - btop r) (Z.max 0 (- btop (extents E l b) + btop b))).
Proof.
  unfold extents. destruct (filter has_area (map (fun r => overlap r b) (e_rects E l))) as [|x xs] eqn:F.
  - left. split; auto. intros r O. apply overlapping_In in O. destruct O as [I A].
    assert (J : In (overlap r b) (filter has_area (map (fun r => overlap r b) (e_rects E l)))).
    { apply filter_In. split; auto. apply in_map_iff. eauto. }
    rewrite F in J. destruct J.
  - right.
    assert (IN : forall y, In y (x :: xs) <-> exists r, overlapping E l b r /\ y = overlap r b).
    { intros y. rewrite <- F, filter_In, in_map_iff. split.
      - intros ((r & <- & I) & A). exists r. split; auto. apply overlapping_In. auto.
      - intros (r & O & ->). apply overlapping_In in O. destruct O. split; eauto. }
    split; [destruct (proj1 (IN x) (or_introl eq_refl)) as (r & O & _); eauto|].
    destruct (hull_fold xs x) as (H1 & H2 & H3 & H4). cbv zeta in *. set (h := fold_left hull xs x) in *.
    assert (GM : forall f (g : box -> Z) m, (forall r, f (overlap r b) = Z.max (g r) (f b)) -> mins f (x :: xs) m -> least_gap E l b (fun r => g r - f b) (Z.max 0 (m - f b))).
    { intros f g m D [(y & I & Q) M]. apply IN in I. destruct I as (r & O & ->). split.
      - exists r. split; auto. rewrite D in Q. lia.
      - intros r' O'. assert (m <= f (overlap r' b)) by (apply M, IN; eauto). rewrite D in H. lia. }
    assert (GX : forall f (g : box -> Z) m, (forall r, f (overlap r b) = Z.min (g r) (f b)) -> maxs f (x :: xs) m -> least_gap E l b (fun r => f b - g r) (Z.max 0 (- m + f b))).
    { intros f g m D [(y & I & Q) M]. apply IN in I. destruct I as (r & O & ->). split.
      - exists r. split; auto. rewrite D in Q. lia.
      - intros r' O'. assert (f (overlap r' b) <= m) by (apply M, IN; eauto). rewrite D in H. lia. }
    split; [apply GM; auto|]. split; [apply GX; auto|]. split; [apply GM; auto | apply GX; auto].
Qed.

Lemma least_gap_fun E l b f g g' : least_gap E l b f g -> least_gap E l b f g' -> g = g'.
Proof. intros [(r & O & ->) A] [(r' & O' & ->) B]. specialize (A _ O'). specialize (B _ O). lia. Qed.

Lemma shift_at b p : shift b p = at_pt b p.
Proof. reflexivity. Qed.
Lemma lr_iff E l p : lr_bound E l p = true <-> near_side E l p.
Proof.
  unfold lr_bound, near_side. destruct (e_kind E); (split; [intros Q; split; [discriminate | lia] | intros [N Q]; lia]) || (split; [discriminate | intros [N _]; exfalso; apply N; auto]).
Qed.
Lemma max_ext_overhang E l p inpin v h :
  overhang E l (at_pt (v_box1 v) p) (lr_bound E l p && negb inpin) h -> max_ext E l p inpin v = h.
Proof.
  intros (gl & gr & gb & gt & A & B & C & D & ->). unfold max_ext. cbv zeta. rewrite shift_at. set (b := at_pt (v_box1 v) p) in *.
  destruct (extents_cases E l b) as [[N _]|(_ & A' & B' & C' & D')].
  - destruct A as [(r & O & _) _]. destruct (N r O).
  - rewrite <- (least_gap_fun _ _ _ _ _ _ A A'), <- (least_gap_fun _ _ _ _ _ _ B B'), <- (least_gap_fun _ _ _ _ _ _ C C'), <- (least_gap_fun _ _ _ _ _ _ D D'). auto.
Qed.
Lemma max_ext_zero E l p v : bleft (v_box1 v) < bright (v_box1 v) ->
  (max_ext E l p true v <= 0 <-> overhang E l (at_pt (v_box1 v) p) false 0).
Proof.
  intros W. split.
  - unfold max_ext. cbv zeta. rewrite shift_at, andb_false_r. set (b := at_pt (v_box1 v) p).
    assert (W' : bleft b < bright b) by (unfold b, at_pt, bleft, bright in *; cbn [ll ur px py]; lia).
    destruct (extents_cases E l b) as [[_ ->]|(_ & A & B & C & D)].
    + unfold bleft at 1. unfold bright at 1. cbn [ll ur px py]. lia.
    + intros H. do 4 eexists. split; [exact A|]. split; [exact B|]. split; [exact C|]. split; [exact D|]. lia.
  - intros H. pose proof (max_ext_overhang E l p true v 0) as M. rewrite andb_false_r in M. rewrite (M H). lia.
Qed.

(* --- vias ------------------------------------------------------------------------------------------- *)
Lemma vinsert_In k v s x : In x (vinsert k v s) <-> x = (k, v) \/ In x s.
Proof.
  induction s as [|[k' v'] s IH]; cbn [vinsert In]; [intuition|]. destruct (k <? k'); cbn [In]; [intuition | rewrite IH; intuition].
Qed.
Definition keyle (a b : Z * viadef) : Prop := fst a <= fst b.
Lemma vinsert_sorted k v s : StronglySorted keyle s -> StronglySorted keyle (vinsert k v s).
Proof.
  induction 1 as [|[k' v'] s S IH F]; cbn [vinsert]; [repeat constructor|]. destruct (Z.ltb_spec k k').
  - constructor; [constructor; auto|]. constructor; [unfold keyle; cbn; lia|].
    eapply Forall_impl; [|exact F]. unfold keyle. cbn. intros; lia.
  - constructor; auto. apply Forall_forall. intros x I. apply vinsert_In in I. destruct I as [->|I]; [unfold keyle; cbn; lia|].
    rewrite Forall_forall in F. auto.
Qed.
Lemma vias_fold (ok : viadef -> bool) (k : viadef -> Z) vs : forall s, StronglySorted keyle s -> (forall x, In x s -> fst x = k (snd x)) ->
  let s' := fold_left (fun s v => if ok v then vinsert (k v) v s else s) vs s in
  StronglySorted keyle s' /\ (forall x, In x s' -> fst x = k (snd x)) /\
  forall x, In x s' <-> In x s \/ (In (snd x) vs /\ ok (snd x) = true /\ fst x = k (snd x)).
Proof.
  induction vs as [|v vs IH]; cbn [fold_left]; intros s S P.
  - split; auto. split; auto. intros x; cbn [In]; tauto.
  - set (s1 := if ok v then vinsert (k v) v s else s).
    assert (S1 : StronglySorted keyle s1) by (unfold s1; destruct (ok v); auto; apply vinsert_sorted; auto).
    assert (P1 : forall x, In x s1 -> fst x = k (snd x)).
    { unfold s1. destruct (ok v); auto. intros x I. apply vinsert_In in I. destruct I as [->|I]; auto. }
    destruct (IH s1 S1 P1) as (A & B & C). split; [exact A|]. split; [exact B|]. intros x. rewrite C. unfold s1. destruct (ok v) eqn:O.
    + rewrite vinsert_In. destruct x as [kx vx]. cbn [fst snd]. split.
      * intros [[Q|I]|I]; [|auto|].
        -- injection Q as -> ->. right. split; [left; auto|]. auto.
        -- right. destruct I as (I & J). split; [right; auto|]. auto.
      * intros [I|([<- |I] & J & Q)]; auto. left. left. congruence.
    + split; [intros [I|(I & J)]; auto; right; split; [right; auto|auto] | intros [I|([<- |I] & J & Q)]; auto; congruence].
Qed.

Section Legal.
Variables (E : aenv).
Hypothesis VA : forall l v, In v (firstn 2 (e_vias E (l + 1))) -> bleft (v_box1 v) < bright (v_box1 v).

Lemma contains_iff a b : box_contains_box b a true = true <-> box_in a b.
Proof. unfold box_contains_box, box_in. lia. Qed.
Lemma inpin_iff l low high : via_in_pin E l low high = true <-> needs_in_pin E l low high.
Proof. unfold via_in_pin, needs_in_pin. lia. Qed.

Lemma via_ok_iff l p low high v : In v (first_vias E l) ->
  (allow_via E l = true /\ via_ok E l p (via_in_pin E l low high) v = true <-> legal_via E l p low high v).
Proof.
  intros I. unfold legal_via. fold (first_vias E l).
  assert (AV : allow_via E l = true <-> (l = e_vialayer E \/ l = e_vialayer E + 2) /\ e_kind E <> IoPin).
  { unfold allow_via. destruct (e_kind E); (split; [intros Q; split; [lia|discriminate] | intros [Q _]; lia]) || (split; [lia | intros [_ N]; exfalso; apply N; auto]). }
  rewrite AV. clear AV. pose proof (max_ext_zero E l p v (VA l v I)) as MZ. pose proof (inpin_iff l low high) as IP.
  pose proof (contains_iff (at_pt (v_box1 v) p) (e_boundary E)) as C1. pose proof (contains_iff (at_pt (v_box2 v) p) (e_boundary E)) as C2.
  unfold via_ok. rewrite (shift_at (v_box1 v)), (shift_at (v_box2 v)).
  assert (X : e_kind E <> IoPin -> forall b : bool, match e_kind E with IoPin => false | _ => b end = b) by (intros N b; destruct (e_kind E); auto; contradiction).
  split.
  - intros [[A N] V]. rewrite !(X N) in V. split; auto. split; auto. split; auto.
    destruct (via_in_pin E l low high) eqn:Q; cbn [andb] in V.
    + destruct (Z.gtb_spec (max_ext E l p true v) 0); [discriminate|]. apply MZ in H.
      destruct (box_contains_box _ (at_pt (v_box1 v) p) true); cbn [negb] in V; [|discriminate].
      destruct (box_contains_box _ (at_pt (v_box2 v) p) true); cbn [negb] in V; [|discriminate]. split; [auto|]. tauto.
    + destruct (box_contains_box _ (at_pt (v_box1 v) p) true); cbn [negb] in V; [|discriminate].
      destruct (box_contains_box _ (at_pt (v_box2 v) p) true); cbn [negb] in V; [|discriminate].
      split; [intros Y; apply IP in Y; discriminate|]. tauto.
  - intros (A & N & _ & H & B1 & B2 & V). split; auto. rewrite !(X N). rewrite (proj2 C1 B1), (proj2 C2 B2). cbn [negb].
    destruct (via_in_pin E l low high) eqn:Q; cbn [andb]; auto.
    assert (M : max_ext E l p true v <= 0) by (apply MZ, H, IP; auto). destruct (Z.gtb_spec (max_ext E l p true v) 0); [lia|auto].
Qed.

(* the recorded access point for a generated one *)
Definition checked (l : Z) (p : point) (low high : Z) : ap :=
  check_ap E (new_ap E l (allow_planar E l) (allow_via E l) p low high).

Lemma checked_vias l p low high :
  (forall v, In v (ap_vias (checked l p low high)) <-> legal_via E l p low high v) /\
  (forall i j v w h k, (i < j)%nat -> nth_error (ap_vias (checked l p low high)) i = Some v ->
     nth_error (ap_vias (checked l p low high)) j = Some w ->
     overhang E l (at_pt (v_box1 v) p) (lr_bound E l p && negb (via_in_pin E l low high)) h ->
     overhang E l (at_pt (v_box1 w) p) (lr_bound E l p && negb (via_in_pin E l low high)) k -> h <= k) /\
  (ap_u (checked l p low high) = true <-> ap_vias (checked l p low high) <> []).
Proof.
  unfold checked, check_ap, new_ap. cbn [ap_u ap_vias ap_layer ap_pt ap_low ap_high].
  destruct (allow_via E l) eqn:AV.
  2: { split; [|split].
       - intros v. cbn [In]. split; [tauto|]. intros L. assert (I : In v (first_vias E l)) by (unfold legal_via in L; tauto).
         apply (via_ok_iff l p low high v I) in L. destruct L. congruence.
       - intros i j v w h k _ Q. destruct i; discriminate.
       - cbn. split; [discriminate|]. intros N; exfalso; apply N; auto. }
  unfold valid_vias. set (inpin := via_in_pin E l low high).
  destruct (vias_fold (via_ok E l p inpin) (max_ext E l p inpin) (first_vias E l) []) as (A & B & C); [constructor | intros x [] |]. cbv zeta in *.
  set (s := fold_left _ _ _) in *. split; [|split].
  - intros v. rewrite in_map_iff. split.
    + intros (x & <- & I). apply C in I. destruct I as [[]|(I & O & Q)]. apply (via_ok_iff l p low high _ I). auto.
    + intros L. assert (I : In v (first_vias E l)) by (unfold legal_via in L; tauto). apply (via_ok_iff l p low high v I) in L.
      exists (max_ext E l p inpin v, v). split; auto. apply C. right. cbn [fst snd]. tauto.
  - assert (GEN : forall (s : list (Z * viadef)), StronglySorted keyle s -> forall i j v w, (i < j)%nat ->
      nth_error s i = Some v -> nth_error s j = Some w -> fst v <= fst w).
    { induction 1 as [|a s0 S IH F]; intros i j v w L Q R; [destruct i; discriminate|].
      destruct j; [lia|]. cbn [nth_error] in R. destruct i.
      - cbn [nth_error] in Q. injection Q as ->. rewrite Forall_forall in F. apply (F w), (nth_error_In _ _ R).
      - cbn [nth_error] in Q. apply (IH i j v w); auto. lia. }
    intros i j v w h k L Q R H K. rewrite nth_error_map in Q, R.
    destruct (nth_error s i) as [xv|] eqn:XI; [|discriminate]. destruct (nth_error s j) as [xw|] eqn:XJ; [|discriminate].
    cbn [option_map] in Q, R. injection Q as <-. injection R as <-.
    pose proof (GEN s A i j xv xw L XI XJ) as G. rewrite (B xv (nth_error_In _ _ XI)), (B xw (nth_error_In _ _ XJ)) in G.
    rewrite (max_ext_overhang _ _ _ _ _ _ H), (max_ext_overhang _ _ _ _ _ _ K) in G. exact G.
  - destruct (map snd s); cbn; split; congruence.
Qed.

Lemma checked_planar l p low high :
  (ap_w (checked l p low high) = true <-> legal_planar E l p low DW) /\
  (ap_e (checked l p low high) = true <-> legal_planar E l p low DE) /\
  (ap_s (checked l p low high) = true <-> legal_planar E l p low DS) /\
  (ap_n (checked l p low high) = true <-> legal_planar E l p low DN).
Proof.
  split; [apply (planar_iff E l p low DW); unfold planar_dir; auto|].
  split; [apply (planar_iff E l p low DE); unfold planar_dir; auto|].
  split; [apply (planar_iff E l p low DS); unfold planar_dir; auto|].
  apply (planar_iff E l p low DN); unfold planar_dir; auto.
Qed.

Lemma has_planar l p low high :
  (ap_w (checked l p low high) || ap_e (checked l p low high) || ap_s (checked l p low high) || ap_n (checked l p low high) = true <->
   exists d, legal_planar E l p low d).
Proof.
  destruct (checked_planar l p low high) as (A & B & C & D).
  rewrite !orb_true_iff, A, B, C, D. split.
  - intros [[[X|X]|X]|X]; eauto.
  - intros (d & X). destruct X as [[->|[->|[->| ->]]] X].
    + left; left; left. split; [unfold planar_dir; auto|exact X].
    + left; left; right. split; [unfold planar_dir; auto|exact X].
    + left; right. split; [unfold planar_dir; auto|exact X].
    + right. split; [unfold planar_dir; auto|exact X].
Qed.

Lemma keep_iff l p low high : keep E (checked l p low high) = true <-> worth E l p low high.
Proof.
  destruct (checked_vias l p low high) as (V & _ & U). pose proof (has_planar l p low high) as HP.
  assert (UV : ap_u (checked l p low high) = true <-> exists v, legal_via E l p low high v).
  { rewrite U. split.
    - destruct (ap_vias (checked l p low high)) as [|v vs] eqn:Q; [congruence|]. intros _. exists v. apply V. left; auto.
    - intros (v & L) Q. apply V in L. rewrite Q in L. destruct L. }
  unfold worth, keep. change (ap_layer (checked l p low high)) with l.
  assert (HA : has_access (checked l p low high) = true <-> (exists v, legal_via E l p low high v) \/ exists d, legal_planar E l p low d).
  { rewrite <- UV, <- HP. unfold has_access. rewrite !orb_true_iff. tauto. }
  destruct (e_kind E).
  - rewrite orb_true_iff, !andb_true_iff, UV, HA, negb_true_iff. destruct (Z.eqb_spec l (e_vialayer E)).
    + split; [intros [[_ X]|[X _]]; [auto|discriminate]|]. intros [X|[X _]]; [auto|]. exfalso; apply X; auto.
    + split; [intros [[X _]|[_ [X|X]]]; [discriminate|auto|]|].
      * right. split; auto. intros [_ Y]; auto.
      * intros [X|[_ X]]; right; auto.
  - rewrite HA. split; [intros [X|X]; auto; right; split; auto; intros [Y _]; discriminate | intros [X|[_ X]]; auto].
  - rewrite HA. split; [intros [X|X]; auto; right; split; auto; intros [Y _]; discriminate | intros [X|[_ X]]; auto].
Qed.

(* what is legal with some type is legal with a better one *)
Lemma worth_mono l p low low' high : 0 <= low' <= low -> low <= 3 -> worth E l p low high -> worth E l p low' high.
Proof.
  intros L L3 [(v & A)|(N & d & A)].
  - left. exists v. destruct A as (A1 & A2 & A3 & A4 & A5). do 3 (split; auto). split; [|auto].
    intros X. apply A4. unfold needs_in_pin in *. destruct X as [X|[X|X]]; auto. right. left. lia.
  - right. split; auto. exists d. unfold legal_planar in *. destruct A as (A1 & A2 & A3 & A4 & A5). do 3 (split; auto). split; auto.
    intros X Y. specialize (A4 X Y). lia.
Qed.
End Legal.
