From Verif Require Import Base Stl GeomModel GeomSpec GeomProofs TechModel GcModel GcSpec GcProofs GcProofs2 GcProofs3
  CostModel CutModel CutSpec CutProofs CutProofs2 EolModel EolSpec EolProofs.

(* ---- neighbours ---- *)
Definition par_qual (e : oedge) (isLow : bool) (q : box) (p : oedge) : bool :=
  ((if isLow then orientation p e else orientation e p) =? -1) && box_overlaps q (edge_rect p) false.
Definition is_routed (V : oenv) (q : box) (p : oedge) : bool :=
  negb (o_fixed p) && route_area V (o_net p) (box_and q (edge_rect p)).
Lemma par_loop_spec V e isLow q : forall es sol hr,
  par_loop V e isLow q es sol hr =
  (sol || existsb (par_qual e isLow q) es, hr || existsb (fun p => par_qual e isLow q p && is_routed V q p) es).
Proof.
  induction es as [|p es IH]; intros sol hr; cbn [par_loop existsb].
  - rewrite !orb_false_r. reflexivity.
  - unfold par_qual at 1 3. unfold is_routed at 1.
    destruct ((if isLow then orientation p e else orientation e p) =? -1); cbn [negb andb orb].
    2: { rewrite IH. reflexivity. }
    cbv zeta. destruct (box_overlaps q (edge_rect p) false); cbn [negb andb orb].
    2: { rewrite IH. reflexivity. }
    destruct hr; cbn [negb andb orb].
    { rewrite IH. cbn [orb]. rewrite orb_true_r. reflexivity. }
    destruct (o_fixed p); cbn [negb andb orb].
    { rewrite IH. cbn [orb]. rewrite orb_true_r. reflexivity. }
    destruct (route_area _ _ _); cbn [orb].
    { rewrite orb_true_r. reflexivity. }
    rewrite IH. cbn [orb]. rewrite orb_true_r. reflexivity.
Qed.
Definition beside (low : bool) (s : eolstmt) (ps pw : Z) (e p : oedge) : Prop :=
  if low then beside_low s ps pw e p else beside_high s ps pw e p.
Definition side (low : bool) (s : eolstmt) (ps pw : Z) (e : oedge) : Z -> Z -> Prop :=
  if low then side_low s ps pw e else side_high s ps pw e.
Lemma side_box low s ps pw two e x y : straight e -> t_par s = Some (ps, pw, two) ->
  (side low s ps pw e x y <-> square_in x y (par_query (lef_eol s) e low)).
Proof.
  intros H T. destruct (par_query_w s ps pw two e H T) as [-> ->] || (destruct (par_query_w s ps pw two e H T) as [E1 E2]).
  all: destruct low; cbn [side]; unfold side_low, side_high; rewrite window_box by exact H; rewrite ?E1, ?E2; tauto.
Qed.
Lemma side_solid low s ps pw two e : straight e -> t_par s = Some (ps, pw, two) -> good_stmt s ->
  solid (par_query (lef_eol s) e low).
Proof.
  intros H T (_ & _ & G). destruct (G _ _ _ T) as (G1 & G2 & G3).
  destruct (par_query_w s ps pw two e H T) as [E1 E2].
  destruct low; [rewrite E1|rewrite E2]; apply wbox_solid; lia.
Qed.
Lemma par_qual_iff low s ps pw two e p : straight e -> straight p -> t_par s = Some (ps, pw, two) -> good_stmt s ->
  (par_qual e low (par_query (lef_eol s) e low) p = true <-> beside low s ps pw e p).
Proof.
  intros He Hp T G. unfold par_qual. rewrite andb_true_iff.
  rewrite overlap_square; [|eapply side_solid; eauto|apply rect_solid; exact Hp].
  assert (X : (exists x y, behind p x y /\ side low s ps pw e x y) <->
              exists x y, square_in x y (par_query (lef_eol s) e low) /\ square_in x y (edge_rect p)).
  { split; intros (x & y & A & B); exists x, y.
    - rewrite behind_rect in A by exact Hp. rewrite (side_box _ _ _ _ _ _ _ _ He T) in B. tauto.
    - rewrite behind_rect by exact Hp. rewrite (side_box _ _ _ _ _ _ _ _ He T). tauto. }
  rewrite <- X. destruct low; cbn [beside side] in *; unfold beside_low, beside_high.
  - rewrite orientation_to by exact He. rewrite Z.eqb_eq. split; intros [A B]; (split; [lia|exact B]).
  - rewrite orientation_from by exact He. rewrite Z.eqb_eq. split; intros [A B]; (split; [lia|exact B]).
Qed.
Lemma is_routed_iff V q region p : straight p -> (forall x y, region x y <-> square_in x y q) ->
  (is_routed V q p = true <-> routed_part V p region).
Proof.
  intros Hp R. unfold is_routed, routed_part. rewrite andb_true_iff, negb_true_iff, route_area_iff.
  split; intros [F (x & y & r & A)]; (split; [exact F|]); exists x, y, r.
  - rewrite square_and in A. rewrite behind_rect by exact Hp. rewrite R. tauto.
  - rewrite square_and. rewrite behind_rect in A by exact Hp. rewrite R in A. tauto.
Qed.
Lemma par_one_spec V s ps pw two e low hr : good_env V -> straight e -> t_par s = Some (ps, pw, two) -> good_stmt s ->
  (fst (par_one V (lef_eol s) e low hr) = true <-> exists p, In p (v_edges V) /\ beside low s ps pw e p) /\
  (snd (par_one V (lef_eol s) e low hr) = true <->
   hr = true \/ exists p, In p (v_edges V) /\ beside low s ps pw e p /\ routed_part V p (side low s ps pw e)).
Proof.
  intros GV He T G. unfold par_one. cbv zeta. rewrite par_loop_spec. cbn [fst snd orb].
  rewrite orb_true_iff, !existsb_exists.
  assert (R : forall x y, side low s ps pw e x y <-> square_in x y (par_query (lef_eol s) e low))
    by (intros; eapply side_box; eauto).
  assert (Q : forall p, In p (v_edges V) -> beside low s ps pw e p -> In p (query_oedges V (par_query (lef_eol s) e low))).
  { intros p I B. apply query_found; [apply GV; exact I|exact I|].
    assert (Y : exists x y, behind p x y /\ side low s ps pw e x y) by (destruct low; apply B).
    destruct Y as (x & y & Y1 & Y2). exists x, y. rewrite R in Y2. rewrite behind_rect in Y1 by (apply GV; exact I). tauto. }
  split.
  - split.
    + intros (p & I & H). apply query_sub in I. exists p. split; [exact I|].
      apply (par_qual_iff low s ps pw two e p He (GV _ I) T G). exact H.
    + intros (p & I & B). exists p. split; [apply Q; assumption|].
      apply (par_qual_iff low s ps pw two e p He (GV _ I) T G). exact B.
  - split.
    + intros [A|(p & I & H)]; [left; exact A|]. right. apply query_sub in I. exists p. split; [exact I|].
      rewrite andb_true_iff in H. destruct H as [H1 H2]. split.
      * apply (par_qual_iff low s ps pw two e p He (GV _ I) T G). exact H1.
      * eapply is_routed_iff; [apply GV; exact I|exact R|exact H2].
    + intros [A|(p & I & B & C)]; [left; exact A|]. right. exists p. split; [apply Q; assumption|].
      rewrite andb_true_iff. split.
      * apply (par_qual_iff low s ps pw two e p He (GV _ I) T G). exact B.
      * eapply is_routed_iff; [apply GV; exact I|exact R|exact C].
Qed.
Lemma has_par_iff s : good_stmt s -> has_par (lef_eol s) = true <-> t_par s <> None.
Proof.
  intros (_ & _ & G). unfold has_par, lef_eol. destruct (t_par s) as [[[ps pw] two]|]; cbn [n_parspace].
  - destruct (G _ _ _ eq_refl). split; [discriminate|]. intros _. destruct (Z.eqb_spec ps (-1)); [lia|reflexivity].
  - split; [discriminate|congruence].
Qed.
Lemma n_two_eq s ps pw two : t_par s = Some (ps, pw, two) -> n_two (lef_eol s) = two.
Proof. intros T. unfold lef_eol. rewrite T. reflexivity. Qed.
Lemma edge_routed V e : straight e ->
  ((if negb (o_fixed e) then route_area V (o_net e) (edge_rect e) else false) = true <-> routed_part V e (fun _ _ => True)).
Proof.
  intros H. unfold routed_part. destruct (o_fixed e); cbn [negb].
  - split; [discriminate|]. intros [? _]. discriminate.
  - rewrite route_area_iff. split.
    + intros (x & y & r & A). split; [reflexivity|]. exists x, y, r. rewrite behind_rect by exact H. tauto.
    + intros (_ & x & y & r & A). exists x, y, r. rewrite behind_rect in A by exact H. tauto.
Qed.
Lemma has_parallel_spec V s e hr : good_env V -> straight e -> good_stmt s ->
  (hr = true <-> routed_part V e (fun _ _ => True)) ->
  (fst (has_parallel V (lef_eol s) e hr) = true <-> binds V s e) /\
  (snd (has_parallel V (lef_eol s) e hr) = true <-> end_routed V s e).
Proof.
  intros GV He G HR. unfold has_parallel, binds, end_routed.
  destruct (t_par s) as [[[ps pw] two]|] eqn:T.
  - assert (has_par (lef_eol s) = true) as -> by (apply has_par_iff; [exact G|congruence]). cbn [negb]. cbv zeta.
    cbn [fst snd]. rewrite (n_two_eq _ _ _ _ T).
    destruct (par_one_spec V s ps pw two e true hr GV He T G) as [A1 A2].
    destruct (par_one_spec V s ps pw two e false (snd (par_one V (lef_eol s) e true hr)) GV He T G) as [B1 B2].
    cbn [beside side] in *. split.
    + destruct two; cbn [negb andb].
      * rewrite andb_true_iff, A1, B1. tauto.
      * rewrite <- A1, <- B1. destruct (fst _), (fst _); cbn [orb]; intuition congruence.
    + rewrite B2, A2, HR. split.
      * intros [[A|(p & I & B & C)]|(p & I & B & C)]; [left; exact A|right|right].
        -- exists ps, pw, two. split; [reflexivity|]. exists p. tauto.
        -- exists ps, pw, two. split; [reflexivity|]. exists p. tauto.
      * intros [A|(ps' & pw' & two' & T' & p & I & [[B C]|[B C]])]; [tauto| |]; injection T' as <- <- <-.
        -- left. right. exists p. tauto.
        -- right. exists p. tauto.
  - assert (N : ~ has_par (lef_eol s) = true) by (rewrite (has_par_iff s G); congruence).
    destruct (has_par (lef_eol s)); [congruence|]. cbn [negb fst snd]. split; [tauto|]. rewrite HR.
    split; [auto|]. intros [A|(? & ? & ? & A & _)]; [exact A|discriminate].
Qed.

(* ---- the gap ---- *)
Lemma front_box s e x y : straight e -> (front s e x y <-> square_in x y (eol_query (lef_eol s) e)).
Proof. intros H. unfold front. rewrite window_box, eol_query_w by exact H. tauto. Qed.
Lemma front_solid s e : straight e -> good_stmt s -> solid (eol_query (lef_eol s) e).
Proof.
  intros H (G1 & G2 & _). rewrite eol_query_w by exact H. pose proof (proj2 (len_eq e H)). apply wbox_solid; lia.
Qed.
Definition eol_qual (e : oedge) (q : box) (f : oedge) : bool :=
  opposite_dir (seg_dir e) (seg_dir f) && box_overlaps q (edge_rect f) false.
Lemma eol_qual_iff s e f : straight e -> straight f -> good_stmt s ->
  (eol_qual e (eol_query (lef_eol s) e) f = true <-> faces s e f).
Proof.
  intros He Hf G. unfold eol_qual, faces. rewrite andb_true_iff, (opposite_iff e f He Hf).
  rewrite overlap_square; [|apply front_solid; assumption|apply rect_solid; exact Hf].
  split; intros [A (x & y & B)]; (split; [exact A|]); exists x, y.
  - rewrite behind_rect, front_box by assumption. tauto.
  - rewrite behind_rect, front_box in B by assumption. tauto.
Qed.
Lemma sort4 a b c d : c <= d -> d <= a -> a <= b -> Z.min (Z.max a c) (Z.min b d) = d /\ Z.max (Z.max a c) (Z.min b d) = a.
Proof. lia. Qed.
Lemma gap_eq s e f : straight e -> straight f -> faces s e f ->
  gen_intersect (edge_rect e) (edge_rect f) = gap e f.
Proof.
  intros He Hf (A & x & y & B & C). pose proof (rect_solid e He) as [S1 S2]. pose proof (rect_solid f Hf) as [S3 S4].
  rewrite gen_intersect_between by (split; lia). clear S1 S2 S3 S4.
  rewrite behind_rect in B by exact Hf. rewrite front_box in C by exact He.
  apply (opposite_iff e f He Hf) in A.
  unfold gap, between, span, square_in, edge_rect, eol_query in *.
  set (n := n_space _) in *. set (w := n_within _) in *. clearbody n w.
  destruct e as [en [elx ely] [ehx ehy] ef], f as [fn [flx fly] [fhx fhy] ff].
  dirs (mkOE en (mkPt elx ely) (mkPt ehx ehy) ef) He; dirs (mkOE fn (mkPt flx fly) (mkPt fhx fhy) ff) Hf;
    rewrite D, D0 in *; try discriminate A; clear A D D0 Sx Sy Sx0 Sy0 He Hf;
    cbn [o_low o_high px py] in *; bxs; subst.
  - f_equal; f_equal; clear - B C L L0; lia.
  - f_equal; f_equal; clear - B C L L0; lia.
  - f_equal; f_equal; clear - B C L L0; lia.
  - f_equal; f_equal; clear - B C L L0; lia.
Qed.
