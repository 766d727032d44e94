From Verif Require Import Base Stl GeomModel GeomSpec GeomProofs TechModel GcModel GcSpec GcProofs GcProofs2 GcProofs3
  CostModel CutModel CutSpec CutProofs CutProofs2 EolModel EolSpec.

(* ---- directions ---- *)
Definition sx (e : oedge) : Z := Z.sgn (px (o_high e) - px (o_low e)).
Definition sy (e : oedge) : Z := Z.sgn (py (o_high e) - py (o_low e)).
Lemma straight_cases e : straight e ->
  (seg_dir e = EE /\ sx e = 1 /\ sy e = 0 /\ py (o_low e) = py (o_high e) /\ px (o_low e) < px (o_high e)) \/
  (seg_dir e = EW /\ sx e = -1 /\ sy e = 0 /\ py (o_low e) = py (o_high e) /\ px (o_high e) < px (o_low e)) \/
  (seg_dir e = EN /\ sx e = 0 /\ sy e = 1 /\ px (o_low e) = px (o_high e) /\ py (o_low e) < py (o_high e)) \/
  (seg_dir e = ES /\ sx e = 0 /\ sy e = -1 /\ px (o_low e) = px (o_high e) /\ py (o_high e) < py (o_low e)).
Proof.
  unfold straight, seg_dir, sx, sy. intros [[A B]|[A B]].
  - destruct (Z.eqb_spec (px (o_low e)) (px (o_high e))); [|contradiction].
    destruct (Z.ltb_spec (py (o_low e)) (py (o_high e))).
    + right; right; left. repeat split; auto; lia.
    + right; right; right. repeat split; auto; lia.
  - destruct (Z.eqb_spec (px (o_low e)) (px (o_high e))); [contradiction|].
    destruct (Z.ltb_spec (px (o_low e)) (px (o_high e))).
    + left. repeat split; auto; lia.
    + right; left. repeat split; auto; lia.
Qed.
Ltac dirs e H :=
  let D := fresh "D" in let S1 := fresh "Sx" in let S2 := fresh "Sy" in let E := fresh "E" in let L := fresh "L" in
  destruct (straight_cases e H) as [(D & S1 & S2 & E & L)|[(D & S1 & S2 & E & L)|[(D & S1 & S2 & E & L)|(D & S1 & S2 & E & L)]]].
Lemma along_eq e p : along e p = sx e * (px p - px (o_low e)) + sy e * (py p - py (o_low e)). Proof. reflexivity. Qed.
Lemma ahead_eq e p : ahead e p = sy e * (px p - px (o_low e)) - sx e * (py p - py (o_low e)). Proof. reflexivity. Qed.

(* the box of a window *)
Definition wbox (e : oedge) (a b c d : Z) : box :=
  let x := px (o_low e) in let y := py (o_low e) in
  match seg_dir e with
  | EE => mkBox (mkPt (x + a) (y - d)) (mkPt (x + b) (y - c))
  | EW => mkBox (mkPt (x - b) (y + c)) (mkPt (x - a) (y + d))
  | EN => mkBox (mkPt (x + c) (y + a)) (mkPt (x + d) (y + b))
  | ES => mkBox (mkPt (x - d) (y - b)) (mkPt (x - c) (y - a))
  end.
Lemma window_box e a b c d x y : straight e -> (window e a b c d x y <-> square_in x y (wbox e a b c d)).
Proof.
  intros H. unfold window, square_in, wbox. split.
  - intros W. pose proof (W _ (or_introl eq_refl)) as W1. pose proof (W _ (or_intror eq_refl)) as W2. clear W.
    rewrite !along_eq, !ahead_eq in *.
    dirs e H; rewrite D, Sx, Sy in *; bxs; lia.
  - intros W p [-> | ->]; rewrite !along_eq, !ahead_eq; dirs e H; rewrite D, Sx, Sy in *; bxs; lia.
Qed.
Lemma len_eq e : straight e -> len e = seg_length e /\ 0 < len e.
Proof. intros H. unfold len, seg_length. rewrite along_eq. dirs e H; rewrite Sx, Sy; lia. Qed.

Ltac boxeq := f_equal; f_equal; lia.
Lemma edge_rect_w e : straight e -> edge_rect e = wbox e 0 (len e) (-1) 0.
Proof.
  intros H. unfold edge_rect, wbox, len. rewrite along_eq. dirs e H; rewrite D, Sx, Sy; boxeq.
Qed.
Lemma eol_query_w s e : straight e ->
  eol_query (lef_eol s) e = wbox e (- t_within s) (len e + t_within s) 0 (t_space s).
Proof.
  intros H. unfold eol_query, wbox, len. rewrite along_eq.
  assert (n_space (lef_eol s) = t_space s /\ n_within (lef_eol s) = t_within s) as [-> ->].
  { unfold lef_eol. destruct (t_par s) as [[[? ?] ?]|]; split; reflexivity. }
  dirs e H; rewrite D, Sx, Sy; boxeq.
Qed.
Lemma par_query_w s ps pw two e : straight e -> t_par s = Some (ps, pw, two) ->
  par_query (lef_eol s) e true = wbox e (- ps) 0 (- pw) (t_within s) /\
  par_query (lef_eol s) e false = wbox e (len e) (len e + ps) (- pw) (t_within s).
Proof.
  intros H T. unfold par_query, wbox, len. rewrite along_eq. unfold lef_eol. rewrite T.
  cbn [n_parspace n_parwithin n_within].
  dirs e H; rewrite D, Sx, Sy; split; boxeq.
Qed.
Lemma wbox_solid e a b c d : a < b -> c < d -> solid (wbox e a b c d).
Proof. intros. unfold wbox, solid. destruct (seg_dir e); cbn [ll ur px py]; lia. Qed.

Lemma overlap_square a b : solid a -> solid b ->
  (box_overlaps a b false = true <-> exists x y, square_in x y a /\ square_in x y b).
Proof.
  intros A B. unfold box_overlaps, square_in. unfold solid in *. rewrite negb_true_iff, !orb_false_iff. bx a; bx b; bxs. split.
  - intros (((? & ?) & ?) & ?). exists (Z.max axl bxl), (Z.max ayl byl). lia.
  - intros (x & y & ? & ?). lia.
Qed.
Lemma square_and x y a b : square_in x y (box_and a b) <-> square_in x y a /\ square_in x y b.
Proof. unfold square_in, box_and. bx a; bx b; bxs. lia. Qed.
Lemma route_area_iff V n b :
  (route_area V n b = true <-> exists x y r, square_in x y b /\ In r (v_route V n) /\ square_in x y r).
Proof.
  unfold route_area. rewrite existsb_exists. split.
  - intros (r & I & H). exists (Z.max (bleft b) (bleft r)), (Z.max (bbottom b) (bbottom r)), r.
    cbv zeta in H. unfold square_in. unfold box_and in H. bx b; bx r; bxs. split; [lia|]. split; [exact I|]. lia.
  - intros (x & y & r & B & I & R). exists r. split; [exact I|]. cbv zeta. unfold square_in, box_and in *. bx b; bx r; bxs. lia.
Qed.
Lemma opposite_iff e f : straight e -> straight f ->
  (opposite_dir (seg_dir e) (seg_dir f) = true <-> along e (o_high f) < along e (o_low f)).
Proof.
  intros He Hf. rewrite !along_eq. dirs e He; dirs f Hf; rewrite D, D0, Sx, Sy; cbn [opposite_dir];
    split; intros; try discriminate; try reflexivity; lia.
Qed.
Lemma sgn_scale u k : 0 < k -> (Z.sgn (u * k) = Z.sgn u /\ Z.sgn (k * u) = Z.sgn u).
Proof. intros H. rewrite !Z.sgn_mul, (Z.sgn_pos k H). lia. Qed.
Lemma cross_ahead e p q : straight e ->
  Z.sgn ((px q - px p) * (py (o_high e) - py (o_low e)) - (py q - py p) * (px (o_high e) - px (o_low e)))
  = Z.sgn (ahead e q - ahead e p).
Proof.
  intros H. rewrite !ahead_eq.
  set (dx := px (o_high e) - px (o_low e)). set (dy := py (o_high e) - py (o_low e)).
  dirs e H; rewrite Sx, Sy.
  - replace dy with 0 by lia. replace (_ - _) with ((py p - py q) * dx) by lia.
    rewrite (proj1 (sgn_scale _ dx ltac:(lia))). f_equal. lia.
  - replace dy with 0 by lia. replace (_ - _) with ((py q - py p) * (- dx)) by lia.
    rewrite (proj1 (sgn_scale _ (- dx) ltac:(lia))). f_equal. lia.
  - replace dx with 0 by lia. replace (_ - _) with ((px q - px p) * dy) by lia.
    rewrite (proj1 (sgn_scale _ dy ltac:(lia))). f_equal. lia.
  - replace dx with 0 by lia. replace (_ - _) with ((px p - px q) * (- dy)) by lia.
    rewrite (proj1 (sgn_scale _ (- dy) ltac:(lia))). f_equal. lia.
Qed.
Lemma orientation_to p e : straight e -> orientation p e = Z.sgn (ahead e (o_high p) - ahead e (o_low p)).
Proof. intros H. unfold orientation. rewrite <- (cross_ahead e (o_low p) (o_high p) H). f_equal. Qed.
Lemma orientation_from e p : straight e -> orientation e p = Z.sgn (ahead e (o_low p) - ahead e (o_high p)).
Proof.
  intros H. unfold orientation. rewrite <- (cross_ahead e (o_high p) (o_low p) H). f_equal. lia.
Qed.
Lemma wire_end_iff s prev e next : straight e -> o_high prev = o_low e -> o_high e = o_low next ->
  (is_eol_edge (lef_eol s) prev e next = true <-> wire_end s prev e next).
Proof.
  intros H C1 C2. unfold is_eol_edge, wire_end. rewrite (orientation_to prev e H), (orientation_from e next H), C1, <- C2.
  assert (A0 : ahead e (o_low e) = 0) by (rewrite ahead_eq; lia).
  assert (A1 : ahead e (o_high e) = 0) by (rewrite ahead_eq; dirs e H; rewrite Sx, Sy; lia).
  assert (n_width (lef_eol s) = t_width s) as -> by (unfold lef_eol; destruct (t_par s) as [[[? ?] ?]|]; reflexivity).
  rewrite <- (proj1 (len_eq e H)), A0, A1.
  destruct (len e >=? t_width s) eqn:W.
  - split; [discriminate|]. lia.
  - rewrite andb_true_iff. lia.
Qed.

(* ---- queries ---- *)
Lemma span_box e : box_of_pts (o_low e) (o_high e) = span e.
Proof. unfold box_of_pts, box_set, span. zcases; boxeq. Qed.
Lemma behind_rect e x y : straight e -> (behind e x y <-> square_in x y (edge_rect e)).
Proof. intros H. unfold behind. rewrite window_box, edge_rect_w by exact H. tauto. Qed.
Lemma rect_solid e : straight e -> solid (edge_rect e).
Proof. intros H. rewrite edge_rect_w by exact H. apply wbox_solid; [apply len_eq; exact H|lia]. Qed.
(* an edge with metal behind it in the box is found by the query *)
Lemma query_found V q e : straight e -> In e (v_edges V) ->
  (exists x y, square_in x y q /\ square_in x y (edge_rect e)) -> In e (query_oedges V q).
Proof.
  intros H I (x & y & Q & R). unfold query_oedges. apply filter_In. split; [exact I|].
  rewrite span_box. unfold box_overlaps, span, edge_rect, square_in in *. bx q.
  dirs e H; rewrite D in *; bxs; lia.
Qed.
Lemma query_sub V q e : In e (query_oedges V q) -> In e (v_edges V).
Proof. unfold query_oedges. rewrite filter_In. tauto. Qed.
