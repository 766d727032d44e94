From Verif Require Import Base Stl GeomModel GeomSpec GeomProofs TechModel GcModel GcSpec GcProofs GcProofs2 GcProofs3
  EolModel StepModel CornModel CostModel CutModel CutSpec CutProofs CutProofs2 Cs8Model Cs8Spec Cs8Proofs.

Definition free (r o : grect) : Prop := ~ (gfixed r = true /\ gfixed o = true).
Lemma adj_found_iff V l y r o m : good_worker (w8 V) -> classes_ok V l -> In y (w8_rules V l) -> adj_rule y ->
  In r (q_rects (w8 V) l) -> In o (q_rects (w8 V) l) -> about V l y r -> about V l y o ->
  (adj_found V l y r o m <->
   binds_pair V l y r o /\ (exists v, asked8 V l y r o v /\ nearer_than (y_c2c y) (gbox r) (gbox o) v) /\ free r o /\
   m = mkMk (between (gbox r) (gbox o)) l (y_id y) (gnet r) (gnet o)).
Proof.
  intros GW CK Iy (S & Mo & Sp & Wi & (n & En & Hn) & Ht) Ir Io Ar Ao.
  pose proof (proj1 GW l r Ir) as Nr. pose proof (proj1 GW l o Io) as No.
  unfold adj_found. rewrite S, En.
  assert (BP : binds_pair V l y r o <-> (n <=? count8 V l y r) || two_cuts V l y r o = true).
  { unfold binds_pair, two_cuts. rewrite En, orb_true_iff, Z.leb_le, (crowd_iff V l y n r) by assumption. split.
    - intros [(n' & E & H)|(t & E & H1 & H2)].
      + left. injection E as <-. exact H.
      + right. rewrite E. pose proof (Ht t E). rewrite andb_true_iff, !Z.leb_le, !crowd_iff by assumption. auto.
    - intros [H|H]; [left; eauto|]. destruct (y_two y) as [t|] eqn:E; [|discriminate]. pose proof (Ht t eq_refl).
      rewrite andb_true_iff, !Z.leb_le, !crowd_iff in H by assumption. right. exists t. tauto. }
  assert (DV : (exists v, asked8 V l y r o v /\ nearer_than (y_c2c y) (gbox r) (gbox o) v) <->
               dist8 y (gbox r) (gbox o) < req8 V l y r o * req8 V l y r o).
  { split.
    - intros (v & A & B). apply (asked8_iff V l y r o v n En) in A. subst v. apply near8 in B; assumption.
    - intros H. exists (req8 V l y r o). split; [apply (asked8_iff V l y r o _ n En); reflexivity|]. apply near8; assumption. }
  rewrite BP, DV. clear BP DV.
  destruct (pair_geom_spec _ _ Nr No) as (Em & _).
  assert (AC : forall n', y_adj y = Some n' -> adj_cut V l y n' r o (g_marker (pair_geom (gbox r) (gbox o))) = adj_cut V l y n r o (between (gbox r) (gbox o))).
  { intros n' E. rewrite En in E. injection E as <-. rewrite Em. reflexivity. }
  unfold adj_cut in *. rewrite Mo in *. unfold free.
  destruct ((n <=? count8 V l y r) || two_cuts V l y r o) eqn:B; cbn [negb] in *.
  2: { split; [|intros [X _]; discriminate]. intros (_ & n' & E & H). rewrite (AC n') in H by congruence. discriminate. }
  rewrite Z.geb_leb in *. 
  destruct (Z.leb_spec (req8 V l y r o * req8 V l y r o) (dist8 y (gbox r) (gbox o))) as [D|D].
  { split; [|intros (_ & X & _); lia]. intros (_ & n' & E & H). rewrite (AC n') in H by congruence. discriminate. }
  destruct (gfixed r && gfixed o) eqn:F.
  { apply andb_true_iff in F. split; [|tauto]. intros (_ & n' & E & H). rewrite (AC n') in H by congruence. discriminate. }
  split.
  - intros (_ & n' & E & H). rewrite (AC n') in H by congruence. injection H as <-.
    split; [reflexivity|]. split; [lia|]. split; [|reflexivity]. intros [X Y]. rewrite X, Y in F. discriminate.
  - intros (_ & _ & _ & ->). split; [reflexivity|]. exists n. split; [reflexivity|]. rewrite (AC n En). reflexivity.
Qed.

(* ---- corners ---- *)
Lemma kind_spec a b : (kind_is (kind a b) Convex = true <-> left_turn a b) /\ (kind_is (kind a b) Concave = true <-> right_turn a b).
Proof.
  unfold kind, orientation, left_turn, right_turn, cross, vec. cbn [fst snd].
  set (x := _ - _ * _). clearbody x. destruct x; cbn; split; split; try lia; try discriminate; reflexivity.
Qed.
Lemma seg_len e : seg_length e = edge_len e.
Proof. reflexivity. Qed.
Lemma pt_normalised p : normalised (pt_box p).
Proof. split; cbn; lia. Qed.
Lemma touch_edge k b : normalised b ->
  (box_overlaps b (box_of_pts (o_low (c_n k)) (o_high (c_n k))) true = true <-> edge_touches k b).
Proof.
  intros [N1 N2]. unfold edge_touches. destruct (o_low (c_n k)) as [x1 y1], (o_high (c_n k)) as [x2 y2].
  assert (E : box_of_pts (mkPt x1 y1) (mkPt x2 y2) = mkBox (mkPt (Z.min x1 x2) (Z.min y1 y2)) (mkPt (Z.max x1 x2) (Z.max y1 y2))).
  { unfold box_of_pts, box_set. cbn [px py]. rewrite !Z.gtb_ltb. destruct (Z.ltb_spec x2 x1), (Z.ltb_spec y2 y1); f_equal; f_equal; lia. }
  rewrite E. unfold between, pt_box, box_overlaps, in_box. destruct b as [[bx1 by1] [bx2 by2]].
  cbn [bleft bright bbottom btop ll ur px py] in *. split.
  - intros H. exists (mkPt (Z.max bx1 (Z.min x1 x2)) (Z.max by1 (Z.min y1 y2))). cbn [px py]. bxs. lia.
  - intros ([p q] & H1 & H2). cbn [px py] in *. bxs. lia.
Qed.
Lemma sides_iff p b : on_sides p b = true <-> border_line p b.
Proof. unfold on_sides, border_line, bleft, bright, bbottom, btop. lia. Qed.
Lemma gen_between a b : normalised a -> normalised b -> gen_intersect a b = between a b.
Proof. intros [? ?] [? ?]. apply gen_intersect_between; unfold bleft, bright, bbottom, btop in *; split; lia. Qed.
Lemma long8_iff y a b : long8 y a && long8 y b = true <-> (forall v, y_minlen y = Some v -> v <= edge_len a /\ v <= edge_len b).
Proof.
  unfold long8. rewrite !seg_len. destruct (y_minlen y) as [v|].
  - rewrite andb_true_iff, !Z.leb_le. split; [intros H v' E; injection E as <-; exact H|intros H; apply H; reflexivity].
  - split; [intros _ v E; discriminate|reflexivity].
Qed.
Lemma prev_eol_iff y eol k : left_turn (c_p k) (c_n k) -> (prev_eol y eol k = true <-> line_end y eol (c_pp k) (c_p k) (c_n k)).
Proof.
  intros T. unfold prev_eol, line_end. rewrite !andb_true_iff, Z.ltb_lt, seg_len, (proj1 (kind_spec _ _)).
  pose proof (long8_iff y (c_n k) (c_pp k)) as L. rewrite andb_true_iff in L. split.
  - intros [[[A B] C] D]. split; [exact A|]. split; [exact T|]. split; [exact D|]. intros v E. destruct (proj1 L (conj B C) v E). auto.
  - intros (A & _ & D & M). assert (forall v, y_minlen y = Some v -> v <= edge_len (c_n k) /\ v <= edge_len (c_pp k)) as M'.
    { intros v E. destruct (M v E). auto. }
    apply L in M'. tauto.
Qed.
Lemma next_eol_iff y eol k : left_turn (c_p k) (c_n k) -> (next_eol y eol k = true <-> line_end y eol (c_p k) (c_n k) (c_nn k)).
Proof.
  intros T. unfold next_eol, line_end. rewrite !andb_true_iff, Z.ltb_lt, seg_len, (proj1 (kind_spec _ _)).
  pose proof (long8_iff y (c_p k) (c_nn k)) as L. rewrite andb_true_iff in L. tauto.
Qed.
Lemma concave_iff l y r o k m : normalised (gbox r) -> normalised (gbox o) ->
  (concave8 l y r o k = Some m /\ edge_touches (fst k) (gbox o) <->
   near_concave y r o (fst k) /\ ~ (gfixed r = true /\ snd k = true) /\
   m = mkMk (between (pt_box (o_low (c_n (fst k)))) (gbox r)) l (y_id y) (gnet r) (gnet o)).
Proof.
  intros Nr No. unfold concave8, near_concave, corner_marker, cut_marker, c_pt, c_kind.
  rewrite gen_between by (auto using pt_normalised).
  pose proof (proj2 (kind_spec (c_p (fst k)) (c_n (fst k)))) as K. pose proof (sides_iff (o_low (c_n (fst k))) (gbox o)) as S.
  pose proof (near8 y (gbox r) (pt_box (o_low (c_n (fst k)))) (y_spc y) Nr (pt_normalised _)) as N.
  destruct (kind_is _ Concave); cbn [negb]; [|intuition discriminate].
  destruct (on_sides _ _); cbn [negb]; [|intuition discriminate].
  rewrite Z.geb_leb. destruct (Z.leb_spec (y_spc y * y_spc y) (dist8 y (gbox r) (pt_box (o_low (c_n (fst k)))))) as [D|D].
  { split; [intros [X _]; discriminate|]. intros ((_ & _ & _ & X) & _). apply N in X. lia. }
  destruct (gfixed r), (snd k); cbn [andb]; split; try (intros [X _]; discriminate); try tauto;
    intros H; (destruct H as [H1 H2]; [injection H1 as <-; intuition congruence]) || (destruct H as (? & ? & ->); tauto).
Qed.
Lemma triangle ex ey x y b : normalised b -> 0 <= ex -> 0 <= ey ->
  ((exists p, in_box p b /\ ex * Z.abs (py p - y) + ey * Z.abs (px p - x) < ex * ey) <->
   ex * deltaY (between (pt_box (mkPt x y)) b) + ey * deltaX (between (pt_box (mkPt x y)) b) < ex * ey).
Proof.
  intros [N1 N2] Hx Hy. unfold between, pt_box, deltaX, deltaY, in_box. destruct b as [[x1 y1] [x2 y2]].
  cbn [bleft bright bbottom btop ll ur px py] in *.
  set (dy := Z.max _ _ - Z.min (Z.max y y1) _). set (dx := Z.max _ _ - Z.min (Z.max x x1) _).
  assert (Ey : dy = Z.max 0 (Z.max (y1 - y) (y - y2))) by (unfold dy; lia).
  assert (Ex : dx = Z.max 0 (Z.max (x1 - x) (x - x2))) by (unfold dx; lia). clearbody dx dy. split.
  - intros ([p q] & [P Q] & H). cbn [px py] in *. assert (dy <= Z.abs (q - y)) by lia. assert (dx <= Z.abs (p - x)) by lia. nia.
  - intros H. exists (mkPt (Z.max x1 (Z.min x x2)) (Z.max y1 (Z.min y y2))). cbn [px py]. split; [lia|].
    replace (Z.abs (Z.max y1 (Z.min y y2) - y)) with dy by lia. replace (Z.abs (Z.max x1 (Z.min x x2) - x)) with dx by lia. exact H.
Qed.
Lemma convex_iff l y eol r o k m : normalised (gbox r) -> normalised (gbox o) -> 0 <= y_spc y ->
  (convex8 l y eol r o k = Some m /\ edge_touches (fst k) (gbox o) <->
   near_convex y eol r o (fst k) /\ ~ (gfixed r = true /\ snd k = true) /\
   m = mkMk (between (pt_box (o_low (c_n (fst k)))) (gbox r)) l (y_id y) (gnet r) (gnet o)).
Proof.
  intros Nr No Sp. unfold convex8, near_convex, corner_marker, cut_marker, c_pt, c_kind. cbv zeta.
  rewrite gen_between by (auto using pt_normalised).
  pose proof (proj1 (kind_spec (c_p (fst k)) (c_n (fst k)))) as K.
  destruct (kind_is (kind (c_p (fst k)) (c_n (fst k))) Convex); cbn [negb]; [|intuition discriminate].
  assert (T : left_turn (c_p (fst k)) (c_n (fst k))) by tauto. clear K.
  pose proof (prev_eol_iff y eol (fst k) T) as P. pose proof (next_eol_iff y eol (fst k) T) as Q.
  destruct (prev_eol y eol (fst k)); [intuition discriminate|]. destruct (next_eol y eol (fst k)); [intuition discriminate|].
  assert (P' : ~ line_end y eol (c_pp (fst k)) (c_p (fst k)) (c_n (fst k))) by (intros X; apply P in X; discriminate).
  assert (Q' : ~ line_end y eol (c_p (fst k)) (c_n (fst k)) (c_nn (fst k))) by (intros X; apply Q in X; discriminate).
  clear P Q. rewrite (seg_len (c_p (fst k))), (seg_len (c_n (fst k))).
  set (lp := Z.min (y_spc y) (edge_len (c_p (fst k)))). set (ln := Z.min (y_spc y) (edge_len (c_n (fst k)))).
  assert (Lp : 0 <= lp) by (unfold lp, edge_len; lia). assert (Ln : 0 <= ln) by (unfold ln, edge_len; lia).
  destruct (match seg_dir (c_n (fst k)) with EN | ES => (lp, ln) | _ => (ln, lp) end) as [ex ey] eqn:E.
  assert (LG : forall a b, legs y (fst k) a b <-> a = ex /\ b = ey).
  { intros a b. unfold legs. fold lp ln. unfold seg_dir in E. 
    destruct (Z.eqb_spec (px (o_low (c_n (fst k)))) (px (o_high (c_n (fst k))))) as [X|X].
    - destruct (py (o_low (c_n (fst k))) <? py (o_high (c_n (fst k)))); injection E as <- <-; tauto.
    - destruct (px (o_low (c_n (fst k))) <? px (o_high (c_n (fst k)))); injection E as <- <-; tauto. }
  assert (0 <= ex /\ 0 <= ey) as [Hx Hy] by (destruct (seg_dir (c_n (fst k))); injection E as <- <-; auto). clear E.
  assert (TR : (exists ex ey p, legs y (fst k) ex ey /\ in_box p (gbox r) /\
     ex * Z.abs (py p - py (o_low (c_n (fst k)))) + ey * Z.abs (px p - px (o_low (c_n (fst k)))) < ex * ey) <->
     ex * deltaY (between (pt_box (o_low (c_n (fst k)))) (gbox r)) + ey * deltaX (between (pt_box (o_low (c_n (fst k)))) (gbox r)) < ex * ey).
  { destruct (o_low (c_n (fst k))) as [x0 y0] eqn:E. cbn [px py]. rewrite <- triangle by assumption. split.
    - intros (a & b & p & L & H). apply LG in L as [-> ->]. eauto.
    - intros (p & H). exists ex, ey, p. split; [apply LG; auto|exact H]. }
  rewrite TR. clear TR LG. rewrite Z.geb_leb.
  match goal with |- context [?a * ?b <=? ?c] => destruct (Z.leb_spec (a * b) c) as [D|D] end.
  { split; [intros [X _]; discriminate|]. intros ((_ & _ & _ & _ & X) & _). lia. }
  destruct (gfixed r), (snd k); cbn [andb]; split; try (intros [X _]; discriminate); try tauto;
    intros H; (destruct H as [H1 H2]; [injection H1 as <-; intuition congruence]) || (destruct H as (? & ? & ->); tauto).
Qed.
