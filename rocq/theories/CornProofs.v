From Coq Require Import Arith.
From Verif Require Import Base Stl GeomModel TechModel TechSpec TechProofs GcModel GcSpec GcProofs GcProofs2 GcProofs3 CutModel CutProofs2
  EolModel EolSpec EolProofs EolProofs3 EolProofs4 StepModel StepSpec StepProofs2 StepProofs3 StepProofs4 CornModel CornSpec.

(* ---- corners of a contour ---- *)
Lemma next_prev c : with_next (with_prev c) = c.
Proof. destruct c as [|e c]; [reflexivity|]. unfold with_prev, with_next. symmetry. apply app_removelast_last. discriminate. Qed.
Lemma prev_length c : length (with_prev c) = length c.
Proof. rewrite <- (next_prev c) at 2. rewrite with_next_length. reflexivity. Qed.
Lemma prev_nil c : with_prev c = [] -> c = [].
Proof. destruct c; [auto|discriminate]. Qed.
Lemma edge_at_prev c i : c <> [] -> edge_at (with_prev c) (i + 1) = edge_at c i.
Proof. intros N. rewrite <- edge_at_next; [rewrite next_prev; reflexivity|]. intros E. apply N, prev_nil, E. Qed.
Lemma edge_at_full c i : c <> [] -> edge_at c (i + 2 * length c) = edge_at c i.
Proof. intros N. unfold edge_at. f_equal. apply Nat.mod_add. destruct c; [contradiction|discriminate]. Qed.

Definition corner_at (c : list oedge) (i : nat) : corner := mkK (edge_at c i) (edge_at c (i + 1)) (edge_at c (i + 2)) (edge_at c (i + 3)).
Lemma corners_in c k : In k (corners c) <-> c <> [] /\ exists i, k = corner_at c i.
Proof.
  unfold corners. set (d := with_prev (with_prev c)).
  assert (E1 : with_prev c = with_next d) by (unfold d; symmetry; apply next_prev).
  assert (E2 : c = with_next (with_next d)) by (rewrite <- E1; symmetry; apply next_prev).
  assert (Ld : length d = length c) by (unfold d; rewrite !prev_length; reflexivity).
  assert (Nth : c <> [] -> forall i, (i < length c)%nat -> nth_error (combine (combine (combine d (with_prev c)) c) (with_next c)) i =
      Some (edge_at d i, edge_at d (i + 1), edge_at d (i + 2), edge_at d (i + 3))).
  { intros N i H. assert (Nd : d <> []) by (intros X; rewrite X in Ld; destruct c; [contradiction|discriminate Ld]).
    assert (Nd1 : with_next d <> []) by (intros X; apply (f_equal (@length _)) in X; rewrite with_next_length in X; destruct d; [contradiction|discriminate X]).
    assert (Nd2 : with_next (with_next d) <> []) by (rewrite <- E2; exact N).
    rewrite E1. rewrite E2 at 1 2. rewrite <- Ld in H.
    apply combine_nth; [apply combine_nth; [apply combine_nth|]|].
    - rewrite edge_at_lt by exact H. apply nth_error_nth'. exact H.
    - apply with_next_nth. exact H.
    - rewrite with_next_nth by (rewrite with_next_length; exact H). rewrite edge_at_next by exact Nd. do 2 f_equal. lia.
    - rewrite with_next_nth by (rewrite !with_next_length; exact H). rewrite edge_at_next by exact Nd1. rewrite edge_at_next by exact Nd. do 2 f_equal. lia. }
  assert (Len : length (combine (combine (combine d (with_prev c)) c) (with_next c)) = length c).
  { rewrite !combine_length, with_next_length, prev_length, Ld. lia. }
  rewrite in_map_iff. split.
  - intros (t & <- & I). assert (N : c <> []) by (intros ->; rewrite combine_nil in I; destruct I). split; [exact N|].
    apply In_nth_error in I as (i & H). assert (Hi : (i < length c)%nat) by (rewrite <- Len; apply nth_error_Some; congruence).
    rewrite Nth in H by auto. injection H as <-. cbn [fst snd]. exists (i + 2 * length c - 2)%nat. unfold corner_at.
    assert (Sh : forall j, edge_at c (i + 2 * length c - 2 + j) = edge_at d (i + j)).
    { intros j. assert (P : (1 <= length c)%nat) by lia.
      assert (Nd : d <> []) by (intros X; rewrite X in Ld; destruct c; [contradiction|discriminate Ld]).
      assert (Nd1 : with_prev c <> []) by (intros X; apply N, prev_nil, X).
      rewrite <- (edge_at_prev c _ N), <- (edge_at_prev (with_prev c) _ Nd1). fold d.
      replace (i + 2 * length c - 2 + j + 1 + 1)%nat with (i + j + 2 * length d)%nat by lia. apply edge_at_full, Nd. }
    pose proof (Sh 0%nat) as S0. rewrite !Nat.add_0_r in S0. rewrite S0, !Sh. reflexivity.
  - intros [N (i & ->)]. assert (L : length c <> 0%nat) by (destruct c; [contradiction|discriminate]).
    assert (Nd1 : with_prev c <> []) by (intros X; apply N, prev_nil, X).
    exists (edge_at d (i + 2), edge_at d (i + 3), edge_at d (i + 4), edge_at d (i + 5)).
    assert (Sh : forall j, edge_at d (i + j + 2) = edge_at c (i + j)).
    { intros j. rewrite <- (edge_at_prev c _ N), <- (edge_at_prev (with_prev c) _ Nd1). fold d. f_equal. lia. }
    split.
    + cbn [fst snd]. unfold corner_at. pose proof (Sh 0%nat) as S0. pose proof (Sh 1%nat) as S1. pose proof (Sh 2%nat) as S2. pose proof (Sh 3%nat) as S3.
      rewrite <- !Nat.add_assoc in *. cbn [Nat.add] in *. rewrite !Nat.add_0_r in *. rewrite S0, S1, S2, S3. reflexivity.
    + apply nth_error_In with (n := ((i + 2) mod length c)%nat).
      assert (M : ((i + 2) mod length c < length c)%nat) by (apply Nat.mod_upper_bound; exact L). rewrite (Nth N _ M).
      rewrite <- Ld in *. assert (Mm : ((i + 2) mod length d mod length d = (i + 2) mod length d)%nat) by (apply Nat.mod_mod; exact L).
      pose proof (edge_at_mod d _ (i + 2) 0 L Mm) as A0. pose proof (edge_at_mod d _ (i + 2) 1 L Mm) as A1.
      pose proof (edge_at_mod d _ (i + 2) 2 L Mm) as A2. pose proof (edge_at_mod d _ (i + 2) 3 L Mm) as A3.
      rewrite A1, A2, A3. rewrite !Nat.add_0_r in A0. rewrite A0. rewrite <- !Nat.add_assoc. reflexivity.
Qed.

(* ---- the frame of a corner ---- *)
Definition fx (d : cdir) (x0 : Z) (z : point) : Z := match d with NE | SE => px z - x0 | _ => x0 - px z end.
Definition fy (d : cdir) (y0 : Z) (z : point) : Z := match d with NE | NW => py z - y0 | _ => y0 - py z end.
Lemma sgn0 a b : a = b -> Z.sgn (b - a) = 0. Proof. intros ->. rewrite Z.sub_diag. reflexivity. Qed.
Lemma sgnp a b : a < b -> Z.sgn (b - a) = 1. Proof. intros. apply Z.sgn_pos. lia. Qed.
Lemma sgnn a b : b < a -> Z.sgn (b - a) = -1. Proof. intros. apply Z.sgn_neg. lia. Qed.
Lemma frame p n : straight p -> straight n -> o_high p = o_low n -> turns_in p n \/ turns_out p n ->
  cdir_of p n <> NoDir /\
  ((forall z, ahead p z = fx (cdir_of p n) (px (o_low n)) z /\ ahead n z = fy (cdir_of p n) (py (o_low n)) z) \/
   (forall z, ahead p z = fy (cdir_of p n) (py (o_low n)) z /\ ahead n z = fx (cdir_of p n) (px (o_low n)) z)).
Proof.
  destruct p as [n1 [x1 y1] [x2 y2] f1], n as [n2 [x3 y3] [x4 y4] f2]. unfold straight, turns_in, turns_out, cdir_of, seg_dir, ahead.
  cbn [o_low o_high px py]. intros Sp Sn M T. injection M as <- <-.
  assert (forall a b : Z, a = b \/ a <> b) as EqD by (intros; lia).
  destruct Sp as [[E1 D1]|[D1 E1]]; destruct Sn as [[E2 D2]|[D2 E2]].
  - exfalso. rewrite (sgn0 x1 x2 E1) in T. lia.
  - destruct (Z.eqb_spec x1 x2); [|lia]. destruct (Z.eqb_spec x2 x4); [lia|].
    destruct (Z.lt_total y1 y2) as [Y|[Y|Y]]; [| lia |]; destruct (Z.lt_total x2 x4) as [X|[X|X]]; try lia;
    rewrite (sgn0 x1 x2 E1) in *; rewrite (sgn0 y2 y4 E2) in *;
    rewrite ?(sgnp _ _ Y), ?(sgnn _ _ Y), ?(sgnp _ _ X), ?(sgnn _ _ X) in *;
    destruct (Z.ltb_spec y1 y2); try lia; destruct (Z.ltb_spec x2 x4); try lia; (split; [discriminate|]); left; intros [zx zy]; cbn [fx fy px py]; lia.
  - destruct (Z.eqb_spec x1 x2); [lia|]. destruct (Z.eqb_spec x2 x4); [|lia].
    destruct (Z.lt_total x1 x2) as [X|[X|X]]; [| lia |]; destruct (Z.lt_total y2 y4) as [Y|[Y|Y]]; try lia;
    rewrite (sgn0 y1 y2 E1) in *; rewrite (sgn0 x2 x4 E2) in *;
    rewrite ?(sgnp _ _ Y), ?(sgnn _ _ Y), ?(sgnp _ _ X), ?(sgnn _ _ X) in *;
    destruct (Z.ltb_spec y2 y4); try lia; destruct (Z.ltb_spec x1 x2); try lia; (split; [discriminate|]); right; intros [zx zy]; cbn [fx fy px py]; lia.
  - exfalso. rewrite (sgn0 y1 y2 E1) in T. lia.
Qed.
Lemma kind_convex p n : straight p -> o_high p = o_low n -> kind p n = Convex <-> turns_in p n.
Proof.
  intros S M. unfold kind, turns_in. pose proof (turn_from p n 1 S M) as A.
  destruct (Z.eqb_spec (orientation p n) 1) as [E|E].
  - split; [intros _|reflexivity]. apply A in E. destruct (Z.lt_total (ahead p (o_high n)) 0) as [H|[H|H]]; [exact H| |].
    + rewrite H in E. discriminate E.
    + rewrite Z.sgn_neg in E by lia. discriminate E.
  - split; [destruct (orientation p n =? -1); discriminate|]. intros H. exfalso. apply E, A. apply Z.sgn_pos. lia.
Qed.
Lemma kind_concave p n : straight p -> o_high p = o_low n -> kind p n = Concave <-> turns_out p n.
Proof.
  intros S M. unfold kind, turns_out. pose proof (turn_from p n (-1) S M) as A. pose proof (turn_from p n 1 S M) as B.
  destruct (Z.eqb_spec (orientation p n) 1) as [E|E]; [split; [discriminate|]; intros H; exfalso; apply B in E; rewrite Z.sgn_neg in E by lia; discriminate E|].
  destruct (Z.eqb_spec (orientation p n) (-1)) as [E'|E'].
  - split; [intros _|reflexivity]. apply A in E'. destruct (Z.lt_total (ahead p (o_high n)) 0) as [H|[H|H]]; [| |exact H].
    + rewrite Z.sgn_pos in E' by lia. discriminate E'.
    + rewrite H in E'. discriminate E'.
  - split; [discriminate|]. intros H. exfalso. apply E', A. apply Z.sgn_neg. lia.
Qed.
