From Coq Require Import String.
From Verif Require Import Base DwModel DwSpec.
Local Open Scope string_scope.
Local Open Scope Z_scope.
Local Open Scope list_scope.

(* --- six digits --- *)
Lemma scale6_spec fuel : forall p a j, 0 <= j -> p = 10 ^ j -> (j = 0 \/ 100000 * p <= a) -> a < 1000000 * (p * 10 ^ Z.of_nat fuel) ->
  exists k, 0 <= k /\ scale6 fuel p a = 10 ^ k /\ a < 1000000 * 10 ^ k /\ (k = 0 \/ 100000 * 10 ^ k <= a).
Proof.
  induction fuel as [|f IH]; intros p a j J -> L U; cbn [scale6].
  - exists j. change (10 ^ Z.of_nat 0) with 1 in U. rewrite Z.mul_1_r in U. repeat split; auto.
  - destruct (Z.ltb_spec a (1000000 * 10 ^ j)) as [H|H].
    + exists j. repeat split; auto.
    + apply (IH (10 * 10 ^ j) a (j + 1)); [lia| | |].
      * rewrite Z.pow_add_r by lia. change (10 ^ 1) with 10. lia.
      * right. lia.
      * rewrite Nat2Z.inj_succ, Z.pow_succ_r in U by lia. lia.
Qed.
Lemma g6_scale n : exists k, 0 <= k /\ let p := 10 ^ k in Z.abs n < 1000000 * p /\ (k = 0 \/ 100000 * p <= Z.abs n) /\
  g6 n = Z.sgn n * ((let q := Z.abs n / p in let r := Z.abs n mod p in if (p <? 2 * r) || ((2 * r =? p) && Z.odd q) then q + 1 else q) * p).
Proof.
  destruct (scale6_spec (Z.to_nat (Z.log2 (Z.abs n))) 1 (Z.abs n) 0) as (k & K & E & U & L); [lia|reflexivity|left; reflexivity| |].
  - rewrite Z2Nat.id by apply Z.log2_nonneg. rewrite Z.mul_1_l. destruct (Z.eq_dec (Z.abs n) 0) as [->|Z0]; [cbn; lia|].
    pose proof (Z.log2_spec (Z.abs n) ltac:(lia)) as [_ Q]. rewrite Z.pow_succ_r in Q by apply Z.log2_nonneg. assert (2 ^ Z.log2 (Z.abs n) <= 10 ^ Z.log2 (Z.abs n)) by (apply Z.pow_le_mono_l; lia).
    pose proof (Z.pow_pos_nonneg 10 (Z.log2 (Z.abs n)) ltac:(lia) (Z.log2_nonneg _)). lia.
  - exists k. split; [exact K|]. cbn zeta. split; [exact U|]. split; [exact L|]. unfold g6. rewrite E. reflexivity.
Qed.
Lemma g6_exact n : g6 n = n <-> six_digits n.
Proof.
  destruct (g6_scale n) as (k & K & U & L & E). cbn zeta in *. set (p := 10 ^ k) in *. assert (P : 0 < p) by (apply Z.pow_pos_nonneg; lia). split.
  - intros G. rewrite G in E. set (q := if _ || _ then _ else _) in E. exists (Z.sgn n * q), k. split; [exact K|]. fold p. split; [|lia].
    assert (Q : Z.abs n = Z.abs (Z.sgn n * q) * p) by (rewrite E at 1; rewrite !Z.abs_mul, (Z.abs_eq p) by lia; ring). rewrite Q in U. apply (Z.mul_lt_mono_pos_r p); lia.
  - intros (m & j & J & M & ->). destruct (Z.le_gt_cases k j) as [C|C].
    + assert (D : Z.abs (m * 10 ^ j) = Z.abs m * 10 ^ (j - k) * p). { rewrite Z.abs_mul, (Z.abs_eq (10 ^ j)) by (apply Z.pow_nonneg; lia). unfold p. rewrite <- Z.mul_assoc, <- Z.pow_add_r by lia. do 2 f_equal. lia. }
      rewrite D in E. rewrite Z.mod_mul, Z.div_mul in E by lia. change (2 * 0) with 0 in E.
      destruct (Z.ltb_spec p 0); [lia|]. destruct (Z.eqb_spec 0 p); [lia|]. cbn [orb andb] in E. rewrite E, <- D. rewrite Z.mul_comm. apply Z.abs_sgn.
    + exfalso. destruct L as [L|L]; [lia|]. rewrite Z.abs_mul, (Z.abs_eq (10 ^ j)) in L by (apply Z.pow_nonneg; lia).
      assert (10 * 10 ^ j <= p). { unfold p. replace k with ((k - j - 1) + 1 + j) by lia. rewrite !Z.pow_add_r by lia. change (10 ^ 1) with 10. pose proof (Z.pow_pos_nonneg 10 (k - j - 1) ltac:(lia) ltac:(lia)). pose proof (Z.pow_pos_nonneg 10 j ltac:(lia) ltac:(lia)). nia. }
      pose proof (Z.pow_pos_nonneg 10 j ltac:(lia) ltac:(lia)). assert (Z.abs m * 10 ^ j < 1000000 * 10 ^ j) by (apply Z.mul_lt_mono_pos_r; lia). lia.
Qed.
Lemma g6_error n : 200000 * Z.abs (g6 n - n) <= Z.abs n.
Proof.
  destruct (g6_scale n) as (k & K & U & L & E). cbn zeta in *. set (p := 10 ^ k) in *. assert (P : 0 < p) by (apply Z.pow_pos_nonneg; lia).
  pose proof (Z.div_mod (Z.abs n) p ltac:(lia)) as D. pose proof (Z.mod_pos_bound (Z.abs n) p P) as R. set (q := Z.abs n / p) in *. set (r := Z.abs n mod p) in *.
  assert (B : exists e, g6 n - n = Z.sgn n * e /\ 2 * Z.abs e <= p /\ (k = 0 -> e = 0)).
  { assert (A : g6 n - n = Z.sgn n * ((if (p <? 2 * r) || ((2 * r =? p) && Z.odd q) then q + 1 else q) * p - Z.abs n)) by (rewrite E, Z.mul_sub_distr_l, (Z.mul_comm (Z.sgn n) (Z.abs n)), Z.abs_sgn; reflexivity). rewrite A. clear A.
    assert (K0 : k = 0 -> r = 0) by (intros ->; unfold p in R; change (10 ^ 0) with 1 in R; lia).
    clear E U L. clearbody q r p. destruct (Z.ltb_spec p (2 * r)); [|destruct (Z.eqb_spec (2 * r) p); [destruct (Z.odd q)|]]; cbn [orb andb].
    - exists (p - r). split; [rewrite D; ring|]. split; [lia|]. intros E0. specialize (K0 E0). lia.
    - exists (p - r). split; [rewrite D; ring|]. split; [lia|]. intros E0. specialize (K0 E0). lia.
    - exists (- r). split; [rewrite D; ring|]. split; [lia|]. intros E0. specialize (K0 E0). lia.
    - exists (- r). split; [rewrite D; ring|]. split; [lia|]. intros E0. specialize (K0 E0). lia. }
  destruct B as (e & -> & B1 & B2). rewrite Z.abs_mul. assert (Z.abs (Z.sgn n) <= 1) by (destruct n; cbn; lia). assert (Z.abs (Z.sgn n) * Z.abs e <= 1 * Z.abs e) by (apply Z.mul_le_mono_nonneg_r; lia).
  destruct L as [L|L]; [specialize (B2 L); subst e; rewrite Z.abs_0, Z.mul_0_r; lia|lia].
Qed.

(* --- words --- *)
Lemma sign_name s : sign s = false <-> is_name s.
Proof.
  unfold sign, is_name. split.
  - intros H I. assert (existsb (String.eqb s) [";"; "+"; "-"; "("; ")"] = true) by (apply existsb_exists; exists s; split; [exact I|apply String.eqb_refl]). congruence.
  - intros H. destruct (existsb _ _) eqn:E; [|reflexivity]. apply existsb_exists in E as (x & X & E). apply String.eqb_eq in E. subst x. contradiction.
Qed.
Definition stops (ts : list tok) : Prop := match ts with W s :: _ => sign s = true | _ => True end.
Lemma words_names l ts : (forall s, In s l -> is_name s) -> stops ts -> words (map W l ++ ts) = (l, ts).
Proof.
  intros H S. induction l as [|s l IH]; cbn [map app].
  - destruct ts as [|[s|z] r]; [reflexivity| |reflexivity]. cbn [words]. cbn [stops] in S. rewrite S. reflexivity.
  - cbn [words]. rewrite (proj2 (sign_name s) (H s (or_introl eq_refl))), IH; [reflexivity|]. intros x X. apply H. right. exact X.
Qed.
Lemma word_name s r : is_name s -> word (W s :: r) = Some (s, r).
Proof. intros H. cbn [word]. rewrite (proj2 (sign_name s) H). reflexivity. Qed.
Lemma word_stops ts : stops ts -> word ts = None.
Proof. destruct ts as [|[s|z] r]; cbn; intros H; try reflexivity. rewrite H. reflexivity. Qed.
Lemma orient_ok o r : is_orient o -> orient (W (orient_str o) :: r) = Some (o, r).
Proof.
  intros H. unfold is_orient in H. assert (C : o = 0 \/ o = 1 \/ o = 2 \/ o = 3 \/ o = 4 \/ o = 5 \/ o = 6 \/ o = 7) by lia. repeat destruct C as [->|C]; try (subst o); reflexivity.
Qed.
Lemma xy_ok b r : read_xy (W (xy b) :: r) = Some (b, r). Proof. destruct b; reflexivity. Qed.

(* --- floor plan statements --- *)
Definition rounded_track (t : track) : track := mkTrk (t_isx t) (g6 (t_x t)) (g6 (t_num t)) (g6 (t_step t)) (t_mask t) (t_same t) (t_layers t).
Lemma track_read t rest : track_wf t -> read_track (print_track t ++ rest) = Some (rounded_track t, rest).
Proof.
  intros (L & N & M & S). unfold print_track. rewrite <- !app_assoc. cbn [app]. unfold read_track, rounded_track. destruct t as [b x n s m same ls]. cbn [t_isx t_x t_num t_step t_mask t_same t_layers] in *.
  change (eat "TRACKS" (W "TRACKS" :: ?r)) with (Some r). cbv iota beta. rewrite xy_ok. cbn [num]. change (eat "DO" (W "DO" :: ?r)) with (Some r). cbv iota beta. cbn [num]. change (eat "STEP" (W "STEP" :: ?r)) with (Some r). cbv iota beta. cbn [num].
  assert (R : read_mask ((if negb (m =? 0) then if same then [W "MASK"; Nu m; W "SAMEMASK"] else [W "MASK"; Nu m] else []) ++ W "LAYER" :: map W ls ++ W ";" :: rest) = Some (m, same, W "LAYER" :: map W ls ++ W ";" :: rest)).
  { destruct (Z.eqb_spec m 0) as [->|E]; cbn [negb]; [destruct same; [elim (S eq_refl); reflexivity|reflexivity]|destruct same; reflexivity]. }
  rewrite R. change (eat "LAYER" (W "LAYER" :: ?r)) with (Some r). cbv iota beta. rewrite words_names; [|exact N|reflexivity]. destruct ls as [|l ls]; [contradiction|]. reflexivity.
Qed.
Definition rounded_grid (g : gcgrid) : gcgrid := mkGc (gg_isx g) (gg_x g) (gg_num g) (g6 (gg_step g)).
Lemma grid_read g rest : read_gcgrid (print_gcgrid g ++ rest) = Some (rounded_grid g, rest).
Proof. unfold print_gcgrid, rounded_grid, read_gcgrid. destruct g as [b x n s]. destruct b; reflexivity. Qed.
Definition rounded_do (d : option (Z * Z * option (Z * Z))) : option (Z * Z * option (Z * Z)) :=
  match d with
  | None => None
  | Some (nx, ny, None) => Some (g6 nx, g6 ny, None)
  | Some (nx, ny, Some (sx, sy)) => Some (g6 nx, g6 ny, Some (g6 sx, g6 sy))
  end.
Definition rounded_row (w : row) : row := mkRow (r_name w) (r_site w) (r_x w) (r_y w) (r_orient w) (rounded_do (r_do w)) [].
(* what follows the row when it has properties *)
Definition stray (w : row) : list tok := match r_props w with [] => [] | ps => flat_map print_prop ps ++ [W ";"] end.
Lemma row_read ty w rest : row_wf w -> read_row ty (print_row w ++ rest) = Some (rounded_row w, stray w ++ rest).
Proof.
  intros (N1 & N2 & O). unfold print_row. rewrite <- !app_assoc. fold (stray w). unfold read_row, rounded_row. destruct w as [n s x y o d ps]. cbn [r_name r_site r_x r_y r_orient r_do] in *. cbn [app].
  change (eat "ROW" (W "ROW" :: ?r)) with (Some r). cbv iota beta. rewrite (word_name n) by exact N1. rewrite (word_name s) by exact N2. cbn [num]. rewrite (orient_ok o) by exact O.
  destruct d as [[[nx ny] [[sx sy]|]]|]; reflexivity.
Qed.
Definition rounded (s : stmt) : stmt := match s with STrack t => STrack (rounded_track t) | SGrid g => SGrid (rounded_grid g) | SRow w => SRow (rounded_row w) end.
Lemma stmt_read ty s rest : stmt_wf s -> no_row_properties s -> read_stmt ty (print_stmt s ++ rest) = Some (rounded s, rest).
Proof.
  intros H P. destruct s as [w|t|g]; cbn [print_stmt stmt_wf no_row_properties rounded] in *.
  - pose proof (row_read ty w rest H) as R. unfold stray in R. rewrite P in R. cbn [app] in R. change (read_stmt ty (print_row w ++ rest)) with (option_map (fun x => (SRow (fst x), snd x)) (read_row ty (print_row w ++ rest))). rewrite R. reflexivity.
  - change (read_stmt ty (print_track t ++ rest)) with (option_map (fun x => (STrack (fst x), snd x)) (read_track (print_track t ++ rest))). rewrite track_read by exact H. reflexivity.
  - change (read_stmt ty (print_gcgrid g ++ rest)) with (option_map (fun x => (SGrid (fst x), snd x)) (read_gcgrid (print_gcgrid g ++ rest))). rewrite grid_read. reflexivity.
Qed.
Lemma print_stmt_cons s : exists t r, print_stmt s = t :: r. Proof. destruct s; eexists; eexists; reflexivity. Qed.
Lemma plan_read ty l : (forall s, In s l -> stmt_wf s /\ no_row_properties s) -> forall fuel, (length (print_plan l) < fuel)%nat -> read_plan ty fuel (print_plan l) = Some (map rounded l).
Proof.
  unfold print_plan. induction l as [|s l IH]; intros H fuel F; (destruct fuel as [|f]; [cbn in F; lia|]); [reflexivity|]. cbn [flat_map] in *. rewrite app_length in F. destruct (print_stmt_cons s) as (t & r & E). cbn [read_plan].
  destruct (H s (or_introl eq_refl)) as [H1 H2]. destruct (print_stmt s ++ flat_map print_stmt l) as [|t' r'] eqn:E2; [rewrite E in E2; discriminate|]. rewrite <- E2. rewrite stmt_read by assumption. cbn [map]. rewrite IH; [reflexivity| |].
  - intros x X. apply H. right. exact X.
  - rewrite E in F. cbn [length] in F. lia.
Qed.
Lemma six_eq n : six_digits n -> g6 n = n. Proof. apply g6_exact. Qed.
Lemma rounded_same s : no_row_properties s -> (rounded s = s <-> stmt_short s).
Proof.
  intros P. destruct s as [w|t|g]; cbn [rounded stmt_short no_row_properties] in *.
  - destruct w as [n st x y o d ps]. cbn [r_props] in P. subst ps. unfold rounded_row. cbn [r_name r_site r_x r_y r_orient r_do]. destruct d as [[[nx ny] [[sx sy]|]]|]; cbn [rounded_do]; split; intros H; auto.
    + injection H as H1 H2 H3 H4. repeat split; apply g6_exact; assumption.
    + destruct H as (H1 & H2 & H3 & H4). rewrite !six_eq by assumption. reflexivity.
    + injection H as H1 H2. split; apply g6_exact; assumption.
    + destruct H as (H1 & H2). rewrite !six_eq by assumption. reflexivity.
  - destruct t as [b x n s m same ls]. unfold rounded_track. cbn. split; intros H.
    + injection H as H1 H2 H3. repeat split; apply g6_exact; assumption.
    + destruct H as (H1 & H2 & H3). rewrite !six_eq by assumption. reflexivity.
  - destruct g as [b x n s]. unfold rounded_grid. cbn. split; intros H.
    + injection H as H1. apply g6_exact; assumption.
    + rewrite six_eq by assumption. reflexivity.
Qed.
