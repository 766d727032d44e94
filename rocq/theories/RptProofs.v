From Verif Require Import Base GeomModel GfModel GfSpec GfProofs RptModel RptSpec.
From Coq Require Import String Ascii.
From Coq Require Import List.
Open Scope list_scope.

Lemma digs_bound n : forall a, 0 < a < 10 ^ Z.of_nat n -> 1 <= digs n a /\ 10 ^ (digs n a - 1) <= a < 10 ^ digs n a.
Proof.
  induction n as [|n IH]; intros a H; [cbn in H; lia|]. cbn [digs]. destruct (Z.ltb_spec a 10) as [L|L]; [cbn; lia|].
  rewrite Nat2Z.inj_succ, Z.pow_succ_r in H by lia.
  assert (Ha : 0 < a / 10 < 10 ^ Z.of_nat n).
  { split; [apply Z.div_str_pos; lia|apply Z.div_lt_upper_bound; lia]. }
  specialize (IH _ Ha). destruct IH as (D & B1 & B2). set (k := digs n (a / 10)) in *.
  pose proof (Z.div_mod a 10 ltac:(lia)). pose proof (Z.mod_pos_bound a 10 ltac:(lia)).
  split; [lia|]. replace (1 + k - 1) with (Z.succ (k - 1)) by lia. rewrite Z.pow_succ_r by lia. replace (1 + k) with (Z.succ k) by lia. rewrite Z.pow_succ_r by lia. lia.
Qed.
Lemma ndigits_bound a : 0 < a -> 1 <= ndigits a /\ 10 ^ (ndigits a - 1) <= a < 10 ^ ndigits a.
Proof.
  intros H. apply digs_bound. split; [exact H|]. destruct (Z.log2_spec a H) as [_ L]. rewrite Nat2Z.inj_succ, Z2Nat.id by apply Z.log2_nonneg.
  eapply Z.lt_le_trans; [exact L|]. apply Z.pow_le_mono_l. lia.
Qed.
Lemma pow10_pos k : 0 <= k -> 0 < 10 ^ k.
Proof. intros. apply Z.pow_pos_nonneg; lia. Qed.
Section P.
Variable dbu : Z.
Variable up : Z -> bool.
Hypothesis D : 0 < dbu.
(* the exponent *)
Definition kexp (x : Z) : Z := let p := ndigits dbu in ndigits (x * 10 ^ p / dbu) - 6 - p.
Lemma scaled_pos v k : 0 < v -> 0 < scaled v k.
Proof. intros H. unfold scaled. pose proof (pow10_pos (Z.max 0 (- k)) ltac:(lia)). nia. Qed.
(* a comparison with a power of ten, without fractions *)
Lemma range x : 0 < x -> 100000 * scaled dbu (- kexp x) <= scaled x (kexp x) < 1000000 * scaled dbu (- kexp x).
Proof.
  intros X. unfold kexp. cbn zeta. set (p := ndigits dbu). destruct (ndigits_bound dbu D) as (P1 & P2 & P3). fold p in P1, P2, P3.
  set (q := x * 10 ^ p / dbu). assert (Hq : 0 < q). { apply Z.div_str_pos. nia. }
  destruct (ndigits_bound q Hq) as (Q1 & Q2 & Q3). set (n := ndigits q) in *.
  pose proof (Z.div_mod (x * 10 ^ p) dbu ltac:(lia)) as E. pose proof (Z.mod_pos_bound (x * 10 ^ p) dbu D) as M. fold q in E.
  assert (A1 : dbu * 10 ^ (n - 1) <= x * 10 ^ p) by nia.
  assert (A2 : x * 10 ^ p < dbu * 10 ^ n) by nia.
  unfold scaled. set (k := n - 6 - p). rewrite Z.opp_involutive.
  change 100000 with (10 ^ 5). change 1000000 with (10 ^ 6).
  destruct (Z.leb_spec 0 k) as [K|K].
  - rewrite (Z.max_l 0 (- k)) by lia. rewrite (Z.max_r 0 k) by lia. rewrite Z.pow_0_r, Z.mul_1_r.
    assert (E1 : 10 ^ (n - 1) = 10 ^ 5 * 10 ^ k * 10 ^ p). { rewrite <- !Z.pow_add_r by lia. f_equal. lia. }
    assert (E2 : 10 ^ n = 10 ^ 6 * 10 ^ k * 10 ^ p). { rewrite <- !Z.pow_add_r by lia. f_equal. lia. }
    rewrite E1 in A1. rewrite E2 in A2. pose proof (pow10_pos p ltac:(lia)). set (a := 10 ^ 5 * 10 ^ k) in *. set (b := 10 ^ 6 * 10 ^ k) in *.
    replace (10 ^ 5 * (dbu * 10 ^ k)) with (dbu * a) by (unfold a; ring). replace (10 ^ 6 * (dbu * 10 ^ k)) with (dbu * b) by (unfold b; ring).
    clearbody a b. nia.
  - rewrite (Z.max_r 0 (- k)) by lia. rewrite (Z.max_l 0 k) by lia. rewrite Z.pow_0_r, Z.mul_1_r.
    assert (E1 : 10 ^ (n - 1) * 10 ^ (- k) = 10 ^ 5 * 10 ^ p). { rewrite <- !Z.pow_add_r by lia. f_equal. lia. }
    assert (E2 : 10 ^ n * 10 ^ (- k) = 10 ^ 6 * 10 ^ p). { rewrite <- !Z.pow_add_r by lia. f_equal. lia. }
    pose proof (pow10_pos p ltac:(lia)) as Pp. pose proof (pow10_pos (- k) ltac:(lia)) as Pk.
    set (c := 10 ^ (- k)) in *. set (t := 10 ^ p) in *.
    assert (B1 : dbu * (10 ^ 5 * t) <= x * c * t). { rewrite <- E1. nia. }
    assert (B2 : x * c * t < dbu * (10 ^ 6 * t)). { rewrite <- E2. nia. }
    clear E1 E2 A1 A2. clearbody c t. nia.
Qed.
Lemma print_pos_k x : snd (print_pos dbu up x) = kexp x.
Proof. reflexivity. Qed.
Lemma print_pos_near x : 0 < x -> near dbu x (print_pos dbu up x).
Proof.
  intros X. unfold near, print_pos. fold (kexp x). set (k := kexp x). unfold scaled. rewrite Z.opp_involutive.
  set (num := x * 10 ^ Z.max 0 (- k)). set (den := dbu * 10 ^ Z.max 0 k).
  assert (Hd : 0 < den). { pose proof (pow10_pos (Z.max 0 k) ltac:(lia)). unfold den. nia. }
  pose proof (Z.div_mod num den ltac:(lia)) as E. pose proof (Z.mod_pos_bound num den Hd) as M. set (m := num / den) in *. set (r := num mod den) in *. clearbody m r num den.
  destruct (Z.ltb_spec (2 * r) den); [nia|]. rewrite Z.gtb_ltb. destruct (Z.ltb_spec den (2 * r)); [nia|]. destruct (up x); nia.
Qed.
Lemma equals_mul x m k j : 0 <= j -> 0 < x -> equals dbu x (m, k + j) -> equals dbu x (m * 10 ^ j, k).
Proof.
  intros J X H. unfold equals, scaled in *. rewrite Z.opp_involutive in *.
  destruct (Z.leb_spec 0 k).
  - rewrite (Z.max_l 0 (- k)), (Z.max_r 0 k) by lia. rewrite (Z.max_l 0 (- (k + j))), (Z.max_r 0 (k + j)) in H by lia. rewrite Z.pow_add_r in H by lia. rewrite Z.pow_0_r in *. lia.
  - destruct (Z.leb_spec 0 (k + j)).
    + rewrite (Z.max_r 0 (- k)), (Z.max_l 0 k) by lia. rewrite (Z.max_l 0 (- (k + j))), (Z.max_r 0 (k + j)) in H by lia. rewrite Z.pow_0_r in *.
      replace j with ((k + j) + (- k)) at 1 by lia. rewrite Z.pow_add_r by lia. nia.
    + rewrite (Z.max_r 0 (- k)), (Z.max_l 0 k) by lia. rewrite (Z.max_r 0 (- (k + j))), (Z.max_l 0 (k + j)) in H by lia. rewrite Z.pow_0_r in *.
      replace (- k) with (- (k + j) + j) by lia. rewrite Z.pow_add_r by lia. nia.
Qed.
Lemma print_pos_exact x : 0 < x -> short_number dbu x -> equals dbu x (print_pos dbu up x).
Proof.
  intros X (m & j & Hm & Hj). pose proof (range x X) as R.
  assert (Hk : kexp x <= j).
  { destruct (Z_lt_le_dec j (kexp x)) as [L|L]; [exfalso|exact L].
    (* j < k: then x/dbu = m 10^j < 10^6 10^j <= 10^5 10^k *)
    unfold equals in Hj. unfold scaled in *. rewrite Z.opp_involutive in *. set (k := kexp x) in *.
    assert (Mp : 0 < m). { pose proof (pow10_pos (Z.max 0 (- j)) ltac:(lia)). pose proof (pow10_pos (Z.max 0 j) ltac:(lia)). nia. }
    set (a := 10 ^ Z.max 0 (- k)) in *. set (b := 10 ^ Z.max 0 k) in *. set (c := 10 ^ Z.max 0 (- j)) in *. set (e := 10 ^ Z.max 0 j) in *.
    assert (Q : 10 * (a * e) <= b * c).
    { unfold a, b, c, e. change 10 with (10 ^ 1) at 1. rewrite <- !Z.pow_add_r by lia. apply Z.pow_le_mono_r; lia. }
    assert (0 < a /\ 0 < b /\ 0 < c /\ 0 < e) as (Pa & Pb & Pc & Pe) by (unfold a, b, c, e; repeat split; apply pow10_pos; lia).
    destruct R as [R _]. clearbody a b c e k.
    (* x c = m dbu e, 100000 dbu b <= x a, m < 1000000, 10 a e <= b c *)
    assert (S1 : 100000 * (dbu * b) * c <= x * a * c) by nia.
    assert (S2 : x * a * c = m * dbu * (a * e)) by nia.
    assert (S3 : m * dbu * (a * e) <= 999999 * dbu * (a * e)). { apply Z.mul_le_mono_nonneg_r; nia. }
    assert (S4 : 1000000 * dbu * (a * e) <= 100000 * dbu * (b * c)) by nia.
    assert (S5 : 0 < dbu * (a * e)) by nia. nia. }
  assert (E : equals dbu x (m * 10 ^ (j - kexp x), kexp x)). { apply equals_mul; [lia|exact X|]. replace (kexp x + (j - kexp x)) with j by lia. exact Hj. }
  unfold print_pos. fold (kexp x). cbn zeta. set (k := kexp x) in *. unfold equals, scaled in *. rewrite Z.opp_involutive in *.
  set (num := x * 10 ^ Z.max 0 (- k)) in *. set (den := dbu * 10 ^ Z.max 0 k) in *. set (w := m * 10 ^ (j - k)) in *.
  assert (Hd : 0 < den). { pose proof (pow10_pos (Z.max 0 k) ltac:(lia)). unfold den. nia. }
  clearbody num den w k. rewrite E. rewrite Z.mod_mul, Z.div_mul by lia. destruct (Z.ltb_spec (2 * 0) den); [reflexivity|lia].
Qed.
Lemma scaled_opp x k : scaled (- x) k = - scaled x k.
Proof. unfold scaled. lia. Qed.
Lemma print_near x : near dbu x (print dbu up x) /\ (x <> 0 -> six_digits dbu x (print dbu up x)).
Proof.
  unfold print. destruct (Z.eqb_spec x 0) as [->|N].
  - split; [|contradiction]. unfold near. pose proof (scaled_pos dbu (- 0) D). unfold scaled at 1. lia.
  - destruct (Z.ltb_spec x 0) as [L|L].
    + pose proof (print_pos_near (- x) ltac:(lia)) as H. pose proof (print_pos_k (- x)) as Ek. pose proof (range (- x) ltac:(lia)) as R. rewrite <- Ek in R. destruct (print_pos dbu up (- x)) as [m k]. cbn [snd] in *. unfold near, six_digits in *. rewrite scaled_opp in *. split; [lia|intros _; lia].
    + pose proof (print_pos_near x ltac:(lia)) as H. pose proof (print_pos_k x) as Ek. pose proof (range x ltac:(lia)) as R. rewrite <- Ek in R. destruct (print_pos dbu up x) as [m k]. cbn [snd] in *. split; [exact H|intros _]. unfold six_digits. lia.
Qed.
Lemma print_exact x : short_number dbu x -> equals dbu x (print dbu up x).
Proof.
  intros S. unfold print. destruct (Z.eqb_spec x 0) as [->|N]; [unfold equals, scaled; lia|]. destruct (Z.ltb_spec x 0) as [L|L].
  - assert (S' : short_number dbu (- x)). { destruct S as (m & k & A & B). exists (- m), k. split; [lia|]. unfold equals in *. rewrite scaled_opp. lia. }
    pose proof (print_pos_exact (- x) ltac:(lia) S') as H. destruct (print_pos dbu up (- x)) as [m k]. unfold equals in *. rewrite scaled_opp in H. lia.
  - apply print_pos_exact; [lia|exact S].
Qed.
End P.
(* the line of sources *)
Lemma tokens_sp_word w r : word w -> tokens (w ++ " " ++ r) = w :: tokens r.
Proof.
  intros W. rewrite (tokens_word w (" " ++ r) W).
  - cbn [append]. rewrite tokens_ws by reflexivity. reflexivity.
  - right. exists " "%char, r. split; [reflexivity|left; reflexivity].
Qed.
Lemma append_assoc a b c : ((a ++ b) ++ c = a ++ (b ++ c))%string.
Proof. induction a; cbn; congruence. Qed.
