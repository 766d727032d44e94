(* Rows that cannot be extended; smallest boxes; the LEF58 rule. *)
From Coq Require Import Arith.
From Verif Require Import Base Stl GeomModel GcModel GcSpec GcProofs GcProofs2 GcProofs3 CutModel CutProofs2 EolModel EolSpec EolProofs
  EolProofs3 StepModel StepSpec StepProofs StepProofs2.

Lemma least (Q : nat -> Prop) : (forall n, {Q n} + {~ Q n}) -> forall m, Q m -> exists d, (d <= m)%nat /\ Q d /\ forall j, (j < d)%nat -> ~ Q j.
Proof.
  intros D m Hm. assert (G : forall n, (exists d, (d < n)%nat /\ Q d /\ forall j, (j < d)%nat -> ~ Q j) \/ forall j, (j < n)%nat -> ~ Q j).
  { induction n as [|n [(d & H)|IH]]; [right; intros j Hj; lia|left; exists d; destruct H; split; [lia|auto]|].
    destruct (D n) as [Qn|Qn]; [left; exists n; split; [lia|auto]|]. right. intros j Hj. destruct (Nat.eq_dec j n) as [->|]; [exact Qn|apply IH; lia]. }
  destruct (G (S m)) as [(d & Hd & H)|H]; [exists d; split; [lia|exact H]|]. exfalso. exact (H m ltac:(lia) Hm).
Qed.

Section Extend.
Variables (L : Z) (c : list oedge).
Let n := length c.
Lemma short_dec i : {short_at L c i} + {~ short_at L c i}.
Proof. unfold short_at. destruct (Z_lt_dec (len (edge_at c i)) L); auto. Qed.
Lemma edge_at_add i : n <> 0%nat -> edge_at c (i + n) = edge_at c i.
Proof. intros N. unfold edge_at. f_equal. replace (i + n)%nat with (i + 1 * n)%nat by lia. apply Nat.mod_add. exact N. Qed.
Lemma long_window i : two_long L c -> exists d, (d < n)%nat /\ ~ short_at L c (i + d).
Proof.
  intros (p & q & Hp & Hq & _ & Lp & _). fold n in Hp. assert (N : n <> 0%nat) by lia.
  exists ((p + (n - i mod n)) mod n)%nat. split; [apply Nat.mod_upper_bound; exact N|].
  unfold short_at in *. replace (edge_at c _) with (edge_at c p); [exact Lp|]. unfold edge_at. fold n. f_equal.
  rewrite Nat.add_mod_idemp_r by exact N. rewrite (Nat.mod_small p) by exact Hp.
  pose proof (Nat.mod_upper_bound i n N). rewrite (Nat.div_mod i n N) at 1.
  replace (n * (i / n) + i mod n + (p + (n - i mod n)))%nat with (p + (1 + i / n) * n)%nat by nia.
  rewrite Nat.mod_add by exact N. symmetry. apply Nat.mod_small. exact Hp.
Qed.

Lemma extend_row i k : two_long L c -> short_row L c i k ->
  exists i' k' d, whole_row L c i' k' /\ (k <= k')%nat /\ (d + k <= k')%nat /\ forall j, edge_at c (i + j) = edge_at c (i' + d + j).
Proof.
  intros TL SR. destruct TL as (p & q & Hp & Hq & Npq & Lp & Lq) eqn:ETL. fold n in Hp, Hq. assert (N : n <> 0%nat) by lia.
  assert (TL' : two_long L c) by (exists p, q; auto). clear ETL TL.
  assert (SR' : short_row L c (i + n) k).
  { intros j Hj. specialize (SR j Hj). unfold short_at in *. replace (i + n + j)%nat with (i + j + n)%nat by lia. rewrite edge_at_add by exact N. exact SR. }
  (* back to the last long edge *)
  assert (B : exists d, (d <= n - 1)%nat /\ ~ short_at L c (i + n - d) /\ forall j, (j < d)%nat -> short_at L c (i + n - j)).
  { destruct (long_window (i + 1) TL') as (d & Hd & Hl).
    destruct (least (fun x => ~ short_at L c (i + n - x))) with (m := (n - 1 - d)%nat) as (d' & H1 & H2 & H3).
    - intros x. destruct (short_dec (i + n - x)); auto.
    - replace (i + n - (n - 1 - d))%nat with (i + 1 + d)%nat by lia. exact Hl.
    - exists d'. split; [lia|]. split; [exact H2|]. intros j Hj. specialize (H3 j Hj). destruct (short_dec (i + n - j)); [auto|contradiction]. }
  destruct B as (d & Hd & Ld & Sd).
  (* on to the next long edge *)
  assert (F : exists f, ~ short_at L c (i + n + S f) /\ forall j, (j < f)%nat -> short_at L c (i + n + S j)).
  { destruct (long_window (i + n + 1) TL') as (f & Hf & Hl).
    destruct (least (fun x => ~ short_at L c (i + n + S x))) with (m := f) as (f' & H1 & H2 & H3).
    - intros x. destruct (short_dec (i + n + S x)); auto.
    - replace (i + n + S f)%nat with (i + n + 1 + f)%nat by lia. exact Hl.
    - exists f'. split; [exact H2|]. intros j Hj. specialize (H3 j Hj). destruct (short_dec (i + n + S j)); [auto|contradiction]. }
  destruct F as (f & Lf & Sf).
  assert (Kf : (k <= f)%nat).
  { destruct (Nat.le_gt_cases k f) as [G|G]; [exact G|]. exfalso. apply Lf. apply SR'. lia. }
  exists (i + n - d)%nat, (d + f)%nat, d.
  assert (Row : short_row L c (i + n - d) (d + f)).
  { intros j Hj. destruct (Nat.le_gt_cases j d) as [G|G].
    - destruct (Nat.eq_dec j d) as [->|].
      + replace (i + n - d + d)%nat with (i + n - 0)%nat by lia. destruct (Nat.eq_dec d 0); [|apply Sd; lia]. lia.
      + replace (i + n - d + j)%nat with (i + n - (d - j))%nat by lia. apply Sd. lia.
    - replace (i + n - d + j)%nat with (i + n + S (j - d - 1))%nat by lia. apply Sf. lia. }
  split; [|split; [lia|split; [lia|]]].
  - split; [|split; [exact Row|split; [exact Ld|]]].
    2: { replace (i + n - d + S (d + f))%nat with (i + n + S f)%nat by lia. exact Lf. }
    fold n. set (s := (i + n - d)%nat) in *.
    destruct (Nat.le_gt_cases n (S (d + f))) as [G|G]; [|exact G]. exfalso.
    (* every position other than s is short *)
    assert (All : forall x, (x < n)%nat -> (x <> s mod n)%nat -> short_at L c x).
    { intros x Hx Nx. pose proof (Nat.mod_upper_bound s n N) as Ms.
      set (j := ((x + (n - s mod n)) mod n)%nat). assert (Hj : (j < n)%nat) by (apply Nat.mod_upper_bound; exact N).
      assert (E : ((s + j) mod n = x)%nat).
      { unfold j. rewrite Nat.add_mod_idemp_r by exact N. rewrite (Nat.div_mod s n N) at 1.
        replace (n * (s / n) + s mod n + (x + (n - s mod n)))%nat with (x + (1 + s / n) * n)%nat by nia.
        rewrite Nat.mod_add by exact N. apply Nat.mod_small. exact Hx. }
      assert (J0 : j <> 0%nat) by (intros Z; rewrite Z, Nat.add_0_r in E; congruence).
      specialize (Row j ltac:(lia)). unfold short_at, edge_at in *. fold n in Row |- *. rewrite E in Row. rewrite Nat.mod_small by exact Hx. exact Row. }
    destruct (Nat.eq_dec p (s mod n)) as [Ep|Ep]; [|exact (Lp (All p Hp Ep))].
    apply Lq. apply All; [exact Hq|]. congruence.
  - intros j. replace (i + n - d + d + j)%nat with (i + j + n)%nat by lia. rewrite edge_at_add by exact N. reflexivity.
Qed.
End Extend.

(* ---- smallest boxes ---- *)
Lemma box_add_inside b p q : inside q (box_add b p) <-> (bleft b <= px q \/ px p <= px q) /\ (px q <= bright b \/ px q <= px p) /\
  (bbottom b <= py q \/ py p <= py q) /\ (py q <= btop b \/ py q <= py p).
Proof. unfold inside, box_add. bx b. destruct p, q. bxs. lia. Qed.
Lemma hull_add ps b p : hull ps b -> hull (ps ++ [p]) (box_add b p).
Proof.
  intros (A & (p1 & I1 & E1) & (p2 & I2 & E2) & (p3 & I3 & E3) & (p4 & I4 & E4)).
  pose proof (A _ I1) as A1. pose proof (A _ I2) as A2. pose proof (A _ I3) as A3. pose proof (A _ I4) as A4.
  assert (W : forall (f : point -> Z) (v : Z) (q : point), In q ps -> f q = v -> forall w, w = v \/ w = f p -> exists r, In r (ps ++ [p]) /\ f r = w).
  { intros f v q Iq Eq w [->|E]; [exists q; split; [apply in_or_app; auto|exact Eq]|exists p; split; [apply in_or_app; right; left; reflexivity|auto]]. }
  split; [|split; [|split; [|split]]].
  - intros q I. apply in_app_or in I as [I|[<-|[]]]; apply box_add_inside; [specialize (A q I)|]; unfold inside in *; lia.
  - eapply (W px); [exact I1|exact E1|]. unfold box_add. bx b. destruct p. bxs. lia.
  - eapply (W px); [exact I2|exact E2|]. unfold box_add. bx b. destruct p. bxs. lia.
  - eapply (W py); [exact I3|exact E3|]. unfold box_add. bx b. destruct p. bxs. lia.
  - eapply (W py); [exact I4|exact E4|]. unfold box_add. bx b. destruct p. bxs. lia.
Qed.
Lemma hull_fold ps : forall qs b, hull qs b -> hull (qs ++ ps) (fold_left box_add ps b).
Proof.
  induction ps as [|p ps IH]; intros qs b H; cbn [fold_left]; [rewrite app_nil_r; exact H|].
  replace (qs ++ p :: ps) with ((qs ++ [p]) ++ ps) by (rewrite <- app_assoc; reflexivity). apply IH, hull_add, H.
Qed.
Lemma hull_pt p : hull [p] (pt_box p).
Proof.
  unfold hull, inside, pt_box. destruct p as [a b]. bxs. split; [intros q [<-|[]]; cbn [px py]; lia|].
  repeat split; exists (mkPt a b); (split; [left; reflexivity|reflexivity]).
Qed.
Lemma hull_extents ps : ps <> [] -> hull ps (extents ps).
Proof. intros N. destruct ps as [|p ps]; [contradiction|]. apply (hull_fold ps [p]), hull_pt. Qed.
Lemma hull_unique ps b b' : hull ps b -> hull ps b' -> b = b'.
Proof.
  intros (A & (p1 & I1 & E1) & (p2 & I2 & E2) & (p3 & I3 & E3) & (p4 & I4 & E4))
         (A' & (q1 & J1 & F1) & (q2 & J2 & F2) & (q3 & J3 & F3) & (q4 & J4 & F4)).
  pose proof (A' _ I1). pose proof (A' _ I2). pose proof (A' _ I3). pose proof (A' _ I4).
  pose proof (A _ J1). pose proof (A _ J2). pose proof (A _ J3). pose proof (A _ J4).
  unfold inside in *. destruct b as [[? ?] [? ?]], b' as [[? ?] [? ?]]. bxs. f_equal; f_equal; lia.
Qed.

(* ---- next edges by position ---- *)
Lemma with_next_nth c i : (i < length c)%nat -> nth_error (with_next c) i = Some (edge_at c (i + 1)).
Proof.
  intros H. destruct c as [|e rest]; [cbn in H; lia|]. cbn [with_next]. cbn [length] in H.
  destruct (Nat.lt_ge_cases i (length rest)) as [L|L].
  - rewrite nth_error_app1 by exact L. unfold edge_at. cbn [length]. rewrite Nat.mod_small by lia. rewrite Nat.add_1_r. cbn [nth].
    apply nth_error_nth'. exact L.
  - assert (i = length rest) by lia. subst i. rewrite nth_error_app2, Nat.sub_diag by lia. unfold edge_at. cbn [length].
    rewrite Nat.add_1_r, Nat.mod_same by lia. reflexivity.
Qed.
Lemma with_next_length c : length (with_next c) = length c.
Proof. destruct c; [reflexivity|]. cbn. rewrite app_length. cbn. lia. Qed.
Lemma edge_at_next c i : c <> [] -> edge_at (with_next c) i = edge_at c (i + 1).
Proof.
  intros N. assert (L : length c <> 0%nat) by (destruct c; [contradiction|discriminate]).
  unfold edge_at at 1. rewrite with_next_length. pose proof (Nat.mod_upper_bound i _ L) as M.
  assert (E : nth_error (with_next c) (i mod length c) = Some (nth (i mod length c) (with_next c) no_edge)) by (apply nth_error_nth'; rewrite with_next_length; exact M).
  rewrite with_next_nth in E by exact M. injection E as <-. unfold edge_at. f_equal. apply Nat.add_mod_idemp_l. exact L.
Qed.
Lemma combine_nth {A B} (l : list A) (l' : list B) i a b : nth_error l i = Some a -> nth_error l' i = Some b -> nth_error (combine l l') i = Some (a, b).
Proof. revert l l'. induction i as [|i IH]; intros [|x l] [|y l'] H H'; cbn in *; try discriminate; [congruence|auto]. Qed.
Lemma next2_in c t : In t (with_next2 c) <-> c <> [] /\ exists i, t = (edge_at c i, edge_at c (i + 1), edge_at c (i + 2)).
Proof.
  unfold with_next2.
  assert (Nth : c <> [] -> forall i, (i < length c)%nat -> nth_error (combine (combine c (with_next c)) (with_next (with_next c))) i =
      Some (edge_at c i, edge_at c (i + 1), edge_at c (i + 2))).
  { intros N i H. apply combine_nth; [apply combine_nth|].
    - rewrite edge_at_lt by exact H. apply nth_error_nth'. exact H.
    - apply with_next_nth. exact H.
    - rewrite with_next_nth by (rewrite with_next_length; exact H). rewrite edge_at_next by exact N. do 2 f_equal. lia. }
  split.
  - intros I. assert (N : c <> []) by (intros ->; destruct I). split; [exact N|]. apply In_nth_error in I as (i & H). exists i.
    assert (Hi : (i < length c)%nat).
    { assert (G : (i < length (combine (combine c (with_next c)) (with_next (with_next c))))%nat) by (apply nth_error_Some; congruence).
      rewrite !combine_length, !with_next_length in G. lia. }
    rewrite Nth in H by auto. congruence.
  - intros [N (i & ->)]. assert (L : length c <> 0%nat) by (destruct c; [contradiction|discriminate]).
    pose proof (Nat.mod_upper_bound i _ L) as M. apply nth_error_In with (n := (i mod length c)%nat). rewrite (Nth N _ M).
    assert (Mm : (i mod length c mod length c = i mod length c)%nat) by (apply Nat.mod_mod; exact L).
    rewrite (edge_at_mod c _ i 1 L Mm), (edge_at_mod c _ i 2 L Mm).
    pose proof (edge_at_mod c _ i 0 L Mm) as E0. rewrite !Nat.add_0_r in E0. rewrite E0. reflexivity.
Qed.
Lemma pair_in c t : In t (combine c (with_next c)) <-> c <> [] /\ exists i, t = (edge_at c i, edge_at c (i + 1)).
Proof.
  assert (Nth : c <> [] -> forall i, (i < length c)%nat -> nth_error (combine c (with_next c)) i = Some (edge_at c i, edge_at c (i + 1))).
  { intros N i H. apply combine_nth; [|apply with_next_nth; exact H]. rewrite edge_at_lt by exact H. apply nth_error_nth'. exact H. }
  split.
  - intros I. assert (N : c <> []) by (intros ->; destruct I). split; [exact N|]. apply In_nth_error in I as (i & H). exists i.
    assert (Hi : (i < length c)%nat).
    { assert (G : (i < length (combine c (with_next c)))%nat) by (apply nth_error_Some; congruence). rewrite !combine_length, !with_next_length in G. lia. }
    rewrite Nth in H by auto. congruence.
  - intros [N (i & ->)]. assert (L : length c <> 0%nat) by (destruct c; [contradiction|discriminate]).
    pose proof (Nat.mod_upper_bound i _ L) as M. apply nth_error_In with (n := (i mod length c)%nat). rewrite (Nth N _ M).
    assert (Mm : (i mod length c mod length c = i mod length c)%nat) by (apply Nat.mod_mod; exact L).
    rewrite (edge_at_mod c _ i 1 L Mm). pose proof (edge_at_mod c _ i 0 L Mm) as E0. rewrite !Nat.add_0_r in E0. rewrite E0. reflexivity.
Qed.
(* neighbours meet *)
Lemma edge_at_meets c i : closed_outline c -> c <> [] -> o_high (edge_at c i) = o_low (edge_at c (i + 1)).
Proof.
  intros [_ Ch] N. assert (L : length c <> 0%nat) by (destruct c; [contradiction|discriminate]).
  pose proof (Nat.mod_upper_bound i _ L) as M. set (k := (i mod length c)%nat) in *.
  assert (E1 : edge_at c i = nth k c no_edge) by reflexivity.
  assert (E2 : nth_error c (if Nat.eqb (S k) (length c) then 0 else S k)%nat = Some (edge_at c (i + 1))).
  { unfold edge_at. rewrite <- (Nat.add_mod_idemp_l i 1) by exact L. fold k. rewrite Nat.add_1_r.
    destruct (Nat.eqb_spec (S k) (length c)) as [E|E].
    - rewrite E, Nat.mod_same by exact L. apply nth_error_nth'. lia.
    - rewrite Nat.mod_small by lia. apply nth_error_nth'. lia. }
  assert (X : exists prev, nth_error c (if Nat.eqb k 0 then length c - 1 else k - 1)%nat = Some prev).
  { destruct (nth_error c (if Nat.eqb k 0 then length c - 1 else k - 1)%nat) eqn:E; [eauto|]. apply nth_error_None in E. destruct (Nat.eqb k 0); lia. }
  destruct X as (prev & Hp). rewrite E1. destruct (Ch prev (nth k c no_edge) (edge_at c (i + 1))) as [_ H]; [|exact H].
  exists k. split; [exact M|]. split; [apply nth_error_nth'; exact M|]. auto.
Qed.
