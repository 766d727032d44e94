From Verif Require Import Base GeomModel GeomSpec GridModel GridSpec GridProofs GridProofs2 MazeModel MazeSpec MazeAbs MazeProofs NetModel NetSpec.
From Coq Require Import Permutation.

(* ---- ranges ---- *)
Lemma zrange_nil a b : b < a -> zrange a b = [].
Proof. intros H. unfold zrange. replace (Z.to_nat (b + 1 - a)) with O by lia. reflexivity. Qed.
Lemma zrange_cons a b : a <= b -> zrange a b = a :: zrange (a + 1) b.
Proof.
  intros H. unfold zrange. replace (Z.to_nat (b + 1 - a)) with (S (Z.to_nat (b + 1 - (a + 1)))) by lia.
  cbn [seq map]. f_equal; [lia|]. rewrite <- seq_shift, map_map. apply map_ext. intros. lia.
Qed.
Lemma zrange_snoc a b : a <= b -> zrange a b = zrange a (b - 1) ++ [b].
Proof.
  intros H. unfold zrange. replace (Z.to_nat (b + 1 - a)) with (S (Z.to_nat (b - 1 + 1 - a))) by lia.
  rewrite seq_S, map_app. cbn [map]. f_equal. f_equal. lia.
Qed.

(* ---- n steps ---- *)
Definition stepn (p : midx) (d : dir) (n : Z) : midx :=
  match d with
  | DE => mkMI (mx p + n) (my p) (mz p) | DW => mkMI (mx p - n) (my p) (mz p)
  | DN => mkMI (mx p) (my p + n) (mz p) | DS => mkMI (mx p) (my p - n) (mz p)
  | DU => mkMI (mx p) (my p) (mz p + n) | DD => mkMI (mx p) (my p) (mz p - n)
  | DUnk => p
  end.
Lemma stepn_step p d n : stepn (step p d) d n = stepn p d (n + 1).
Proof. destruct d; cbn; try reflexivity; f_equal; lia. Qed.
Lemma stepn_0 p d : stepn p d 0 = p.
Proof. destruct p, d; cbn; try reflexivity; f_equal; lia. Qed.
Lemma last_run d n : forall a b, List.last (run a d (S n)) b = stepn a d (Z.of_nat (S n)).
Proof.
  induction n as [|n IH]; intros a b.
  - cbn. destruct d; cbn; try reflexivity.
  - change (run a d (S (S n))) with (step a d :: run (step a d) d (S n)).
    assert (N : run (step a d) d (S n) <> []) by discriminate.
    change (List.last (step a d :: run (step a d) d (S n)) b) with
      (match run (step a d) d (S n) with [] => step a d | _ => List.last (run (step a d) d (S n)) b end).
    destruct (run (step a d) d (S n)) eqn:E; [contradiction|]. rewrite <- E, IH, stepn_step. f_equal. lia.
Qed.
Lemma in_run d n : forall a q, In q (a :: run a d n) <-> exists k, 0 <= k <= Z.of_nat n /\ q = stepn a d k.
Proof.
  induction n as [|n IH]; intros a q.
  - cbn [run In]. split.
    + intros [<-|[]]. exists 0. rewrite stepn_0. split; [lia|reflexivity].
    + intros (k & Hk & ->). left. replace k with 0 by lia. symmetry. apply stepn_0.
  - change (run a d (S n)) with (step a d :: run (step a d) d n).
    split.
    + intros [<-|H].
      * exists 0. rewrite stepn_0. split; [lia|reflexivity].
      * apply IH in H as (k & Hk & ->). exists (k + 1). rewrite stepn_step. split; [lia|reflexivity].
    + intros (k & Hk & ->). destruct (Z.eq_dec k 0) as [->|Hn].
      * left. symmetry. apply stepn_0.
      * right. apply IH. exists (k - 1). split; [lia|]. rewrite stepn_step. f_equal. lia.
Qed.

Lemma walk_steps_cons2 a b r : walk_steps (a :: b :: r) = up_step a b :: walk_steps (b :: r).
Proof. reflexivity. Qed.

(* the unit steps of a straight run, upward and downward *)
Definition steps_from (d : dir) (a : midx) (n : nat) : list (midx * midx) :=
  match d with
  | DE => map (fun x => (mkMI x (my a) (mz a), mkMI (x + 1) (my a) (mz a))) (zrange (mx a) (mx a + Z.of_nat n - 1))
  | DN => map (fun y => (mkMI (mx a) y (mz a), mkMI (mx a) (y + 1) (mz a))) (zrange (my a) (my a + Z.of_nat n - 1))
  | DU => map (fun z => (mkMI (mx a) (my a) z, mkMI (mx a) (my a) (z + 1))) (zrange (mz a) (mz a + Z.of_nat n - 1))
  | DW => map (fun x => (mkMI x (my a) (mz a), mkMI (x + 1) (my a) (mz a))) (zrange (mx a - Z.of_nat n) (mx a - 1))
  | DS => map (fun y => (mkMI (mx a) y (mz a), mkMI (mx a) (y + 1) (mz a))) (zrange (my a - Z.of_nat n) (my a - 1))
  | DD => map (fun z => (mkMI (mx a) (my a) z, mkMI (mx a) (my a) (z + 1))) (zrange (mz a - Z.of_nat n) (mz a - 1))
  | DUnk => []
  end.
Lemma up_step_run p d : d <> DUnk ->
  up_step p (step p d) = match d with DE | DN | DU => (p, step p d) | _ => (step p d, p) end.
Proof. intros H. unfold up_step. destruct d; cbn [step mx my mz]; try contradiction; zcases; reflexivity || lia. Qed.
Lemma run_steps d : d <> DUnk -> forall n a,
  Permutation (walk_steps (a :: run a d n)) (steps_from d a n).
Proof.
  intros Hd. induction n as [|n IH]; intros a.
  - cbn [run walk_steps]. destruct d; cbn [steps_from]; try contradiction;
      rewrite zrange_nil by lia; constructor.
  - change (run a d (S n)) with (step a d :: run (step a d) d n).
    rewrite walk_steps_cons2, up_step_run by assumption. specialize (IH (step a d)).
    assert (P : forall u, Permutation (walk_steps (step a d :: run (step a d) d n)) (steps_from d (step a d) n) ->
      steps_from d a (S n) = u :: steps_from d (step a d) n \/ steps_from d a (S n) = steps_from d (step a d) n ++ [u] ->
      Permutation (u :: walk_steps (step a d :: run (step a d) d n)) (steps_from d a (S n))).
    { intros u P [-> | ->]; [constructor; assumption|]. rewrite P. apply Permutation_cons_append. }
    destruct a as [x y z]. apply P; [exact IH|]. clear -Hd.
    destruct d; cbn [step steps_from mx my mz]; try contradiction.
    all: try (right; rewrite zrange_snoc by lia; rewrite map_app; cbn [map];
       match goal with |- map _ (zrange ?p1 ?q1) ++ [?e1] = map _ (zrange ?p2 ?q2) ++ [?e2] =>
         replace p1 with p2 by lia; replace q1 with q2 by lia; replace e1 with e2; [reflexivity|f_equal; f_equal; lia] end).
    all: left; rewrite zrange_cons by lia; cbn [map];
       match goal with |- ?e1 :: map _ (zrange ?p1 ?q1) = ?e2 :: map _ (zrange ?p2 ?q2) =>
         replace p1 with p2 by lia; replace q1 with q2 by lia; reflexivity end.
Qed.

Lemma walk_steps_app w1 : forall a w2, walk_steps (w1 ++ a :: w2) = walk_steps (w1 ++ [a]) ++ walk_steps (a :: w2).
Proof.
  induction w1 as [|x w1 IH]; intros a w2; [reflexivity|].
  destruct w1 as [|y w1]; [reflexivity|].
  cbn [app] in *. rewrite !walk_steps_cons2, IH. reflexivity.
Qed.
Lemma run_snoc a d n : a :: run a d (S n) = (removelast (a :: run a d (S n))) ++ [stepn a d (Z.of_nat (S n))].
Proof.
  rewrite <- (last_run d n a a).
  rewrite (app_removelast_last (l := a :: run a d (S n)) a) at 1 by discriminate. reflexivity.
Qed.

Lemma in_aps_spec rap p : in_aps rap p = true <-> In p rap.
Proof.
  unfold in_aps. rewrite existsb_exists. split.
  - intros (q & Hq & E). replace p with q; [assumption|]. destruct p, q. unfold mi_eq in E. cbn in E. f_equal; lia.
  - intros H. exists p. split; [assumption|]. unfold mi_eq. lia.
Qed.

(* one straight piece *)
Lemma write_piece_spec g rap a d n : d <> DUnk ->
  let b := stepn a d (Z.of_nat (S n)) in
  Permutation (flat_map unit_steps (write_piece g rap a b)) (steps_from d a (S n)) /\
  Forall (well_formed g rap) (write_piece g rap a b).
Proof.
  intros Hd. cbn zeta. destruct a as [x y z].
  assert (N : 0 < Z.of_nat (S n)) by lia. set (k := Z.of_nat (S n)) in *.
  assert (S1 : forall f : Z -> midx * midx, forall u v, u < v ->
     map f (zrange u (v - 1)) ++ [] = map f (zrange u (v - 1))) by (intros; apply app_nil_r).
  assert (T : forall (h : Z -> fig) (f : Z -> midx * midx) l, (forall z, unit_steps (h z) = [f z]) ->
     flat_map unit_steps (map h l) = map f l).
  { intros h f l H. induction l; cbn; [reflexivity|]. rewrite H, IHl. reflexivity. }
  destruct d; try contradiction; unfold write_piece; cbn [stepn mx my mz].
  - replace (mi_lt (mkMI x y (z - k)) (mkMI x y z)) with true by (symmetry; unfold mi_lt; cbn [mx my mz]; zcases; lia).
    cbn [mx my mz]. rewrite !Z.eqb_refl. replace (z - k =? z) with false by lia. cbn [negb andb orb].
    split.
    + rewrite (T _ (fun z => (mkMI x y z, mkMI x y (z + 1)))) by reflexivity. reflexivity.
    + apply Forall_map, Forall_forall. intros w Hw. cbn. auto.
  - replace (mi_lt (mkMI x (y - k) z) (mkMI x y z)) with true by (symmetry; unfold mi_lt; cbn [mx my mz]; zcases; lia).
    cbn [mx my mz]. rewrite !Z.eqb_refl. replace (y - k =? y) with false by lia. cbn [negb andb orb].
    split.
    + cbn [flat_map unit_steps mx my mz]. rewrite app_nil_r, zrange_nil by lia. reflexivity.
    + constructor; [|constructor]. cbn [well_formed mx my mz].
      repeat (split; [reflexivity || lia || apply in_aps_spec|]). apply in_aps_spec.
  - replace (mi_lt (mkMI (x - k) y z) (mkMI x y z)) with true by (symmetry; unfold mi_lt; cbn [mx my mz]; zcases; lia).
    cbn [mx my mz]. rewrite !Z.eqb_refl. replace (x - k =? x) with false by lia. cbn [negb andb orb].
    split.
    + cbn [flat_map unit_steps mx my mz]. rewrite app_nil_r, (zrange_nil y) by lia. cbn [map]. rewrite app_nil_r. reflexivity.
    + constructor; [|constructor]. cbn [well_formed mx my mz].
      repeat (split; [reflexivity || lia || apply in_aps_spec|]). apply in_aps_spec.
  - replace (mi_lt (mkMI (x + k) y z) (mkMI x y z)) with false by (symmetry; unfold mi_lt; cbn [mx my mz]; zcases; lia).
    cbn [mx my mz]. rewrite !Z.eqb_refl. replace (x =? x + k) with false by lia. cbn [negb andb orb].
    split.
    + cbn [flat_map unit_steps mx my mz]. rewrite app_nil_r, (zrange_nil y) by lia. cbn [map]. rewrite app_nil_r. reflexivity.
    + constructor; [|constructor]. cbn [well_formed mx my mz].
      repeat (split; [reflexivity || lia || apply in_aps_spec|]). apply in_aps_spec.
  - replace (mi_lt (mkMI x (y + k) z) (mkMI x y z)) with false by (symmetry; unfold mi_lt; cbn [mx my mz]; zcases; lia).
    cbn [mx my mz]. rewrite !Z.eqb_refl. replace (y =? y + k) with false by lia. cbn [negb andb orb].
    split.
    + cbn [flat_map unit_steps mx my mz]. rewrite app_nil_r, zrange_nil by lia. reflexivity.
    + constructor; [|constructor]. cbn [well_formed mx my mz].
      repeat (split; [reflexivity || lia || apply in_aps_spec|]). apply in_aps_spec.
  - replace (mi_lt (mkMI x y (z + k)) (mkMI x y z)) with false by (symmetry; unfold mi_lt; cbn [mx my mz]; zcases; lia).
    cbn [mx my mz]. rewrite !Z.eqb_refl. replace (z =? z + k) with false by lia. cbn [negb andb orb].
    split.
    + rewrite (T _ (fun z => (mkMI x y z, mkMI x y (z + 1)))) by reflexivity. reflexivity.
    + apply Forall_map, Forall_forall. intros w Hw. cbn. auto.
Qed.

Lemma writePath_spec g rap last p w : bends last p w ->
  Permutation (flat_map unit_steps (writePath g rap p)) (walk_steps w) /\ Forall (well_formed g rap) (writePath g rap p).
Proof.
  induction 1 as [last a|last d n a b r w Hd Hl Hb H IH]; [split; constructor|].
  rewrite last_run in Hb. destruct IH as [IH1 IH2].
  destruct (write_piece_spec g rap a d n Hd) as [P1 P2]. rewrite <- Hb in P1, P2.
  change (writePath g rap (a :: b :: r)) with (write_piece g rap a b ++ writePath g rap (b :: r)).
  split; [|apply Forall_app; auto].
  rewrite flat_map_app, P1, IH1, <- (run_steps d Hd (S n) a).
  replace (a :: run a d (S n) ++ w) with (removelast (a :: run a d (S n)) ++ b :: w).
  2:{ transitivity ((a :: run a d (S n)) ++ w); [|reflexivity]. rewrite (run_snoc a d n) at 2. rewrite <- Hb, <- app_assoc. reflexivity. }
  rewrite walk_steps_app. pose proof (run_snoc a d n) as R. rewrite <- Hb in R. rewrite <- R. reflexivity.
Qed.
