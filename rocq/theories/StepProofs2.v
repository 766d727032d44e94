(* Rows of short edges by their position along the outline. *)
From Coq Require Import Arith Permutation.
From Verif Require Import Base Stl GeomModel GcModel GcSpec GcProofs GcProofs2 GcProofs3 CutModel CutProofs2 EolModel EolSpec EolProofs
  EolProofs3 StepModel StepSpec StepProofs.

(* ---- the visited list ---- *)
Lemma indexed_nth c i : (i < length c)%nat -> nth_error (indexed c) i = Some (i, nth i c no_edge).
Proof.
  unfold indexed. assert (G : forall l s j, (j < length l)%nat -> nth_error (combine (seq s (length l)) l) j = Some (s + j, nth j l no_edge)%nat).
  { induction l as [|a l IH]; intros s j H; cbn in H; [lia|]. cbn [length seq combine]. destruct j; cbn [nth_error nth].
    - rewrite Nat.add_0_r. reflexivity.
    - rewrite IH by lia. f_equal. f_equal. lia. }
  intros H. apply (G c 0%nat i H).
Qed.
Lemma indexed_length c : length (indexed c) = length c.
Proof. unfold indexed. rewrite combine_length, seq_length. lia. Qed.
Lemma indexed_fst c : map fst (indexed c) = seq 0 (length c).
Proof.
  unfold indexed. assert (G : forall (l : list oedge) s, map fst (combine (seq s (length l)) l) = seq s (length l)).
  { induction l as [|a l IH]; intros s; [reflexivity|]. cbn. rewrite IH. reflexivity. } apply G.
Qed.
Lemma edge_at_lt c i : (i < length c)%nat -> edge_at c i = nth i c no_edge.
Proof. intros H. unfold edge_at. rewrite Nat.mod_small by exact H. reflexivity. Qed.
Lemma edge_at_mod c i j k : length c <> 0%nat -> (i mod length c = j mod length c)%nat -> edge_at c (i + k) = edge_at c (j + k).
Proof. intros N H. unfold edge_at. f_equal. rewrite (Nat.add_mod i), (Nat.add_mod j), H by exact N. reflexivity. Qed.

Definition visited (c : list oedge) (k : nat) : list (nat * oedge) := skipn k (indexed c) ++ firstn (S k) (indexed c).
Lemma skipn_nth {A} (l : list A) k j : nth_error (skipn k l) j = nth_error l (k + j).
Proof. revert l. induction k as [|k IH]; intros l; [reflexivity|]. destruct l as [|a l]; cbn; [destruct j; reflexivity|apply IH]. Qed.
Lemma skipn_cons {A} (l : list A) k x : nth_error l k = Some x -> skipn k l = x :: skipn (S k) l.
Proof. revert l. induction k as [|k IH]; intros [|a l] H; cbn in H; try discriminate; [injection H as ->; reflexivity|]. cbn [skipn]. rewrite (IH l H). reflexivity. Qed.
Lemma firstn_nth {A} (l : list A) k j : (j < k)%nat -> nth_error (firstn k l) j = nth_error l j.
Proof. revert l j. induction k as [|k IH]; intros l j H; [lia|]. destruct l as [|a l]; [destruct j; reflexivity|]. destruct j; cbn; [reflexivity|apply IH; lia]. Qed.
Lemma visited_nth c k t : (k < length c)%nat -> (t <= length c)%nat ->
  nth_error (visited c k) t = Some (((k + t) mod length c)%nat, edge_at c (k + t)).
Proof.
  intros Hk Ht. unfold visited. assert (Ls : length (skipn k (indexed c)) = (length c - k)%nat) by (rewrite skipn_length, indexed_length; reflexivity).
  destruct (Nat.lt_ge_cases t (length c - k)) as [C|C].
  - rewrite nth_error_app1 by lia. rewrite skipn_nth, indexed_nth by lia. rewrite Nat.mod_small by lia. rewrite edge_at_lt by lia. reflexivity.
  - rewrite nth_error_app2 by lia. rewrite Ls, firstn_nth, indexed_nth by lia.
    assert (M : ((k + t) mod length c = t - (length c - k))%nat).
    { replace (k + t)%nat with ((t - (length c - k)) + 1 * length c)%nat by lia. rewrite Nat.mod_add by lia. apply Nat.mod_small. lia. }
    unfold edge_at. rewrite M. reflexivity.
Qed.
Lemma visited_length c k : (k < length c)%nat -> length (visited c k) = S (length c).
Proof. intros H. unfold visited. rewrite app_length, skipn_length, firstn_length, indexed_length. lia. Qed.

(* ---- splits and positions ---- *)
Lemma split_nth {A} (X : list A) b run e Y T : T = X ++ b :: run ++ e :: Y ->
  nth_error T (length X) = Some b /\ nth_error T (length X + S (length run)) = Some e /\
  (forall j, (j < length run)%nat -> nth_error T (length X + S j) = nth_error run j) /\
  (length X + S (length run) < length T)%nat.
Proof.
  intros ->. split; [|split; [|split]].
  - rewrite nth_error_app2 by lia. rewrite Nat.sub_diag. reflexivity.
  - rewrite nth_error_app2 by lia. replace (length X + S (length run) - length X)%nat with (S (length run)) by lia. cbn.
    rewrite nth_error_app2 by lia. rewrite Nat.sub_diag. reflexivity.
  - intros j H. rewrite nth_error_app2 by lia. replace (length X + S j - length X)%nat with (S j) by lia. cbn. apply nth_error_app1. exact H.
  - rewrite !app_length. cbn. rewrite app_length. cbn. lia.
Qed.
Lemma nth_split_at {A} (T : list A) t k b e : nth_error T t = Some b -> nth_error T (t + S k) = Some e ->
  exists X run Y, T = X ++ b :: run ++ e :: Y /\ length X = t /\ length run = k.
Proof.
  intros Hb He. apply nth_error_split in Hb as (X & R & -> & LX).
  rewrite nth_error_app2 in He by lia. replace (t + S k - length X)%nat with (S k) in He by lia. cbn in He.
  apply nth_error_split in He as (run & Y & -> & LR). eauto 10.
Qed.
Lemma list_ext {A} (l l' : list A) : length l = length l' -> (forall j, (j < length l)%nat -> nth_error l j = nth_error l' j) -> l = l'.
Proof.
  revert l'. induction l as [|a l IH]; intros [|b l'] L H; cbn in L; try discriminate; [reflexivity|].
  pose proof (H 0%nat ltac:(cbn; lia)) as H0. cbn in H0. injection H0 as ->. f_equal. apply IH; [lia|]. intros j Hj. apply (H (S j)). cbn. lia.
Qed.
Lemma row_edges (c : list oedge) k t (run : list (nat * oedge)) :
  (forall j, (j < length run)%nat -> nth_error run j = Some (((k + (t + S j)) mod length c)%nat, edge_at c (k + (t + S j)))) ->
  map snd run = map (fun j => edge_at c (k + t + j)) (seq 1 (length run)).
Proof.
  intros H. apply list_ext; [rewrite !map_length, seq_length; reflexivity|]. intros j Hj. rewrite map_length in Hj.
  rewrite !nth_error_map, (H j Hj). cbn [option_map snd].
  rewrite (nth_error_nth' (seq 1 (length run)) 0%nat) by (rewrite seq_length; exact Hj). rewrite seq_nth by exact Hj. cbn [option_map].
  f_equal. f_equal. lia.
Qed.

(* ---- one outline ---- *)
Definition row_marker (V : senv) (P : spoly) (con : mstep) (c : list oedge) (i k : nat) : marker :=
  shape_marker V P (ms_id con) (extents (row_corners c i k)).
Definition outline_found (V : senv) (P : spoly) (con : mstep) (c : list oedge) (m : marker) : Prop :=
  exists i k, whole_row (ms_len con) c i k /\ (1 <= k)%nat /\ row_routed c i k /\ too_many con (Z.of_nat k) /\ m = row_marker V P con c i k.

Lemma seg_len e : straight e -> seg_length e = len e.
Proof.
  unfold straight, seg_length, len, along. destruct e as [nt [a b] [c d] f]. cbn [o_low o_high px py].
  intros [[-> H]|[H ->]]; rewrite ?Z.sub_diag; cbn [Z.sgn Z.abs Z.mul].
  - pose proof (Z.abs_sgn (d - b)). lia.
  - pose proof (Z.abs_sgn (c - a)). lia.
Qed.
Lemma edge_at_in c i : c <> [] -> In (edge_at c i) c.
Proof. intros N. unfold edge_at. apply nth_In. apply Nat.mod_upper_bound. destruct c; [contradiction|discriminate]. Qed.

Section Outline.
Variables (V : senv) (P : spoly) (con : mstep) (c : list oedge).
Hypothesis CO : forall e, In e c -> straight e.
Lemma sh_at a i : c <> [] -> sh con (a, edge_at c i) <-> short_at (ms_len con) c i.
Proof. intros N. unfold sh, short_at. cbn [snd]. rewrite (seg_len (edge_at c i)) by (apply CO, edge_at_in, N). reflexivity. Qed.

Lemma found_iff k0 m : (k0 < length c)%nat -> ~ short_at (ms_len con) c k0 ->
  row_found V P con (visited c k0) m <-> outline_found V P con c m.
Proof.
  intros Hk HL. assert (Nc : c <> []) by (destruct c; [cbn in Hk; lia|discriminate]). assert (Nl : length c <> 0%nat) by lia.
  split.
  - intros (X & b & run & e & Y & E & Lb & Le & Sr & D & N & Rt & Tm & M).
    destruct (split_nth _ _ _ _ _ _ E) as (E1 & E2 & E3 & E4). rewrite visited_length in E4 by exact Hk.
    rewrite visited_nth in E1 by (auto; lia). rewrite visited_nth in E2 by (auto; lia). injection E1 as E1. injection E2 as E2.
    assert (E3' : forall j, (j < length run)%nat -> nth_error run j = Some (((k0 + (length X + S j)) mod length c)%nat, edge_at c (k0 + (length X + S j)))).
    { intros j Hj. rewrite <- (E3 j Hj). apply visited_nth; [exact Hk|lia]. }
    set (t := length X) in *. set (k := length run) in *.
    rewrite <- E1 in Lb. rewrite <- E2 in Le. rewrite sh_at in Lb, Le by exact Nc. rewrite Forall_forall in Sr.
    exists (k0 + t)%nat, k. split; [|split; [|split; [|split]]].
    + split; [|split; [|split; [exact Lb|]]].
      * destruct (Nat.eq_dec (S k) (length c)) as [Eq|Ne]; [|lia]. exfalso. apply D. rewrite <- E1, <- E2. cbn [fst].
        rewrite Eq. replace (k0 + (t + length c))%nat with (k0 + t + 1 * length c)%nat by lia. rewrite Nat.mod_add by exact Nl. reflexivity.
      * intros j Hj. rewrite <- (sh_at 0 _ Nc). specialize (E3' (j - 1)%nat ltac:(lia)).
        apply nth_error_In in E3'. specialize (Sr _ E3'). unfold sh in Sr. cbn [snd] in Sr. unfold sh. cbn [snd].
        replace (k0 + (t + S (j - 1)))%nat with (k0 + t + j)%nat in Sr by lia. exact Sr.
      * replace (k0 + t + S k)%nat with (k0 + (t + S k))%nat by lia. exact Le.
    + destruct run; [contradiction|subst k; cbn; lia].
    + unfold routedb in Rt. apply existsb_exists in Rt as ([a f] & I & F). cbn [snd] in F. apply Bool.negb_true_iff in F.
      cbn [In] in I. rewrite in_app_iff in I. destruct I as [I|[I|[I|[]]]].
      * exists 0%nat. split; [lia|]. rewrite Nat.add_0_r. rewrite <- E1 in I. injection I as _ <-. exact F.
      * apply In_nth_error in I as (j & Hj). assert (Lj : (j < k)%nat) by (apply nth_error_Some; fold k; congruence).
        rewrite E3' in Hj by exact Lj. injection Hj as _ <-. exists (S j). split; [lia|].
        replace (k0 + t + S j)%nat with (k0 + (t + S j))%nat by lia. exact F.
      * exists (S k). split; [lia|]. rewrite <- E2 in I. injection I as _ <-. replace (k0 + t + S k)%nat with (k0 + (t + S k))%nat by lia. exact F.
    + exact Tm.
    + rewrite M. unfold row_marker. f_equal. unfold row_box, row_corners. cbn [seq map extents].
      rewrite <- E1. cbn [snd]. rewrite Nat.add_0_r. f_equal.
      rewrite <- (map_map snd o_high), (row_edges c k0 t run E3'), map_map. reflexivity.
  - intros (i & k & (K & Sr & Lb & Le) & K1 & Rt & Tm & M).
    (* the position of the row seen from the first long edge *)
    assert (Ti : exists t, (t < length c)%nat /\ (i mod length c = (k0 + t) mod length c)%nat).
    { exists ((i mod length c + (length c - k0)) mod length c)%nat. split; [apply Nat.mod_upper_bound; exact Nl|].
      rewrite Nat.add_mod_idemp_r by exact Nl. replace (k0 + (i mod length c + (length c - k0)))%nat with (i mod length c + 1 * length c)%nat by lia.
      rewrite Nat.mod_add, Nat.mod_mod by exact Nl. reflexivity. }
    destruct Ti as (t & Ht & Mt).
    assert (At : forall j, edge_at c (i + j) = edge_at c (k0 + (t + j))).
    { intros j. rewrite (edge_at_mod c i (k0 + t) j Nl Mt). f_equal. lia. }
    assert (Tk : (t + S k <= length c)%nat).
    { destruct (Nat.le_gt_cases (t + S k) (length c)) as [G|G]; [exact G|]. exfalso. apply HL.
      specialize (Sr (length c - t)%nat ltac:(lia)). unfold short_at in *. rewrite At in Sr.
      replace (k0 + (t + (length c - t)))%nat with (k0 + length c)%nat in Sr by lia.
      replace (edge_at c k0) with (edge_at c (k0 + length c)); [exact Sr|]. unfold edge_at. f_equal.
      replace (k0 + length c)%nat with (k0 + 1 * length c)%nat by lia. apply Nat.mod_add. exact Nl. }
    pose proof (visited_nth c k0 t Hk ltac:(lia)) as E1. pose proof (visited_nth c k0 (t + S k) Hk ltac:(lia)) as E2.
    destruct (nth_split_at _ _ _ _ _ E1 E2) as (X & run & Y & E & LX & LR).
    destruct (split_nth _ _ _ _ _ _ E) as (_ & _ & E3 & _).
    assert (E3' : forall j, (j < length run)%nat -> nth_error run j = Some (((k0 + (t + S j)) mod length c)%nat, edge_at c (k0 + (t + S j)))).
    { intros j Hj. rewrite <- (E3 j Hj). rewrite LX. apply visited_nth; [exact Hk|lia]. }
    assert (A0 : edge_at c i = edge_at c (k0 + t)) by (specialize (At 0%nat); rewrite !Nat.add_0_r in At; exact At).
    eexists X, _, run, _, Y. split; [exact E|]. split; [|split; [|split; [|split; [|split; [|split; [|split; [|]]]]]]].
    + rewrite sh_at by exact Nc. unfold short_at in *. rewrite <- A0. exact Lb.
    + rewrite sh_at by exact Nc. unfold short_at in *. rewrite <- At. exact Le.
    + apply Forall_forall. intros x I. apply In_nth_error in I as (j & Hj). assert (Lj : (j < length run)%nat) by (apply nth_error_Some; congruence).
      rewrite E3' in Hj by exact Lj. injection Hj as <-. rewrite sh_at by exact Nc. specialize (Sr (S j) ltac:(lia)). unfold short_at in *. rewrite At in Sr. exact Sr.
    + cbn [fst]. intros Eq. assert (K2 : (S k < length c)%nat) by exact K.
      rewrite Nat.add_assoc, (Nat.add_mod (k0 + t) (S k)) in Eq by exact Nl. rewrite (Nat.mod_small (S k)) in Eq by exact K2.
      set (r := ((k0 + t) mod length c)%nat) in *. assert (R : (r < length c)%nat) by (apply Nat.mod_upper_bound; exact Nl).
      destruct (Nat.lt_ge_cases (r + S k) (length c)) as [Q|Q]; [rewrite Nat.mod_small in Eq by exact Q; lia|].
      replace (r + S k)%nat with ((r + S k - length c) + 1 * length c)%nat in Eq by lia. rewrite Nat.mod_add in Eq by exact Nl.
      rewrite Nat.mod_small in Eq by lia. lia.
    + intros ->. cbn in LR. lia.
    + destruct Rt as (j & Hj & F). unfold routedb. apply existsb_exists.
      destruct (Nat.eq_dec j 0) as [->|J0]; [|destruct (Nat.eq_dec j (S k)) as [->|J1]].
      * eexists. split; [left; reflexivity|]. cbn [snd]. rewrite Nat.add_0_r, A0 in F. rewrite F. reflexivity.
      * eexists. split; [right; apply in_or_app; right; left; reflexivity|]. cbn [snd]. rewrite At in F. rewrite F. reflexivity.
      * eexists. split; [right; apply in_or_app; left; eapply nth_error_In; apply (E3' (j - 1)%nat); lia|]. cbn [snd].
        rewrite At in F. replace (t + S (j - 1))%nat with (t + j)%nat by lia. rewrite F. reflexivity.
    + rewrite LR. exact Tm.
    + rewrite M. unfold row_marker. f_equal. unfold row_box, row_corners. cbn [seq map extents]. rewrite Nat.add_0_r, A0. cbn [snd]. f_equal.
      rewrite <- (map_map snd o_high), (row_edges c k0 t run E3'), map_map, LR. apply map_ext. intros j. rewrite At. do 2 f_equal. lia.
Qed.

Lemma step_outline_grows ms : grows (outline_found V P con c) ms (step_outline V P con ms c).
Proof.
  unfold step_outline. destruct (find _ _) as [[k0 e0]|] eqn:F.
  - apply find_some in F as [I L]. apply In_nth_error in I as (k & Hk).
    assert (Kl : (k < length c)%nat) by (rewrite <- indexed_length; apply nth_error_Some; congruence).
    pose proof Hk as Hk'. rewrite indexed_nth in Hk' by exact Kl. injection Hk' as <- E0. cbn [snd] in L.
    assert (Nc : c <> []) by (destruct c; [cbn in Kl; lia|discriminate]).
    assert (E0' : e0 = edge_at c k) by (rewrite edge_at_lt by exact Kl; auto).
    assert (HL : ~ sh con (k, e0)) by (unfold sh; cbn [snd]; lia).
    assert (VS : visited c k = (k, e0) :: [] ++ skipn (S k) (indexed c) ++ firstn (S k) (indexed c)).
    { unfold visited. rewrite (skipn_cons _ _ _ Hk). reflexivity. }
    eapply grows_ext; [|apply (step_loop_grows V P con k (skipn (S k) (indexed c) ++ firstn (S k) (indexed c)) [] k e0 0)]; auto.
    + intros m. rewrite <- VS. apply found_iff; [exact Kl|]. rewrite E0', sh_at in HL by exact Nc. exact HL.
    + unfold routedb. cbn. rewrite Bool.orb_false_r. reflexivity.
    + eapply Permutation_NoDup; [|apply (seq_NoDup (length c) 0)]. rewrite <- indexed_fst. apply Permutation_map.
      rewrite <- (firstn_skipn (S k) (indexed c)) at 1. apply Permutation_app_comm.
    + intros A x B E Fx.
      assert (T : visited c k = ((k, e0) :: A) ++ x :: B) by (rewrite VS; cbn [app]; rewrite E; reflexivity).
      assert (N : nth_error (visited c k) (S (length A)) = Some x).
      { rewrite T, nth_error_app2 by (cbn; lia). cbn [length]. rewrite Nat.sub_diag. reflexivity. }
      pose proof (visited_length c k Kl) as LT. rewrite T in LT. rewrite app_length in LT. cbn in LT.
      rewrite visited_nth in N by lia. injection N as N. rewrite <- N in Fx. cbn [fst] in Fx.
      destruct B as [|y B]; [reflexivity|]. exfalso. cbn in LT.
      destruct (Nat.lt_ge_cases (k + S (length A)) (length c)) as [Q|Q].
      * rewrite Nat.mod_small in Fx by exact Q. lia.
      * replace (k + S (length A))%nat with ((k + S (length A) - length c) + 1 * length c)%nat in Fx by lia.
        rewrite Nat.mod_add, Nat.mod_small in Fx by lia. lia.
  - apply grows_none. intros m (i & k & (K & _ & Lb & _) & _).
    assert (Nc : c <> []) by (destruct c; [cbn in K; lia|discriminate]).
    assert (Mi : (i mod length c < length c)%nat) by (apply Nat.mod_upper_bound; destruct c; [contradiction|discriminate]).
    pose proof (find_none _ _ F _ (nth_error_In _ _ (indexed_nth c _ Mi))) as H. cbn [snd] in H.
    apply Lb. unfold short_at. rewrite <- seg_len by (apply CO, edge_at_in, Nc). unfold edge_at. lia.
Qed.
End Outline.
