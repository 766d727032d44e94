(* Abutting instances are in one row. *)
From Verif Require Import Base GeomModel ApModel UiModel UiSpec UiProofs UiProofs2.
From Coq Require Import Sorted.

Section A.
Variable E : uenv.

Lemma in_split2 {A} (l : list A) a b : In a l -> In b l -> a <> b ->
  (exists l1 l2 l3, l = l1 ++ a :: l2 ++ b :: l3) \/ (exists l1 l2 l3, l = l1 ++ b :: l2 ++ a :: l3).
Proof.
  intros Ha Hb N. apply in_split in Ha. destruct Ha as [l1 [l2 ->]]. apply in_app_iff in Hb. destruct Hb as [Hb|[Hb|Hb]].
  - apply in_split in Hb. destruct Hb as [m1 [m2 ->]]. right. exists m1, m2, l2. rewrite <- app_assoc. reflexivity.
  - congruence.
  - apply in_split in Hb. destruct Hb as [m1 [m2 ->]]. left. exists l1, m1, m2. reflexivity.
Qed.
Lemma consecutive_concat {A} (rs : list (list A)) a b : (forall r, In r rs -> r <> []) -> consecutive a b (concat rs) ->
  (exists r, In r rs /\ consecutive a b r) \/
  (exists r1 r2 l1 l2, consecutive r1 r2 rs /\ r1 = l1 ++ [a] /\ r2 = b :: l2).
Proof.
  induction rs as [|r rs IH]; intros NE [l1 [l2 C]].
  { destruct l1; discriminate. }
  cbn in C.
  assert (IHs : forall r0 r1, In r0 rs \/ consecutive r0 r1 rs -> True) by easy. clear IHs.
  (* where does r end? *)
  assert (D : (exists m, r = l1 ++ a :: b :: m) \/ (r = l1 ++ [a] /\ concat rs = b :: l2) \/ (exists m, l1 = r ++ m /\ concat rs = m ++ a :: b :: l2)).
  { clear IH NE. revert l1 C. induction r as [|x r IHr]; intros l1 C; cbn in C.
    - right; right. exists l1. split; [reflexivity|exact C].
    - destruct l1 as [|y l1]; cbn in C.
      + injection C as -> C. destruct r as [|z r]; cbn in C.
        * right; left. split; [reflexivity|exact C].
        * injection C as -> C. left. exists r. reflexivity.
      + injection C as -> C. destruct (IHr l1 C) as [[m ->]|[[-> Q]|[m [-> Q]]]].
        * left. exists m. reflexivity.
        * right; left. split; [reflexivity|exact Q].
        * right; right. exists m. split; [reflexivity|exact Q]. }
  destruct D as [[m ->]|[[-> Q]|[m [-> Q]]]].
  - left. eexists. split; [left; reflexivity|]. exists l1, m. reflexivity.
  - right. destruct rs as [|r2 rs]; [discriminate|]. destruct r2 as [|z r2]; [exfalso; apply (NE []); [right; left; reflexivity|reflexivity]|].
    cbn in Q. injection Q as -> Q. exists (l1 ++ [a]), (b :: r2), l1, r2. split; [|split; reflexivity]. exists [], rs. reflexivity.
  - destruct IH as [[r0 [H1 H2]]|[r1 [r2 [m1 [m2 [[k1 [k2 ->]] H2]]]]]].
    + intros x Hx. apply NE. right; exact Hx.
    + exists m, l2. exact Q.
    + left. exists r0. split; [right; exact H1|exact H2].
    + right. exists r1, r2, m1, m2. split; [exists (r :: k1), k2; reflexivity|exact H2].
Qed.

Lemma sorted_between l1 a l2 b l3 c : StronglySorted (fun x y => loc_lt y x = false) (l1 ++ a :: l2 ++ b :: l3) -> In c l2 ->
  loc_lt c a = false /\ loc_lt b c = false.
Proof.
  intros S Hc. induction l1 as [|x l1 IH]; cbn in S.
  - inversion S; subst. split.
    + rewrite Forall_forall in H2. apply H2. apply in_app_iff. left; exact Hc.
    + clear S H2. induction l2 as [|y l2 IH2]; [destruct Hc|]. cbn in H1. inversion H1; subst. destruct Hc as [-> |Hc].
      * rewrite Forall_forall in H3. apply H3. apply in_app_iff. right; left; reflexivity.
      * apply IH2; assumption.
  - inversion S; subst. apply IH; assumption.
Qed.
Lemma sorted_before l1 a l2 b l3 : StronglySorted (fun x y => loc_lt y x = false) (l1 ++ a :: l2 ++ b :: l3) -> loc_lt b a = false.
Proof.
  intros S. induction l1 as [|x l1 IH]; cbn in S; inversion S; subst; [|apply IH; assumption].
  rewrite Forall_forall in H2. apply H2. apply in_app_iff. right; left; reflexivity.
Qed.

Lemma abut_together is a b : StronglySorted (fun x y => loc_lt y x = false) is -> NoDup is ->
  (forall i, In i is -> bleft (inst_box E i) = xo (i_xf i) /\ xo (i_xf i) < bright (inst_box E i)) ->
  (forall i j, In i is -> In j is -> i <> j -> yo (i_xf i) = yo (i_xf j) ->
     bright (inst_box E i) <= bleft (inst_box E j) \/ bright (inst_box E j) <= bleft (inst_box E i)) ->
  In a is -> In b is -> yo (i_xf a) = yo (i_xf b) -> bright (inst_box E a) = bleft (inst_box E b) ->
  exists row, In row (rows E is) /\ consecutive a b row.
Proof.
  intros S ND WD DJ Ha Hb Y AB. destruct (WD a Ha) as [La Wa]. destruct (WD b Hb) as [Lb Wb].
  assert (N : a <> b) by (intros ->; lia).
  assert (C : consecutive a b is).
  { destruct (in_split2 is a b Ha Hb N) as [[l1 [l2 [l3 Q]]]|[l1 [l2 [l3 Q]]]].
    - destruct l2 as [|c l2]; [exists l1, l3; exact Q|]. exfalso.
      assert (HC : loc_lt c a = false /\ loc_lt b c = false).
      { apply (sorted_between l1 a (c :: l2) b l3); [rewrite <- Q; exact S|left; reflexivity]. }
      assert (Ic : In c is) by (rewrite Q; apply in_app_iff; right; right; left; reflexivity).
      assert (Nca : a <> c /\ b <> c).
      { rewrite Q in ND. split; intros <-.
        - apply NoDup_remove_2 in ND. apply ND. apply in_app_iff. right. left; reflexivity.
        - replace (l1 ++ a :: (b :: l2) ++ b :: l3) with ((l1 ++ [a]) ++ b :: (l2 ++ b :: l3)) in ND by (rewrite <- app_assoc; reflexivity).
          apply NoDup_remove_2 in ND. apply ND. apply in_app_iff. right. apply in_app_iff. right; left; reflexivity. }
      destruct Nca as [N1 N2]. destruct (WD c Ic) as [Lc Wc]. destruct HC as [H1 H2]. unfold loc_lt in H1, H2.
      assert (Yc : yo (i_xf c) = yo (i_xf a)) by (destruct (yo (i_xf c) =? yo (i_xf a)) eqn:?, (yo (i_xf b) =? yo (i_xf c)) eqn:?; lia).
      replace (yo (i_xf c) =? yo (i_xf a)) with true in H1 by lia. replace (yo (i_xf b) =? yo (i_xf c)) with true in H2 by lia.
      destruct (DJ a c Ha Ic N1 (eq_sym Yc)) as [D|D]; [|lia]. destruct (DJ b c Hb Ic N2 ltac:(lia)) as [D2|D2]; lia.
    - exfalso. assert (X := sorted_before l1 b l2 a l3). rewrite <- Q in X. specialize (X S). unfold loc_lt in X.
      replace (yo (i_xf a) =? yo (i_xf b)) with true in X by lia. lia. }
  destruct (rows_spec E is) as [R1 [R2 R3]]. rewrite <- R1 in C.
  destruct (consecutive_concat (rows E is) a b) as [H|[r1 [r2 [l1 [l2 [H1 [H2 H3]]]]]]].
  - intros r Hr. apply (R2 r Hr).
  - exact C.
  - exact H.
  - exfalso. apply (R3 r1 r2 H1 a b l1 l2 H2 H3). split; [exact Y|lia].
Qed.
End A.
