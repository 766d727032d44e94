From Coq Require Import Permutation.
From Verif Require Import Base GeomModel GeomSpec ClipModel ClipSpec ClipProofs2.

(* ---- metal of a join *)
Lemma joined_metal_iff a c p : end_to_end a c p -> sWid (ws a) = sWid (ws c) -> style_ok a -> style_ok c ->
  forall x y, (on_metal (joined a c) x y -> on_metal a x y \/ on_metal c x y) /\
    (eExt (ws a) <= wlen c + eExt (ws c) -> bExt (ws c) <= wlen a + bExt (ws a) ->
     on_metal a x y \/ on_metal c x y -> on_metal (joined a c) x y).
Proof.
  intros (E1 & E2 & El & Pa & Pc & D) W Sa Sc x y.
  assert (Sj : style_ok (joined a c)) by (destruct Sa as (A1 & A2 & A3), Sc as (C1 & C2 & C3); unfold style_ok, joined; cbn; auto).
  assert (Ex : px (we a) = px (wb c)) by congruence. assert (Ey : py (we a) = py (wb c)) by congruence. clear E1 E2.
  unfold proper, wlen in *. destruct D as [[D1 D2]|[D1 D2]].
  - rewrite (metal_v a), (metal_v c), (metal_v (joined a c)); try assumption; cbn [joined wb we ws bExt eExt sWid]; try lia. rewrite W. destruct Sa as (A1 & A2 & A3), Sc as (C1 & C2 & C3). lia.
  - rewrite (metal_h a), (metal_h c), (metal_h (joined a c)); try assumption; cbn [joined wb we ws bExt eExt sWid]; try lia. rewrite W. destruct Sa as (A1 & A2 & A3), Sc as (C1 & C2 & C3). lia.
Qed.

(* ---- the kept routing *)
Section B.
Variable St : Type.
Variable markers quick : St -> Z.
Variable step : nat -> St -> St.
Variable bloat : Z.
Hypothesis nobloat : bloat <= 0.
Hypothesis pos : forall s, 0 <= markers s.
Variable s0 : St.
Notation aft := (after step s0).
Notation rr := (route_rounds St markers quick true bloat step).

Lemma rounds_best n : forall i k, (k < i)%nat -> (forall j, (j < i)%nat -> markers (aft k) <= markers (aft j)) ->
  (forall j, (j < k)%nat -> markers (aft k) < markers (aft j)) ->
  exists k', (k' < i + n)%nat /\ rr n i (aft (pred i)) (Some (aft k)) = Some (aft k') /\
    (forall j, (j < i + n)%nat -> markers (aft k') <= markers (aft j)) /\
    (forall j, (j < k')%nat -> markers (aft k') < markers (aft j)).
Proof.
  induction n as [|n IH]; intros i k Hk Hmin Hfirst.
  - exists k. rewrite Nat.add_0_r. cbn. auto.
  - cbn [route_rounds]. assert (Ec : step i (aft (pred i)) = aft i) by (destruct i; [lia|reflexivity]). rewrite Ec. cbv zeta.
    destruct i as [|i']; [lia|]. set (i := S i') in *.
    assert (Sv : true && ((markers (aft i) <? markers (aft k)) || (bloat >? 0)) = (markers (aft i) <? markers (aft k))) by (cbn [andb]; destruct (bloat >? 0) eqn:E; [lia|apply orb_false_r]).
    rewrite Sv. destruct (markers (aft i) <? markers (aft k)) eqn:L.
    + assert (M1 : forall j, (j < S i)%nat -> markers (aft i) <= markers (aft j)).
      { intros j Hj. destruct (Nat.eq_dec j i) as [-> |]; [lia|]. specialize (Hmin j ltac:(lia)). lia. }
      assert (M2 : forall j, (j < i)%nat -> markers (aft i) < markers (aft j)) by (intros j Hj; specialize (Hmin j Hj); lia).
      destruct (markers (aft i) =? 0) eqn:Z0.
      * exists i. split; [lia|]. split; [reflexivity|]. split; [|exact M2]. intros j _. pose proof (pos (aft j)). lia.
      * destruct (IH (S i) i ltac:(lia) M1 M2) as (k' & K1 & K2 & K3 & K4). exists k'. cbn [pred] in K2. split; [lia|]. split; [exact K2|]. split; [|exact K4]. intros j Hj. apply K3. lia.
    + assert (M1 : forall j, (j < S i)%nat -> markers (aft k) <= markers (aft j)).
      { intros j Hj. destruct (Nat.eq_dec j i) as [-> |]; [lia|]. apply Hmin. lia. }
      destruct (markers (aft i) =? 0) eqn:Z0.
      * exists k. split; [lia|]. split; [reflexivity|]. split; [|exact Hfirst]. intros j _. pose proof (pos (aft j)). pose proof (pos (aft k)). lia.
      * destruct (IH (S i) k ltac:(lia) M1 Hfirst) as (k' & K1 & K2 & K3 & K4). exists k'. cbn [pred] in K2. split; [lia|]. split; [exact K2|]. split; [|exact K4]. intros j Hj. apply K3. lia.
Qed.
Lemma route_best n : (0 < n)%nat -> exists k, (k < n)%nat /\ rr n 0 s0 None = Some (aft k) /\
    (forall j, (j < n)%nat -> markers (aft k) <= markers (aft j)) /\ (forall j, (j < k)%nat -> markers (aft k) < markers (aft j)).
Proof.
  intros Hn. destruct n as [|n]; [lia|]. cbn [route_rounds]. cbv zeta. change (step 0%nat s0) with (aft 0%nat).
  assert (M1 : forall j, (j < 1)%nat -> markers (aft 0) <= markers (aft j)) by (intros j Hj; replace j with 0%nat by lia; lia).
  destruct (markers (aft 0) =? 0) eqn:Z0.
  - exists 0%nat. split; [lia|]. split; [reflexivity|]. split; [|intros; lia]. intros j _. pose proof (pos (aft j)). lia.
  - destruct (rounds_best n 1 0%nat ltac:(lia) M1 ltac:(intros; lia)) as (k' & K1 & K2 & K3 & K4). exists k'. split; [lia|]. split; [exact K2|]. split; [|exact K4]. intros j Hj. apply K3. lia.
Qed.
End B.
