(* Proofs about minimum-area patches: counting unit squares of the wire, the vias and the patch. *)
From Verif Require Import Base GeomModel PatchSpec.
From Verif Require GcModel GcProofs2 StepProofs5.

Definition R (a b c d x y : Z) : Prop := a <= x < b /\ c <= y < d.
Lemma covers_R a b c d : a <= b -> c <= d -> covers ((b - a) * (d - c)) (R a b c d).
Proof.
  intros H1 H2. exists (GcModel.cells (mkBox (mkPt a c) (mkPt b d))). split; [apply StepProofs5.cells_NoDup|]. split.
  - intros x y I. apply GcProofs2.cells_In in I. exact I.
  - unfold GcModel.cells, bleft, bright, bbottom, btop. cbn [ll ur px py].
    assert (L : forall l, length (flat_map (fun x : Z => map (fun y : Z => (x, y)) (GcModel.zrange c d)) l) = (length l * length (GcModel.zrange c d))%nat).
    { induction l as [|x l IH]; [reflexivity|]. cbn [flat_map length]. rewrite app_length, map_length, IH. lia. }
    rewrite L. unfold GcModel.zrange. rewrite !map_length, !seq_length. nia.
Qed.
Lemma covers_add n m (S1 S2 S : Z -> Z -> Prop) : covers n S1 -> covers m S2 -> (forall x y, S1 x y -> S2 x y -> False) ->
  (forall x y, S1 x y \/ S2 x y -> S x y) -> covers (n + m) S.
Proof.
  intros (l1 & N1 & I1 & C1) (l2 & N2 & I2 & C2) D H. exists (l1 ++ l2). split.
  - apply StepProofs5.NoDup_app'; [exact N1|exact N2|]. intros (x & y) A B. eapply D; eauto.
  - split; [|rewrite app_length; lia]. intros x y I. apply H. apply in_app_or in I. destruct I; [left|right]; auto.
Qed.
Lemma covers_le n m (S S' : Z -> Z -> Prop) : covers n S -> m <= n -> (forall x y, S x y -> S' x y) -> covers m S'.
Proof. intros (l & N & I & C) L H. exists l. split; [exact N|]. split; [intros x y J; apply H, I, J|lia]. Qed.

(* flipping and swapping the axes *)
Definition flip (f : bool) (u : Z) : Z := if f then - u - 1 else u.
Definition frame (swap fu fv : bool) (x0 y0 : Z) (S : Z -> Z -> Prop) (u v : Z) : Prop :=
  if swap then S (x0 + flip fv v) (y0 + flip fu u) else S (x0 + flip fu u) (y0 + flip fv v).
Lemma covers_frame n swap fu fv x0 y0 S : covers n (frame swap fu fv x0 y0 S) -> covers n S.
Proof.
  intros (l & N & I & C).
  exists (map (fun p : Z * Z => if swap then (x0 + flip fv (snd p), y0 + flip fu (fst p)) else (x0 + flip fu (fst p), y0 + flip fv (snd p))) l).
  split; [|split].
  - apply FinFun.Injective_map_NoDup; [|exact N]. intros (a & b) (c & d). cbn [fst snd]. unfold flip.
    destruct swap, fu, fv; intros H; inversion H; f_equal; lia.
  - intros x y J. apply in_map_iff in J. destruct J as ((a & b) & H & J). apply I in J. cbn [fst snd] in H. unfold frame in J.
    destruct swap; inversion H; subst; exact J.
  - rewrite map_length. exact C.
Qed.

(* an end with a via whose metal is at least as wide as the wire, or without a via *)
Definition vend (h ax ay : Z) : Prop := (h <= ax /\ h <= ay) \/ (ax = 0 /\ ay = 0).

Section Canon.
Variables (S : Z -> Z -> Prop) (h L P ax ay bx by_ : Z).
Hypotheses (Hh : 0 < h) (HL : 0 <= L) (HP : 0 <= P) (HA : vend h ax ay) (HB : vend h bx by_).

Lemma canon_none :
  (forall u v, R 0 L (- h) h u v -> S u v) -> (forall u v, R (- ax) 0 (- ay) ay u v -> S u v) ->
  (forall u v, R L (L + bx) (- by_) by_ u v -> S u v) -> covers (2 * h * L + 2 * ax * ay + 2 * bx * by_) S.
Proof.
  intros W A B. unfold vend in *.
  pose proof (covers_R 0 L (- h) h ltac:(lia) ltac:(lia)) as C1.
  pose proof (covers_R (- ax) 0 (- ay) ay ltac:(lia) ltac:(lia)) as C2.
  pose proof (covers_R L (L + bx) (- by_) by_ ltac:(lia) ltac:(lia)) as C3.
  pose proof (covers_add _ _ _ _ (fun x y => R 0 L (- h) h x y \/ R (- ax) 0 (- ay) ay x y) C1 C2 ltac:(unfold R; intros; lia) ltac:(auto)) as C4.
  pose proof (covers_add _ _ _ _ S C4 C3 ltac:(unfold R; intros; lia) ltac:(intros x y [[H|H]|H]; auto)) as C5.
  eapply covers_le; [exact C5|lia|auto].
Qed.
Lemma canon_along :
  (forall u v, R 0 P (- h) h u v -> S u v) -> (forall u v, R (- L) 0 (- h) h u v -> S u v) ->
  (forall u v, R (- L - bx) (- L) (- by_) by_ u v -> S u v) -> covers (2 * h * P + 2 * h * L + 2 * bx * by_) S.
Proof.
  intros Pa W B. unfold vend in *.
  pose proof (covers_R 0 P (- h) h ltac:(lia) ltac:(lia)) as C1.
  pose proof (covers_R (- L) 0 (- h) h ltac:(lia) ltac:(lia)) as C2.
  pose proof (covers_R (- L - bx) (- L) (- by_) by_ ltac:(lia) ltac:(lia)) as C3.
  pose proof (covers_add _ _ _ _ (fun x y => R 0 P (- h) h x y \/ R (- L) 0 (- h) h x y) C1 C2 ltac:(unfold R; intros; lia) ltac:(auto)) as C4.
  pose proof (covers_add _ _ _ _ S C4 C3 ltac:(unfold R; intros; lia) ltac:(intros x y [[H|H]|H]; auto)) as C5.
  eapply covers_le; [exact C5|lia|auto].
Qed.
Lemma canon_across : (h <= ax \/ h <= bx) ->
  (forall u v, R 0 P (- h) h u v -> S u v) -> (forall u v, R (- h) h 0 L u v -> S u v) ->
  (forall u v, R (- ax) ax (- ay) ay u v -> S u v) -> (forall u v, R (- bx) bx (L - by_) (L + by_) u v -> S u v) ->
  covers (2 * h * P + 2 * h * L + Z.min (2 * ax * ay) (2 * bx * by_)) S.
Proof.
  intros Some1 Pa W A B. unfold vend in *.
  pose proof (covers_R 0 P (- h) h ltac:(lia) ltac:(lia)) as C1.
  pose proof (covers_R (- h) 0 0 L ltac:(lia) ltac:(lia)) as C2.
  pose proof (covers_R (- ax) 0 (- ay) 0 ltac:(lia) ltac:(lia)) as C3.
  pose proof (covers_add _ _ _ _ (fun x y => R 0 P (- h) h x y \/ R (- h) 0 0 L x y) C1 C2 ltac:(unfold R; intros; lia) ltac:(auto)) as D1.
  pose proof (covers_add _ _ _ _ (fun x y => (R 0 P (- h) h x y \/ R (- h) 0 0 L x y) \/ R (- ax) 0 (- ay) 0 x y) D1 C3 ltac:(unfold R; intros; lia) ltac:(auto)) as D2.
  destruct (Z_le_gt_dec h L) as [G|G].
  - pose proof (covers_R 0 h h L ltac:(lia) ltac:(lia)) as C4.
    pose proof (covers_R (- bx) bx L (L + by_) ltac:(lia) ltac:(lia)) as C5.
    pose proof (covers_add _ _ _ _ (fun x y => ((R 0 P (- h) h x y \/ R (- h) 0 0 L x y) \/ R (- ax) 0 (- ay) 0 x y) \/ R 0 h h L x y) D2 C4 ltac:(unfold R; intros; lia) ltac:(auto)) as D3.
    pose proof (covers_add _ _ _ _ S D3 C5 ltac:(unfold R; intros; lia)
      ltac:(intros x y [[[[H|H]|H]|H]|H]; [apply Pa|apply W|apply A|apply W|apply B]; unfold R in *; lia)) as D4.
    eapply covers_le; [exact D4| |auto].
    assert (X : ax * ay >= h * h \/ (ax = 0 /\ ay = 0)) by (destruct HA; [left; nia|right; assumption]).
    assert (Y : bx * by_ >= h * h \/ (bx = 0 /\ by_ = 0)) by (destruct HB; [left; nia|right; assumption]).
    assert (X1 : ax = 0 -> bx * by_ >= h * h) by (intros; destruct Y as [Y|Y]; [exact Y|lia]).
    assert (X2 : ax * ay >= 0) by (destruct X as [X|(-> & ->)]; nia).
    assert (Hm : h <= ax -> ax * ay >= h * h) by (intros; destruct X as [X|X]; [exact X|lia]).
    destruct (Z.eq_dec ax 0) as [->|Nx]; [specialize (X1 eq_refl); nia|].
    destruct X as [X|X]; [|lia]. nia.
  - pose proof (covers_R (- bx) 0 L (L + by_) ltac:(lia) ltac:(lia)) as C4.
    pose proof (covers_R 0 bx (Z.min h (L + by_)) (L + by_) ltac:(lia) ltac:(lia)) as C5.
    pose proof (covers_add _ _ _ _ (fun x y => ((R 0 P (- h) h x y \/ R (- h) 0 0 L x y) \/ R (- ax) 0 (- ay) 0 x y) \/ R (- bx) 0 L (L + by_) x y) D2 C4 ltac:(unfold R; intros; lia) ltac:(auto)) as D3.
    pose proof (covers_add _ _ _ _ S D3 C5 ltac:(unfold R; intros; lia)
      ltac:(intros x y [[[[H|H]|H]|H]|H]; [apply Pa|apply W|apply A|apply B|apply B]; unfold R in *; lia)) as D4.
    eapply covers_le; [exact D4| |auto].
    destruct HA as [(A1 & A2)|(-> & ->)], HB as [(B1 & B2)|(-> & ->)].
    + rewrite (Z.min_l h (L + by_)) by lia.
      assert (bx * L >= h * L) by nia. assert (bx * by_ >= bx * h) by nia.
      destruct (Z.min_spec (2 * ax * ay) (2 * bx * by_)) as [(M & ->)|(M & ->)]; nia.
    + rewrite Z.min_r by nia. assert (ax * ay >= h * L) by nia. nia.
    + rewrite (Z.min_l h (L + by_)) by lia. rewrite Z.min_l by nia.
      assert (bx * L >= h * L) by nia. assert (bx * by_ >= bx * h) by nia. nia.
    + lia.
Qed.
End Canon.
