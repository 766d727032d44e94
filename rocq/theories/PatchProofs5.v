(* Proofs about minimum-area patches: straight stretches have the minimum area. *)
From Verif Require Import Base Stl GeomModel GridModel PatchModel PatchSpec PatchProofs PatchProofs2 PatchProofs3 PatchProofs4.

Section S.
Variables (E : penv) (g : gg).
Let X (p : midx) := px (getPoint g p).
Let Y (p : midx) := py (getPoint g p).

Lemma seg_dist_dist p q : seg_dist g p q = dist (getPoint g p) (getPoint g q).
Proof. reflexivity. Qed.
Lemma dist_sym p q : seg_dist g p q = seg_dist g q p.
Proof. unfold seg_dist. lia. Qed.
Lemma dist_tri p q r : seg_dist g p r <= seg_dist g p q + seg_dist g q r.
Proof. unfold seg_dist. lia. Qed.
Lemma travelled_cons p q r : travelled g (p :: q :: r) = seg_dist g p q + travelled g (q :: r).
Proof. reflexivity. Qed.
Lemma travelled_ge mid : forall p q, seg_dist g p q <= travelled g (p :: mid ++ [q]).
Proof.
  induction mid as [|m mid IH]; intros p q.
  - cbn [app]. rewrite travelled_cons. cbn [travelled]. lia.
  - cbn [app]. rewrite travelled_cons. specialize (IH m q). pose proof (dist_tri p m q). lia.
Qed.
Lemma travelled_rev st : travelled g (rev st) = travelled g st.
Proof.
  induction st as [|p st IH]; [reflexivity|]. cbn [rev]. destruct st as [|q st]; [reflexivity|].
  rewrite travelled_cons. cbn [rev] in *. rewrite travelled_snoc, IH, dist_sym. lia.
Qed.

Lemma nth_mono l i j : sorted_lt l -> 0 <= i < Z.of_nat (length l) -> 0 <= j < Z.of_nat (length l) ->
  (i < j <-> nth (Z.to_nat i) l 0 < nth (Z.to_nat j) l 0).
Proof.
  intros Hs Hi Hj.
  assert (M : forall a b, (a < b)%nat -> (b < length l)%nat -> nth a l 0 < nth b l 0) by (intros a b H1 H2; apply Hs; lia).
  destruct (Z.lt_trichotomy i j) as [H|[->|H]].
  - split; [intros _; apply M; lia|intros _; exact H].
  - lia.
  - pose proof (M (Z.to_nat j) (Z.to_nat i) ltac:(lia) ltac:(lia)). lia.
Qed.
Lemma along_mono horz p q : grid_ok g -> on_grid g p -> on_grid g q ->
  (along horz p < along horz q <-> (if horz then X p < X q else Y p < Y q)).
Proof.
  intros (Sx & Sy) (Px & Py) (Qx & Qy). unfold along, X, Y, getPoint. cbn [px py].
  destruct horz; apply nth_mono; assumption.
Qed.

Definition side_of (horz left : bool) (p o : midx) : Prop :=
  if horz then (if left then X p <= X o else X o <= X p) else (if left then Y p <= Y o else Y o <= Y p).

(* the patch points away from the other end of a straight stretch *)
Lemma side_first horz p n mid o left : grid_ok g -> on_grid g p -> on_grid g n -> on_grid g o ->
  hd_error (mid ++ [o]) = Some n -> travelled g (p :: mid ++ [o]) = seg_dist g p o ->
  ((Y n = Y p /\ Y o = Y p) \/ (X n = X p /\ X o = X p)) ->
  away horz p n o left -> side_of horz left p o.
Proof.
  intros G Op On Oo Hn T St A.
  assert (B : seg_dist g p n + seg_dist g n o <= seg_dist g p o).
  { destruct mid as [|m mid]; cbn [app hd_error] in Hn; inversion Hn; subst.
    - unfold seg_dist. lia.
    - cbn [app] in T. rewrite travelled_cons in T. pose proof (travelled_ge mid n o). lia. }
  unfold away in A. cbv zeta in A.
  pose proof (along_mono horz p n G Op On) as M1. pose proof (along_mono horz n p G On Op) as M2.
  pose proof (along_mono horz p o G Op Oo) as M3. pose proof (along_mono horz o p G Oo Op) as M4.
  unfold side_of. unfold seg_dist in B. change (px (getPoint g ?a)) with (X a) in B. change (py (getPoint g ?a)) with (Y a) in B.
  clear T Hn Op On Oo.
  destruct left.
  - assert (A' : along horz p < along horz n \/ (along horz p = along horz n /\ along horz p < along horz o)) by (apply A; reflexivity).
    destruct horz; lia.
  - assert (A' : ~ (along horz p < along horz n \/ (along horz p = along horz n /\ along horz p < along horz o))) by (intros H; apply A in H; discriminate).
    destruct horz; lia.
Qed.

Hypotheses (G : grid_ok g).
Variables (st : list midx) (first last : midx).
Hypotheses (Og : forall r, In r st -> on_grid g r) (Ef : exists a, st = first :: a) (El : exists b, st = b ++ [last]).
Hypothesis (SS : straight_stretch g st).

Lemma straight_facts : travelled g st = seg_dist g first last /\
  ((forall r, In r st -> Y r = Y first) \/ (forall r, In r st -> X r = X first)).
Proof. destruct Ef as (a & Ea), El as (b & Eb). exact (SS first last a b Ea Eb). Qed.
Lemma first_in : In first st. Proof. destruct Ef as (a & ->). left; reflexivity. Qed.
Lemma last_in : In last st. Proof. destruct El as (b & ->). apply in_or_app. right; left; reflexivity. Qed.

Lemma side_first_place left : first_place E st first left -> side_of (pl_horz (pe_layer E (mz first))) left first last.
Proof.
  intros [(-> & ->)|(n & mid & o & Est & Hn & A)].
  - destruct El as (b & Eb). destruct b as [|x b]; [|cbn in Eb; inversion Eb; destruct b; discriminate].
    inversion Eb; subst. unfold side_of. destruct (pl_horz _); lia.
  - assert (o = last) as ->.
    { destruct El as (b & Eb). rewrite Est in Eb. rewrite app_comm_cons in Eb. apply app_inj_tail in Eb. apply Eb. }
    destruct straight_facts as (T & St).
    assert (In1 : In n st) by (rewrite Est; right; destruct (mid ++ [last]); inversion Hn; left; reflexivity).
    apply (side_first _ _ n mid); auto using first_in, last_in.
    + rewrite <- Est. exact T.
    + destruct St as [St|St]; [left|right]; split; apply St; auto using last_in.
Qed.
Lemma side_last_place left : last_place E st last left -> side_of (pl_horz (pe_layer E (mz last))) left last first.
Proof.
  intros [(Hst & ->)|(n & mid & o & Est & Hn & A)].
  - destruct Ef as (a & Ea). rewrite Hst in Ea. inversion Ea; subst. unfold side_of. destruct (pl_horz _); lia.
  - assert (o = first) as -> by (destruct Ef as (a & Ea); rewrite Est in Ea; inversion Ea; reflexivity).
    destruct straight_facts as (T & St).
    assert (In1 : In n st).
    { rewrite Est, app_comm_cons. apply in_or_app. left. apply in_rev. destruct (rev (first :: mid)); inversion Hn; left; reflexivity. }
    cbn [rev] in Hn.
    apply (side_first _ _ n (rev mid)); auto using first_in, last_in.
    + replace (last :: rev mid ++ [first]) with (rev st) by (rewrite Est, app_comm_cons, rev_app_distr; reflexivity).
      rewrite travelled_rev, T. apply dist_sym.
    + destruct St as [St|St]; [left|right]; split; rewrite (St last last_in); apply St; auto using first_in.
Qed.
End S.
