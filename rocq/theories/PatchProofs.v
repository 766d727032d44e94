(* Proofs about minimum-area patches: the loop visits the stretches of the route one by one. *)
From Verif Require Import Base Stl GeomModel GridModel PatchModel PatchSpec.

Lemma mi_eq_iff a b : mi_eq a b = true <-> a = b.
Proof.
  destruct a as [ax ay az], b as [bx by_ bz]. unfold mi_eq; cbn [mx my mz].
  rewrite !andb_true_iff, !Z.eqb_eq. split; [intros ((-> & ->) & ->); reflexivity|intros H; inversion H; auto].
Qed.

(* the recorded areas *)
Lemma records_area_map aps : records aps (area_map aps).
Proof.
  unfold area_map.
  assert (G : forall aps done m, records done m ->
     records (done ++ aps) (fold_left (fun m a p => if mi_eq p (fst a) then Some (match m p with Some v => Z.max v (snd a) | None => snd a end) else m p) aps m)).
  { clear aps. induction aps as [|[q a] aps IH]; intros done m R; cbn [fold_left].
    - rewrite app_nil_r. exact R.
    - replace (done ++ (q, a) :: aps) with ((done ++ [(q, a)]) ++ aps) by (rewrite <- app_assoc; reflexivity).
      apply IH. intros p. cbn [fst snd]. specialize (R p).
      destruct (mi_eq p q) eqn:Eq.
      + apply mi_eq_iff in Eq. subst q. destruct (m p) as [v|].
        * destruct R as (R1 & R2). split.
          { destruct (Z.max_spec v a) as [(_ & ->)|(_ & ->)]; apply in_or_app; [right; left; reflexivity|left; exact R1]. }
          { intros b I. apply in_app_or in I. destruct I as [I|[I|[]]]; [specialize (R2 b I); lia|inversion I; lia]. }
        * split; [apply in_or_app; right; left; reflexivity|].
          intros b I. apply in_app_or in I. destruct I as [I|[I|[]]]; [elim (R b I)|inversion I; lia].
      + assert (N : p <> q) by (intros ->; rewrite (proj2 (mi_eq_iff q q) eq_refl) in Eq; discriminate).
        destruct (m p) as [v|].
        * destruct R as (R1 & R2). split; [apply in_or_app; left; exact R1|].
          intros b I. apply in_app_or in I. destruct I as [I|[I|[]]]; [exact (R2 b I)|inversion I; congruence].
        * intros b I. apply in_app_or in I. destruct I as [I|[I|[]]]; [exact (R b I)|inversion I; congruence]. }
  apply (G aps []). intros p. intros b [].
Qed.
Lemma records_unique aps am am' p : records aps am -> records aps am' -> am p = am' p.
Proof.
  intros R R'. specialize (R p). specialize (R' p).
  destruct (am p) as [a|], (am' p) as [b|].
  - destruct R as (I & M), R' as (I' & M'). specialize (M b I'). specialize (M' a I). f_equal. lia.
  - destruct R as (I & _). elim (R' a I).
  - destruct R' as (I & _). elim (R b I).
  - reflexivity.
Qed.

(* consecutive points of the expanded route are at most one layer apart *)
Fixpoint unit_steps (l : list midx) : Prop :=
  match l with p :: (q :: _) as r => -1 <= mz q - mz p <= 1 /\ unit_steps r | _ => True end.
Lemma unit_steps_cons p q r : unit_steps (p :: q :: r) <-> -1 <= mz q - mz p <= 1 /\ unit_steps (q :: r).
Proof. reflexivity. Qed.
Lemma expand_hd a r : exists r', expand (a :: r) = a :: r'.
Proof.
  destruct r as [|b r]; [exists []; reflexivity|].
  change (expand (a :: b :: r)) with (step_points a b ++ expand (b :: r)). unfold step_points.
  assert (Ha : forall f : nat -> Z, f O = mz a -> mkMI (mx a) (my a) (f O) = a) by (intros f ->; destruct a; reflexivity).
  destruct (Z.eqb_spec (mz a) (mz b)); [eexists; reflexivity|].
  destruct (Z.ltb_spec (mz a) (mz b)).
  - destruct (Z.to_nat (mz b - mz a)) eqn:Z0; [lia|]. cbn [seq map]. eexists.
    rewrite (Ha (fun k => mz a + Z.of_nat k)) by lia. reflexivity.
  - destruct (Z.to_nat (mz a - mz b)) eqn:Z0; [lia|]. cbn [seq map]. eexists.
    rewrite (Ha (fun k => mz a - Z.of_nat k)) by lia. reflexivity.
Qed.
Lemma steps_chain (f : nat -> midx) r : forall n s,
  (forall k, (s <= k < s + n)%nat -> -1 <= mz (f (Datatypes.S k)) - mz (f k) <= 1) ->
  (forall b r', r = b :: r' -> mz b = mz (f (s + n)%nat)) -> unit_steps r -> unit_steps (map f (seq s n) ++ r).
Proof.
  induction n as [|n IH]; intros s H Hr U; cbn [seq map app]; [exact U|].
  specialize (IH (Datatypes.S s)).
  assert (U' : unit_steps (map f (seq (Datatypes.S s) n) ++ r)).
  { apply IH; [intros k Hk; apply H; lia| |exact U]. intros b r' Hb. rewrite (Hr b r' Hb). f_equal. f_equal. lia. }
  destruct (map f (seq (Datatypes.S s) n) ++ r) as [|q t] eqn:Et; [exact Logic.I|].
  apply unit_steps_cons. split; [|exact U'].
  destruct n as [|n].
  - cbn [seq map app] in Et. rewrite (Hr q t Et). replace (s + 1)%nat with (Datatypes.S s) by lia. apply H; lia.
  - cbn [seq map app] in Et. inversion Et. apply H; lia.
Qed.
Lemma expand_unit path : unit_steps (expand path).
Proof.
  induction path as [|a [|b r] IH]; [exact Logic.I|exact Logic.I|].
  change (expand (a :: b :: r)) with (step_points a b ++ expand (b :: r)).
  destruct (expand_hd b r) as (r' & Er). rewrite Er in *. unfold step_points.
  destruct (Z.eqb_spec (mz a) (mz b)).
  - cbn [app]. apply unit_steps_cons. split; [lia|exact IH].
  - destruct (Z.ltb_spec (mz a) (mz b)).
    + apply steps_chain; [intros k Hk; cbn [mz]; lia| |exact IH]. intros c t Ht. inversion Ht; subst. cbn [mz]. lia.
    + apply steps_chain; [intros k Hk; cbn [mz]; lia| |exact IH]. intros c t Ht. inversion Ht; subst. cbn [mz]. lia.
Qed.

(* the stretches in order *)
Fixpoint segs (pre st : list midx) (prev : midx) (rest : list midx) : list (list midx * list midx * list midx) :=
  match rest with
  | [] => [(pre, st, [])]
  | p :: rest' => if mz p =? mz prev then segs pre (st ++ [p]) p rest'
                  else (pre, st, rest) :: segs (pre ++ st) [p] p rest'
  end.

(* invariants of the point in the route that the loop is at *)
Record at_stretch (pre st : list midx) (prev : midx) : Prop := mkAt {
  as_last : exists st', st = st' ++ [prev];
  as_z : forall p, In p st -> mz p = mz prev;
  as_pre : forall q pre', pre = pre' ++ [q] -> mz q <> mz prev }.
Lemma at_start p : at_stretch [] [p] p.
Proof.
  constructor; [exists []; reflexivity|intros q [->|[]]; reflexivity|intros q pre' H].
  apply app_cons_not_nil in H. elim H.
Qed.
Lemma at_same pre st prev p : at_stretch pre st prev -> mz p = mz prev -> at_stretch pre (st ++ [p]) p.
Proof.
  intros [L Z P] E. constructor; [exists st; reflexivity| |].
  - intros q I. apply in_app_or in I. destruct I as [I|[->|[]]]; [rewrite E; apply Z, I|reflexivity].
  - intros q pre' H. rewrite E. eapply P, H.
Qed.
Lemma at_next pre st prev p : at_stretch pre st prev -> mz p <> mz prev -> at_stretch (pre ++ st) [p] p.
Proof.
  intros [(st' & ->) Z P] E. constructor; [exists []; reflexivity|intros q [->|[]]; reflexivity|].
  intros q pre' H. rewrite app_assoc in H. apply app_inj_tail in H. destruct H as (_ & <-). congruence.
Qed.

Lemma at_nonempty pre st prev : at_stretch pre st prev -> st <> [].
Proof. intros [(s & ->) _ _] H. symmetry in H. apply app_cons_not_nil in H. exact H. Qed.

(* the stretches listed are the stretches of the route *)
Lemma segs_sound pts rest : forall pre st prev, at_stretch pre st prev -> pts = pre ++ st ++ rest ->
  forall a b c, In (a, b, c) (segs pre st prev rest) -> stretch pts a b c.
Proof.
  induction rest as [|p rest IH]; intros pre st prev A Hp a b c I; cbn [segs] in I.
  - destruct I as [I|[]]. inversion I; subst a b c. split; [exact Hp|]. split; [eapply at_nonempty; eauto|].
    exists (mz prev). destruct A as [_ Z P]. split; [exact Z|]. split; [exact P|discriminate].
  - destruct (Z.eqb_spec (mz p) (mz prev)) as [Ez|Nz].
    + eapply IH; [eapply at_same; eauto| |exact I]. rewrite Hp, <- app_assoc. reflexivity.
    + destruct I as [I|I].
      * inversion I; subst a b c. split; [exact Hp|]. split; [eapply at_nonempty; eauto|].
        exists (mz prev). destruct A as [_ Z P]. split; [exact Z|]. split; [exact P|].
        intros q post' H. inversion H; subst. exact Nz.
      * eapply IH; [eapply at_next; eauto| |exact I]. rewrite Hp, <- app_assoc. reflexivity.
Qed.
Lemma stretch_pre_cases (X : Type) (pre st rest a b c : list X) : pre ++ st ++ rest = a ++ b ++ c ->
  (length pre <= length a)%nat -> exists m, a = pre ++ m /\ st ++ rest = m ++ b ++ c.
Proof.
  revert a. induction pre as [|x pre IH]; intros a H L; [exists a; split; [reflexivity|exact H]|].
  destruct a as [|y a]; [cbn in L; lia|]. cbn [app] in H. inversion H; subst y.
  destruct (IH a H2 ltac:(cbn in L; lia)) as (m & -> & Em). exists m. split; [reflexivity|exact Em].
Qed.
Lemma app_split (X : Type) (a b c d : list X) : a ++ b = c ++ d ->
  (exists m, c = a ++ m /\ b = m ++ d) \/ (exists m, m <> [] /\ a = c ++ m /\ d = m ++ b).
Proof.
  revert c. induction a as [|x a IH]; intros c H.
  - left. exists c. split; [reflexivity|exact H].
  - destruct c as [|y c].
    + right. exists (x :: a). split; [discriminate|]. split; [reflexivity|]. symmetry. exact H.
    + cbn [app] in H. inversion H; subst y. destruct (IH c H2) as [(m & -> & ->)|(m & N & -> & ->)].
      * left. exists m. split; reflexivity.
      * right. exists m. repeat split; auto.
Qed.
(* a stretch that begins with the points [st] since the last change of layer *)
Lemma segs_complete_here pts rest : forall pre st prev, at_stretch pre st prev -> pts = pre ++ st ++ rest ->
  forall b c, stretch pts pre b c -> In (pre, b, c) (segs pre st prev rest).
Proof.
  induction rest as [|p rest IH]; intros pre st prev A Hp b c S.
  - destruct S as (S1 & S2 & z & Sz & Spre & Spost).
    rewrite Hp, app_nil_r in S1. apply app_inv_head in S1. subst st.
    destruct c as [|q c].
    + rewrite app_nil_r. left. reflexivity.
    + exfalso. destruct A as [_ Z _]. destruct b as [|x b]; [congruence|].
      apply (Spost q c eq_refl). rewrite <- (Sz x (or_introl eq_refl)).
      rewrite (Z q), (Z x); [reflexivity|left; reflexivity|apply in_or_app; right; left; reflexivity].
  - cbn [segs]. destruct (Z.eqb_spec (mz p) (mz prev)) as [Ez|Nz].
    + apply IH; [eapply at_same; eauto|rewrite Hp, <- app_assoc; reflexivity|exact S].
    + left. destruct S as (S1 & S2 & z & Sz & Spre & Spost).
      rewrite Hp in S1. apply app_inv_head in S1. pose proof (at_nonempty _ _ _ A) as NE.
      destruct A as [(st' & Est) Z _].
      assert (zz : z = mz prev).
      { destruct st as [|x st]; [congruence|]. destruct b as [|y b]; [congruence|]. cbn [app] in S1. inversion S1; subst y.
        rewrite <- (Sz x (or_introl eq_refl)). apply Z. left; reflexivity. }
      apply app_split in S1. destruct S1 as [(m & Eb & Er)|(m & Nm & Eb & Er)].
      * destruct m as [|x m].
        { rewrite app_nil_r in Eb. cbn [app] in Er. subst. reflexivity. }
        { exfalso. cbn [app] in Er. inversion Er; subst x. apply Nz. rewrite <- zz. apply Sz. rewrite Eb.
          apply in_or_app. right; left; reflexivity. }
      * exfalso. destruct m as [|x m]; [congruence|]. cbn [app] in Er. apply (Spost x _ Er). rewrite zz. apply Z.
        rewrite Eb. apply in_or_app. right; left; reflexivity.
Qed.
Lemma segs_complete pts rest : forall pre st prev, at_stretch pre st prev -> pts = pre ++ st ++ rest ->
  forall a b c, stretch pts a b c -> (length pre <= length a)%nat -> In (a, b, c) (segs pre st prev rest).
Proof.
  induction rest as [|p rest IH]; intros pre st prev A Hp a b c S L.
  - pose proof S as (S1 & S2 & z & Sz & Spre & Spost). rewrite Hp in S1.
    destruct (stretch_pre_cases _ _ _ _ _ _ _ S1 L) as (m & Ea & Em).
    destruct m as [|x m]; [rewrite app_nil_r in Ea; subst a; eapply segs_complete_here; eauto|].
    exfalso. rewrite app_nil_r in Em.
    destruct (exists_last (l := x :: m) ltac:(discriminate)) as (m' & y & Ey).
    destruct b as [|u b]; [congruence|].
    apply (Spre y (pre ++ m')).
    + rewrite Ea, Ey, app_assoc. reflexivity.
    + rewrite <- (Sz u (or_introl eq_refl)). destruct A as [_ Z _].
      rewrite (Z y), (Z u); [reflexivity| |]; rewrite Em, ?Ey; apply in_or_app.
      * right; left; reflexivity.
      * left. apply in_or_app. right; left; reflexivity.
  - pose proof S as (S1 & S2 & z & Sz & Spre & Spost). rewrite Hp in S1.
    destruct (stretch_pre_cases _ _ _ _ _ _ _ S1 L) as (m & Ea & Em).
    destruct m as [|x m]; [rewrite app_nil_r in Ea; subst a; eapply segs_complete_here; eauto|].
    cbn [segs]. destruct (Z.eqb_spec (mz p) (mz prev)) as [Ez|Nz].
    + apply IH; [eapply at_same; eauto|rewrite Hp, <- app_assoc; reflexivity|exact S|exact L].
    + right. apply IH; [eapply at_next; eauto|rewrite Hp, <- app_assoc; reflexivity|exact S|].
      rewrite Ea, !app_length.
      apply app_split in Em. destruct Em as [(m2 & E2 & E3)|(m2 & N2 & E2 & E3)].
      * rewrite E2, app_length. lia.
      * exfalso. destruct m2 as [|y m2]; [congruence|].
        destruct (exists_last (l := x :: m) ltac:(discriminate)) as (m' & u & Eu).
        destruct b as [|v b]; [congruence|]. cbn [app] in E3. inversion E3; subst v.
        apply (Spre u (pre ++ m')).
        { rewrite Ea, Eu, app_assoc. reflexivity. }
        { rewrite <- (Sz y (or_introl eq_refl)). destruct A as [_ Z _].
          rewrite (Z u), (Z y); [reflexivity| |]; rewrite E2, ?Eu; apply in_or_app.
          - right; left; reflexivity.
          - left. apply in_or_app. right; left; reflexivity. }
Qed.
Lemma segs_pre rest : forall pre st prev a b c, In (a, b, c) (segs pre st prev rest) -> (length pre <= length a)%nat.
Proof.
  induction rest as [|p rest IH]; intros pre st prev a b c I; cbn [segs] in I.
  - destruct I as [I|[]]. inversion I. lia.
  - destruct (mz p =? mz prev); [eapply IH; eauto|]. destruct I as [I|I]; [inversion I; lia|].
    apply IH in I. rewrite app_length in I. lia.
Qed.
Lemma segs_NoDup rest : forall pre st prev, at_stretch pre st prev -> NoDup (segs pre st prev rest).
Proof.
  induction rest as [|p rest IH]; intros pre st prev A; cbn [segs].
  - constructor; [intros []|constructor].
  - destruct (Z.eqb_spec (mz p) (mz prev)); [apply IH; eapply at_same; eauto|].
    constructor; [|apply IH; eapply at_next; eauto].
    intros I. apply segs_pre in I. rewrite app_length in I. pose proof (at_nonempty _ _ _ A) as N.
    destruct st; [congruence|]. cbn in I. lia.
Qed.
