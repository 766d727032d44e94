(* The coordinates generated in a rectangle are those of the specified types. *)
From Verif Require Import Base GeomModel GridModel ApModel ApSpec ApProofs.

(* --- genGrid ------------------------------------------------------------------------------------- *)
Lemma insert_all (l : cmap) : forall m, cs m -> cs l ->
  cs (fold_left (fun m e => cinsert (fst e) (snd e) m) l m) /\
  forall c, cfind c (fold_left (fun m e => cinsert (fst e) (snd e) m) l m) =
            match cfind c m with Some w => Some w | None => cfind c l end.
Proof.
  induction l as [|[k v] l IH]; cbn [fold_left cs cfind]; intros m C L.
  - split; auto. intros c. destruct (cfind c m); auto.
  - destruct L as [L1 L2]. cbn [fst snd]. destruct (IH (cinsert k v m) (cs_cupd _ _ _ C) L2) as [A B]. split; auto.
    intros c. rewrite B. unfold cinsert at 1. rewrite cfind_cupd by auto. destruct (Z.eqb_spec c k) as [->|]; [|auto].
    destruct (cfind k m); auto.
Qed.

Lemma grid_find E tl lo hi : tracks_on_grid E ->
  cs (gen_grid (all_coords E tl) lo hi []) /\
  forall c v, cfind c (gen_grid (all_coords E tl) lo hi []) = Some v <->
              lo <= c <= hi /\ ((v = 0 /\ on_track E tl c) \/ (v = 1 /\ half_track E tl c)).
Proof.
  intros T. unfold gen_grid. destruct (insert_all (cseg lo hi (all_coords E tl)) [] I (cs_cseg _ _ _ (cs_all E tl))) as [A B].
  split; auto. intros c v. rewrite B. cbn [cfind]. rewrite cfind_cseg by apply cs_all.
  destruct ((lo <=? c) && (c <=? hi)) eqn:Q.
  - rewrite all_find by auto. assert (lo <= c <= hi) by lia. tauto.
  - split; [discriminate|]. intros [R _]. lia.
Qed.

(* --- genCenter ----------------------------------------------------------------------------------- *)
Lemma two_of (P : Z * Z -> bool) m : cs m ->
  (2 <= Z.of_nat (length (filter P m)) <-> exists a va b vb, a < b /\ In (a, va) m /\ In (b, vb) m /\ P (a, va) = true /\ P (b, vb) = true).
Proof.
  intros C. split.
  - induction m as [|[k v] m IH]; cbn [filter length]; [lia|]. destruct C as [C1 C2]. destruct (P (k, v)) eqn:Q.
    + cbn [length]. intros H. destruct (filter P m) as [|[k2 v2] f] eqn:F; [cbn [length] in H; lia|].
      assert (I : In (k2, v2) (filter P m)) by (rewrite F; left; auto). apply filter_In in I. destruct I as [I J].
      exists k, v, k2, v2. split; [eauto|]. split; [left; auto|]. split; [right; auto|]. auto.
    + intros H. destruct (IH C2 H) as (a & va & b & vb & L & A & B & R). exists a, va, b, vb. split; auto. split; [right; auto|]. split; [right; auto|]. auto.
  - intros (a & va & b & vb & L & A & B & QA & QB).
    assert (IA : In (a, va) (filter P m)) by (apply filter_In; auto).
    assert (IB : In (b, vb) (filter P m)) by (apply filter_In; auto).
    destruct (filter P m) as [|x [|y f]]; [destruct IA| |cbn [length]; lia].
    destruct IA as [->|[]], IB as [Q|[]]. injection Q as Q1 Q2. lia.
Qed.

Lemma center_find E tl lo hi m : tracks_on_grid E -> cs m ->
  (forall c v, cfind c m = Some v <-> lo <= c <= hi /\ ((v = 0 /\ on_track E tl c) \/ (v = 1 /\ half_track E tl c))) ->
  cs (gen_center E lo hi m) /\
  forall c v, lo <= c <= hi ->
    (cfind c (gen_center E lo hi m) = Some v <->
     (v = 0 /\ on_track E tl c) \/ (v = 1 /\ half_track E tl c) \/
     (v = 2 /\ ~ on_track E tl c /\ ~ half_track E tl c /\ center_of E tl lo hi c)).
Proof.
  intros T C F. unfold gen_center.
  pose proof (two_of (fun e => snd e =? 0) (cseg lo hi m) (cs_cseg _ _ _ C)) as TW.
  destruct (Z.leb_spec 2 (Z.of_nat (length (filter (fun e => snd e =? 0) (cseg lo hi m))))) as [L|L].
  - split; auto. intros c v R. rewrite F. split; [tauto|]. intros [H|[H|(-> & _ & _ & _ & N)]]; [tauto|tauto|].
    apply TW in L. destruct L as (a & va & b & vb & L & A & B & QA & QB). cbn [snd] in *.
    apply Z.eqb_eq in QA, QB. subst va vb.
    apply cfind_In in A; [|apply cs_cseg; auto]. apply cfind_In in B; [|apply cs_cseg; auto].
    rewrite cfind_cseg in A, B by auto.
    destruct (_ && _) in A; [|discriminate]. destruct (_ && _) in B; [|discriminate].
    apply F in A. apply F in B. destruct A as [RA [[_ A]|[A _]]]; [|discriminate]. destruct B as [RB [[_ B]|[B _]]]; [|discriminate].
    specialize (N a b A B RA RB). lia.
  - split; [apply cs_cupd; auto|]. intros c v R. unfold cmin. rewrite cfind_cupd by auto. fold (middle E lo hi).
    assert (U : forall a b, on_track E tl a -> on_track E tl b -> lo <= a <= hi -> lo <= b <= hi -> a = b).
    { assert (W : forall a b, a < b -> on_track E tl a -> on_track E tl b -> lo <= a <= hi -> lo <= b <= hi -> False).
      { intros a b AB A B RA RB. enough (2 <= Z.of_nat (length (filter (fun e => snd e =? 0) (cseg lo hi m)))) by lia.
        apply TW. exists a, 0, b, 0. split; auto.
        split; [apply cfind_In; [apply cs_cseg; auto|]; rewrite cfind_cseg by auto; replace ((lo <=? a) && (a <=? hi)) with true by lia; apply F; auto|].
        split; [apply cfind_In; [apply cs_cseg; auto|]; rewrite cfind_cseg by auto; replace ((lo <=? b) && (b <=? hi)) with true by lia; apply F; auto|].
        cbn [snd]. auto. }
      intros a b A B RA RB. destruct (Z.lt_trichotomy a b) as [X|[X|X]]; auto; exfalso; eauto. }
    destruct (Z.eqb_spec c (middle E lo hi)) as [Q|Q].
    + rewrite Q. destruct (cfind (middle E lo hi) m) as [w|] eqn:W.
      * apply F in W. destruct W as [_ [[-> W]|[-> W]]].
        -- change (Z.min 0 2) with 0. split; [intros X; injection X as <-; auto|].
           intros [[-> X]|[[-> X]|(-> & X & _)]]; auto; [destruct (half_not_track _ _ _ X W) | destruct (X W)].
        -- change (Z.min 1 2) with 1. split; [intros X; injection X as <-; auto|].
           intros [[-> X]|[[-> X]|(-> & _ & X & _)]]; auto; [destruct (half_not_track _ _ _ W X) | destruct (X W)].
      * split.
        -- intros X; injection X as <-. right. right. split; auto.
           split; [intros X; assert (Y : cfind (middle E lo hi) m = Some 0) by (apply F; split; [lia|auto]); congruence|].
           split; [intros X; assert (Y : cfind (middle E lo hi) m = Some 1) by (apply F; split; [lia|auto]); congruence|].
           split; [reflexivity|exact U].
        -- intros [[-> X]|[[-> X]|(-> & _)]]; auto; exfalso.
           ++ assert (Y : cfind (middle E lo hi) m = Some 0) by (apply F; split; [lia|auto]); congruence.
           ++ assert (Y : cfind (middle E lo hi) m = Some 1) by (apply F; split; [lia|auto]); congruence.
    + rewrite F. split; [tauto|]. intros [X|[X|(_ & _ & _ & X & _)]]; [tauto|tauto|]. contradiction.
Qed.

(* --- genEnc -------------------------------------------------------------------------------------- *)
Definition fits (r : box) (v : viadef) : Prop :=
  bright (v_box1 v) - bleft (v_box1 v) <= bright r - bleft r /\ btop (v_box1 v) - bbottom (v_box1 v) <= btop r - bbottom r.
Definition flushes (r : box) (horz : bool) (c : Z) (v : viadef) : Prop :=
  if horz then c + btop (v_box1 v) = btop r \/ c + bbottom (v_box1 v) = bbottom r
  else c + bright (v_box1 v) = bright r \/ c + bleft (v_box1 v) = bleft r.

Lemma cmin3_find k m : cs m -> (forall c v, cfind c m = Some v -> v <= 3) ->
  cs (cmin k 3 m) /\ (forall c v, cfind c (cmin k 3 m) = Some v -> v <= 3) /\
  forall c, cfind c (cmin k 3 m) = match cfind c m with Some w => Some w | None => if c =? k then Some 3 else None end.
Proof.
  intros C L. unfold cmin.
  assert (F : forall c, cfind c (cupd (fun o => match o with Some w => Z.min w 3 | None => 3 end) k m) =
    match cfind c m with Some w => Some w | None => if c =? k then Some 3 else None end).
  { intros c. rewrite cfind_cupd by auto. destruct (Z.eqb_spec c k) as [->|].
    - destruct (cfind k m) as [w|] eqn:Q; auto. specialize (L _ _ Q). f_equal. lia.
    - destruct (cfind c m); auto. }
  split; [apply cs_cupd; auto|]. split; [|exact F]. intros c v. rewrite F. specialize (L c). destruct (cfind c m); [auto|].
  destruct (c =? k); [|discriminate]. intros Q; injection Q as <-; lia.
Qed.

Lemma enc_fold r (horz : bool) vs : forall m, cs m -> (forall c v, cfind c m = Some v -> v <= 3) ->
  let m' := fold_left (fun m v =>
    let b := v_box1 v in
    if (bright b - bleft b >? bright r - bleft r) || (btop b - bbottom b >? btop r - bbottom r) then m
    else if horz then cmin (bbottom r + (0 - bbottom b)) 3 (cmin (btop r - (btop b - 0)) 3 m)
    else cmin (bleft r + (0 - bleft b)) 3 (cmin (bright r - (bright b - 0)) 3 m)) vs m in
  cs m' /\
  forall c w, cfind c m' = Some w <->
    cfind c m = Some w \/ (cfind c m = None /\ w = 3 /\ exists v, In v vs /\ fits r v /\ flushes r horz c v).
Proof.
  induction vs as [|v vs IH]; cbn [fold_left]; intros m C L.
  - split; auto. intros c w. split; auto. intros [H|(_ & _ & v & [] & _)]; auto.
  - set (m1 := let b := v_box1 v in
    if (bright b - bleft b >? bright r - bleft r) || (btop b - bbottom b >? btop r - bbottom r) then m
    else if horz then cmin (bbottom r + (0 - bbottom b)) 3 (cmin (btop r - (btop b - 0)) 3 m)
    else cmin (bleft r + (0 - bleft b)) 3 (cmin (bright r - (bright b - 0)) 3 m)).
    assert (H1 : cs m1 /\ (forall c w, cfind c m1 = Some w -> w <= 3) /\
      forall c w, cfind c m1 = Some w <-> cfind c m = Some w \/ (cfind c m = None /\ w = 3 /\ fits r v /\ flushes r horz c v)).
    { unfold m1. cbv zeta. destruct (_ || _) eqn:X.
      - split; auto. split; auto. intros c w. split; auto. intros [H|(_ & _ & F & _)]; auto. unfold fits in F. lia.
      - assert (FT : fits r v) by (unfold fits; lia).
        assert (G : forall k1 k2, (forall c, flushes r horz c v <-> c = k1 \/ c = k2) ->
          cs (cmin k2 3 (cmin k1 3 m)) /\ (forall c w, cfind c (cmin k2 3 (cmin k1 3 m)) = Some w -> w <= 3) /\
          forall c w, cfind c (cmin k2 3 (cmin k1 3 m)) = Some w <-> cfind c m = Some w \/ (cfind c m = None /\ w = 3 /\ fits r v /\ flushes r horz c v)).
        { intros k1 k2 FL. destruct (cmin3_find k1 m C L) as (A1 & A2 & A3). destruct (cmin3_find k2 _ A1 A2) as (B1 & B2 & B3).
          split; auto. split; auto. intros c w. rewrite B3, A3, FL. destruct (cfind c m) as [u|].
          - split; auto. intros [H|(H & _)]; [auto|discriminate].
          - split.
            + destruct (Z.eqb_spec c k1), (Z.eqb_spec c k2); intros Q; try discriminate; injection Q as <-; right; auto.
            + intros [H|(_ & -> & _ & [->| ->])]; [discriminate| |].
              * rewrite Z.eqb_refl. auto.
              * destruct (k2 =? k1); auto. rewrite Z.eqb_refl. auto. }
        destruct horz; apply G; intros c; unfold flushes; lia. }
    destruct H1 as (C1 & L1 & F1). destruct (IH m1 C1 L1) as [C2 F2]. split; [exact C2|].
    intros c w. rewrite F2. rewrite F1.
    assert (N1 : cfind c m1 = None <-> cfind c m = None /\ ~ (fits r v /\ flushes r horz c v)).
    { split.
      - intros H. split.
        + destruct (cfind c m) as [u|] eqn:Q; auto. assert (cfind c m1 = Some u) by (apply F1; auto). congruence.
        + intros [X Y]. destruct (cfind c m) as [u|] eqn:Q.
          * assert (cfind c m1 = Some u) by (apply F1; auto). congruence.
          * assert (cfind c m1 = Some 3) by (apply F1; auto). congruence.
      - intros [H X]. destruct (cfind c m1) as [u|] eqn:Q; auto. apply F1 in Q. destruct Q as [Q|(_ & _ & Q)]; [congruence|tauto]. }
    rewrite N1. split.
    + intros [[H|(H & -> & X)]|((H & _) & -> & u & I & X)]; auto.
      * right. split; auto. split; auto. exists v. split; [left|]; auto.
      * right. split; auto. split; auto. exists u. split; [right|]; auto.
    + intros [H|(H & -> & u & [<- |I] & X)]; auto.
      assert (D : fits r v /\ flushes r horz c v \/ ~ (fits r v /\ flushes r horz c v)).
      { destruct (cfind c m1) as [z|] eqn:Q; [|tauto]. apply F1 in Q. destruct Q as [Q|(_ & _ & Q)]; [congruence|tauto]. }
      destruct D; [left; right; auto|]. right. split; auto. split; auto. exists u; auto.
Qed.

(* --- both coordinate maps ---------------------------------------------------------------------------- *)
Section Coords.
Variables (E : aenv) (T : tracks_on_grid E).

Lemma coord_type_fun tl lo hi (P : Z -> Prop) c t t' : coord_type E tl lo hi P c t -> coord_type E tl lo hi P c t' -> t = t'.
Proof.
  unfold coord_type. intros [_ A] [_ B]. assert (N := half_not_track E tl c). assert (M : t = 0 \/ t = 1 \/ t = 2 \/ t = 3) by tauto.
  assert (M' : t' = 0 \/ t' = 1 \/ t' = 2 \/ t' = 3) by tauto.
  destruct M as [->|[->|[->| ->]]], M' as [->|[->|[->| ->]]]; auto; exfalso; lia || intuition (discriminate || tauto).
Qed.

Definition lowP (r : box) (l c : Z) : Prop := flush E r l (e_horz E l) c.

Lemma low_find r l lt c lo hi : 0 <= lt <= 3 -> low_range E r l = (lo, hi) -> lo <= c <= hi ->
  cs (low_coords E r l false lt) /\
  (cfind c (low_coords E r l false lt) = Some lt <-> coord_type E l lo hi (lowP r l) c lt).
Proof.
  intros LT RG R. unfold low_coords. rewrite RG. cbv zeta.
  destruct (grid_find E l lo hi T) as [G1 G2]. destruct (center_find E l lo hi _ T G1 G2) as [C1 C2].
  pose proof (half_not_track E l c) as HN. unfold coord_type.
  assert (lt = 0 \/ lt = 1 \/ lt = 2 \/ lt = 3) as [->|[->|[->| ->]]] by lia.
  - change (0 >=? 3) with false. change (0 >=? 2) with false. cbv iota. split; auto. rewrite G2.
    intuition (lia || discriminate || tauto).
  - change (1 >=? 3) with false. change (1 >=? 2) with false. cbv iota. split; auto. rewrite G2.
    intuition (lia || discriminate || tauto).
  - change (2 >=? 3) with false. change (2 >=? 2) with true. cbv iota. split; auto. rewrite C2 by auto.
    intuition (lia || discriminate || tauto).
  - change (3 >=? 3) with true. change (3 >=? 2) with true. cbv iota.
    assert (FL : forall c', lowP r l c' <-> l + 1 <= e_top E /\ exists v, In v (first_vias E l) /\ fits r v /\ flushes r (e_horz E l) c' v).
    { intros c'. unfold lowP, flush, fits, flushes, first_vias. split; intros (A & v & B); split; auto; exists v; tauto. }
    unfold gen_enc. destruct (Z.gtb_spec (l + 1) (e_top E)).
    + split; auto. rewrite C2 by auto. rewrite FL. intuition (lia || discriminate || tauto).
    + assert (L3 : forall c0 v, cfind c0 (gen_center E lo hi (gen_grid (all_coords E l) lo hi [])) = Some v -> v <= 3).
      { intros c0 v. unfold gen_center. destruct (2 <=? _).
        - intros Q. apply G2 in Q. lia.
        - unfold cmin. rewrite cfind_cupd by auto. destruct (c0 =? _).
          + destruct (cfind _ _) as [w|]; intros Q; injection Q as <-; lia.
          + intros Q. apply G2 in Q. lia. }
      destruct (enc_fold r (e_horz E l) (first_vias E l) _ C1 L3) as [A B]. cbv zeta in A, B. split; [exact A|]. rewrite B. rewrite FL.
      split.
      * intros [Q|(Q & _ & X)].
        { apply C2 in Q; auto. intuition discriminate. }
        { split; auto. right. right. right. split; auto.
          split; [intros Y; assert (cfind c (gen_center E lo hi (gen_grid (all_coords E l) lo hi [])) = Some 0) by (apply C2; auto); congruence|].
          split; [intros Y; assert (cfind c (gen_center E lo hi (gen_grid (all_coords E l) lo hi [])) = Some 1) by (apply C2; auto); congruence|].
          split; [|split; [lia|exact X]].
          intros Y.
          destruct (cfind c (gen_grid (all_coords E l) lo hi [])) as [u|] eqn:U.
          - apply G2 in U. destruct U as [_ U].
            assert (cfind c (gen_center E lo hi (gen_grid (all_coords E l) lo hi [])) = Some u) by (apply C2; tauto). congruence.
          - assert (cfind c (gen_center E lo hi (gen_grid (all_coords E l) lo hi [])) = Some 2); [|congruence].
            apply C2; auto. right. right. split; auto.
            split; [intros Z; assert (cfind c (gen_grid (all_coords E l) lo hi []) = Some 0) by (apply G2; auto); congruence|].
            split; [intros Z; assert (cfind c (gen_grid (all_coords E l) lo hi []) = Some 1) by (apply G2; auto); congruence|auto]. }
      * intros (_ & [(Q & _)|[(Q & _)|[(Q & _)|(_ & X1 & X2 & X3 & X4 & X5)]]]); try discriminate. right.
        split; [|split; auto].
        destruct (cfind c (gen_center E lo hi (gen_grid (all_coords E l) lo hi []))) as [u|] eqn:Q; auto.
        apply C2 in Q; auto. tauto.
Qed.

Lemma high_find r l l2 ut c lo hi : 0 <= ut <= 2 -> high_range E r l = (lo, hi) -> lo <= c <= hi ->
  cs (high_coords E r l l2 ut) /\
  (cfind c (high_coords E r l l2 ut) = Some ut <-> coord_type E l2 lo hi (fun _ => False) c ut).
Proof.
  intros LT RG R. unfold high_coords. rewrite RG. cbv zeta.
  destruct (grid_find E l2 lo hi T) as [G1 G2]. destruct (center_find E l2 lo hi _ T G1 G2) as [C1 C2].
  pose proof (half_not_track E l2 c) as HN. unfold coord_type.
  assert (ut = 0 \/ ut = 1 \/ ut = 2) as [->|[->| ->]] by lia.
  - change (0 >=? 3) with false. change (0 >=? 2) with false. cbv iota. split; auto. rewrite G2.
    intuition (lia || discriminate || tauto).
  - change (1 >=? 3) with false. change (1 >=? 2) with false. cbv iota. split; auto. rewrite G2.
    intuition (lia || discriminate || tauto).
  - change (2 >=? 3) with false. change (2 >=? 2) with true. cbv iota. split; auto. rewrite C2 by auto.
    intuition (lia || discriminate || tauto).
Qed.

(* the centre line *)
Lemma center_line_find r l lo hi lt c v : low_range E r l = (lo, hi) ->
  (In (c, v) (low_coords E r l true lt) <-> c = middle E lo hi /\ v = 0).
Proof.
  intros RG. unfold low_coords. rewrite RG. unfold gen_center. cbn [cseg filter length]. change (2 <=? Z.of_nat 0) with false. cbv iota.
  unfold cmin. cbn [cupd map fst In]. fold (middle E lo hi). split; [intros [Q|[]]; injection Q as <- <-; auto|].
  intros [-> ->]. auto.
Qed.
End Coords.
