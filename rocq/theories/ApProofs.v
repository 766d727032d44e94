(* Coordinate maps, and the track coordinates of a layer. *)
From Verif Require Import Base GeomModel GridModel ApModel ApSpec.

(* --- sorted association lists ---------------------------------------------------------------- *)
Fixpoint cs (m : cmap) : Prop :=
  match m with [] => True | (k, _) :: r => (forall k' v', In (k', v') r -> k < k') /\ cs r end.

Lemma cfind_In m : cs m -> forall k v, cfind k m = Some v <-> In (k, v) m.
Proof.
  induction m as [|[k0 v0] m IH]; cbn [cs cfind In]; intros [] k v || intros C k v.
  - split; [discriminate | tauto].
  - destruct (Z.eqb_spec k k0) as [->|N].
    + split; [intros Q; injection Q as ->; auto|]. intros [Q|Q]; [congruence|]. specialize (H _ _ Q). lia.
    + rewrite (IH H0). split; [auto|]. intros [Q|Q]; [congruence|auto].
Qed.

Lemma cfind_lt m k : (forall k' v', In (k', v') m -> k < k') -> cfind k m = None.
Proof.
  induction m as [|[a b] m IH]; cbn [cfind]; auto. intros H.
  pose proof (H a b (or_introl eq_refl)). destruct (Z.eqb_spec k a); [lia|]. apply IH. intros; eapply H; right; eauto.
Qed.

Lemma cfind_cupd f k0 m : cs m -> forall k, cfind k (cupd f k0 m) = if k =? k0 then Some (f (cfind k0 m)) else cfind k m.
Proof.
  induction m as [|[a b] m IH]; cbn [cs cfind cupd]; intros C k.
  - destruct (k =? k0); auto.
  - destruct C as [C1 C2]. destruct (Z.ltb_spec k0 a).
    + cbn [cfind]. destruct (Z.eqb_spec k k0) as [->|].
      * destruct (Z.eqb_spec k0 a); [lia|]. rewrite (cfind_lt m k0); auto. intros k' v' I. specialize (C1 _ _ I). lia.
      * auto.
    + destruct (Z.eqb_spec k0 a) as [->|].
      * cbn [cfind]. destruct (Z.eqb_spec k a); auto.
      * cbn [cfind]. rewrite (IH C2). destruct (Z.eqb_spec k a) as [->|]; auto. destruct (Z.eqb_spec a k0); [lia|auto].
Qed.

Lemma cupd_keys f k0 m k v : In (k, v) (cupd f k0 m) -> k = k0 \/ In (k, v) m.
Proof.
  induction m as [|[a b] m IH]; cbn [cupd In].
  - intros [Q|[]]. injection Q as <- _. auto.
  - destruct (k0 <? a); [cbn [In]; intros [Q|Q]; [injection Q as <- _; auto | tauto]|].
    destruct (Z.eqb_spec k0 a) as [->|]; cbn [In]; intros [Q|Q]; auto.
    + injection Q as <- _; auto.
    + destruct (IH Q); auto.
Qed.

Lemma cs_cupd f k0 m : cs m -> cs (cupd f k0 m).
Proof.
  induction m as [|[a b] m IH]; cbn [cs cupd]; intros C.
  - split; [intros ? ? [] | auto].
  - destruct C as [C1 C2]. destruct (Z.ltb_spec k0 a).
    + cbn [cs]. split; [|auto]. intros k' v' [Q|Q]; [injection Q as <- _; auto|]. specialize (C1 _ _ Q). lia.
    + destruct (Z.eqb_spec k0 a) as [->|]; cbn [cs]; split; auto.
      intros k' v' Q. apply cupd_keys in Q. destruct Q as [->|Q]; [lia | eauto].
Qed.

Lemma cseg_In lo hi m k v : In (k, v) (cseg lo hi m) -> In (k, v) m.
Proof.
  induction m as [|[a b] m IH]; cbn [cseg In]; auto. destruct (a <? lo); auto. destruct (hi <? a); cbn [In]; tauto.
Qed.
Lemma cs_cseg lo hi m : cs m -> cs (cseg lo hi m).
Proof.
  induction m as [|[a b] m IH]; cbn [cs cseg]; auto. intros [C1 C2].
  destruct (a <? lo); auto. destruct (hi <? a); cbn [cs]; auto. split; auto. intros k v I. eapply C1, cseg_In, I.
Qed.
Lemma cfind_cseg lo hi m : cs m -> forall k, cfind k (cseg lo hi m) = if (lo <=? k) && (k <=? hi) then cfind k m else None.
Proof.
  induction m as [|[a b] m IH]; cbn [cs cfind cseg]; intros C k.
  - destruct (_ && _); auto.
  - destruct C as [C1 C2]. destruct (Z.ltb_spec a lo).
    + rewrite (IH C2). destruct (Z.eqb_spec k a) as [->|]; auto.
      destruct ((lo <=? a) && (a <=? hi)) eqn:Q; [lia|auto].
    + destruct (Z.ltb_spec hi a).
      * cbn [cfind]. destruct ((lo <=? k) && (k <=? hi)) eqn:Q; auto. destruct (Z.eqb_spec k a); [lia|].
        symmetry; apply cfind_lt. intros k' v' I. specialize (C1 _ _ I). lia.
      * cbn [cfind]. destruct (Z.eqb_spec k a) as [->|]; [|apply (IH C2)].
        destruct ((lo <=? a) && (a <=? hi)) eqn:Q; [auto|lia].
Qed.

(* folds of writes *)
Lemma cs_fold {A} (f : A -> cmap -> cmap) l : (forall a m, cs m -> cs (f a m)) -> forall m, cs m -> cs (fold_left (fun m a => f a m) l m).
Proof. intros H. induction l as [|a l IH]; cbn; auto. Qed.
Lemma cput_all v (cc : list Z) : forall m, cs m -> forall c,
  cfind c (fold_left (fun m c => cput c v m) cc m) = if existsb (Z.eqb c) cc then Some v else cfind c m.
Proof.
  induction cc as [|a cc IH]; cbn [fold_left existsb]; intros m C c; auto.
  rewrite IH by (apply cs_cupd; auto). unfold cput at 1. rewrite cfind_cupd by auto.
  destruct (Z.eqb_spec c a); cbn [orb]; destruct (existsb _ cc); auto.
Qed.
Lemma existsb_In c cc : existsb (Z.eqb c) cc = true <-> In c cc.
Proof.
  rewrite existsb_exists. split; [intros (x & I & Q); apply Z.eqb_eq in Q; subst; auto | intros I; exists c; split; auto; lia].
Qed.

(* --- the tracks of a layer --------------------------------------------------------------------- *)
Lemma track_coords_In t c : In c (track_coords t) <-> exists k, 0 <= k < tp_num t /\ c = tp_start t + k * tp_space t.
Proof.
  unfold track_coords. rewrite in_map_iff. split.
  - intros (k & <- & I). apply in_seq in I. exists (Z.of_nat k). split; [lia|auto].
  - intros (k & K & ->). exists (Z.to_nat k). rewrite Z2Nat.id by lia. split; auto. apply in_seq. lia.
Qed.

Lemma full_aux E l ts : forall m, cs m ->
  let m' := fold_left (fun m t => if (tp_layer t =? l) && Bool.eqb (negb (e_horz E l)) (tp_vert t)
                        then fold_left (fun m c => cput c 0 m) (track_coords t) m else m) ts m in
  cs m' /\ forall c v, cfind c m' = Some v <->
    ((exists t k, In t ts /\ tp_layer t = l /\ tp_vert t = negb (e_horz E l) /\ 0 <= k < tp_num t /\ c = tp_start t + k * tp_space t) /\ v = 0) \/
    ((~ exists t k, In t ts /\ tp_layer t = l /\ tp_vert t = negb (e_horz E l) /\ 0 <= k < tp_num t /\ c = tp_start t + k * tp_space t) /\ cfind c m = Some v).
Proof.
  induction ts as [|t ts IH]; cbn [fold_left]; intros m C.
  - split; auto. intros c v. split.
    + intros Q. right. split; auto. intros (t & k & [] & _).
    + intros [[(t & k & [] & _) _]|[_ Q]]; auto.
  - set (m1 := if _ && _ then _ else m).
    assert (C1 : cs m1) by (unfold m1; destruct (_ && _); auto; apply cs_fold; auto; intros; apply cs_cupd; auto).
    destruct (IH m1 C1) as [C2 F]. split; [exact C2|]. intros c v. rewrite F.
    assert (F1 : forall w, cfind c m1 = Some w <->
       ((tp_layer t = l /\ tp_vert t = negb (e_horz E l) /\ exists k, 0 <= k < tp_num t /\ c = tp_start t + k * tp_space t) /\ w = 0) \/
       (~ (tp_layer t = l /\ tp_vert t = negb (e_horz E l) /\ exists k, 0 <= k < tp_num t /\ c = tp_start t + k * tp_space t) /\ cfind c m = Some w)).
    { intros w. unfold m1. destruct ((tp_layer t =? l) && Bool.eqb (negb (e_horz E l)) (tp_vert t)) eqn:B.
      - apply andb_prop in B. destruct B as [B1 B2]. apply Bool.eqb_prop in B2. apply Z.eqb_eq in B1.
        rewrite cput_all by auto. destruct (existsb (Z.eqb c) (track_coords t)) eqn:X.
        + apply existsb_In, track_coords_In in X. split.
          * intros Q; injection Q as <-. left. split; auto.
          * intros [[_ ->]|[N _]]; auto. exfalso; apply N; auto.
        + split; [|intros [[(_ & _ & K) _]|[_ Q]]; auto].
          * intros Q. right. split; auto. intros (_ & _ & K). apply track_coords_In, existsb_In in K. congruence.
          * apply track_coords_In, existsb_In in K. congruence.
      - split; [intros Q; right; split; auto | intros [[K _]|[_ Q]]; auto].
        + intros (A1 & A2 & _). rewrite A2, A1, Z.eqb_refl, Bool.eqb_reflx in B. discriminate.
        + destruct K as (A1 & A2 & _). rewrite A2, A1, Z.eqb_refl, Bool.eqb_reflx in B. discriminate. }
    rewrite F1. split.
    + intros [[(t' & k & I & R) ->]|[N [[(A1 & A2 & k & K) ->]|[N1 Q]]]].
      * left. split; auto. exists t', k. split; [right|]; auto.
      * left. split; auto. exists t, k. split; [left|]; auto.
      * right. split; auto. intros (t' & k & [->|I] & R); [apply N1; destruct R as (R1 & R2 & R3); eauto|].
        apply N. eauto.
    + intros [[(t' & k & [->|I] & R) ->]|[N Q]].
      * destruct (cfind c (fold_left (fun (m0 : cmap) (t : track) => if (tp_layer t =? l) && Bool.eqb (negb (e_horz E l)) (tp_vert t) then fold_left (fun (m2 : cmap) (c0 : Z) => cput c0 0 m2) (track_coords t) m0 else m0) ts m1)) eqn:Y.
        -- apply F in Y. destruct Y as [[Y ->]|[Y Y2]]; [left; auto|]. right. split; auto. left. split; auto.
           destruct R as (R1 & R2 & R3); eauto.
        -- right. split.
           ++ intros Y1. assert (Some 0 = None -> False) by discriminate.
              assert (Y2 := proj2 (F c 0) (or_introl (conj Y1 eq_refl))). congruence.
           ++ left. split; auto. destruct R as (R1 & R2 & R3); eauto.
      * left. split; eauto.
      * right. split; [intros (t' & k & I & R); apply N; exists t', k; split; [right|]; auto|].
        right. split; auto. intros (A1 & A2 & k & K). apply N. exists t, k. split; [left|]; auto.
Qed.

Lemma cs_full E l : cs (full_coords E l).
Proof. apply (full_aux E l (e_tracks E) []). exact I. Qed.
Lemma full_find E l c v : cfind c (full_coords E l) = Some v <-> on_track E l c /\ v = 0.
Proof.
  destruct (full_aux E l (e_tracks E) [] I) as [_ F]. unfold full_coords. rewrite F. unfold on_track. cbn [cfind]. split.
  - intros [H|[_ H]]; [auto | discriminate].
  - auto.
Qed.
Lemma full_In E l c v : In (c, v) (full_coords E l) <-> on_track E l c /\ v = 0.
Proof. rewrite <- cfind_In by apply cs_full. apply full_find. Qed.

(* --- half-way coordinates ------------------------------------------------------------------------ *)
Lemma half_In g m : cs m -> forall prev h, (forall p, prev = Some p -> forall k v, In (k, v) m -> p < k) ->
  (In h (half_coords g prev m) <->
   exists a b, (prev = Some a \/ exists v, In (a, v) m) /\ (exists v, In (b, v) m) /\ a < b /\
     (forall k v, In (k, v) m -> ~ a < k < b) /\ h = Z.quot (Z.quot (a + b) 2) g * g /\ h <> a /\ h <> b).
Proof.
  induction m as [|[c w] m IH]; cbn [cs half_coords]; intros C prev h P.
  - cbn [In]. split; [tauto|]. intros (a & b & _ & [v []] & _).
  - destruct C as [C1 C2]. rewrite in_app_iff, (IH C2 (Some c) h) by (intros p Q k v I; injection Q as <-; eauto). clear IH.
    split.
    + intros [H|(a & b & A & [vb B] & L & N & Q & R1 & R2)].
      * destruct prev as [p|]; [|destruct H].
        destruct (negb _ && negb _) eqn:X; [|destruct H]. destruct H as [<-|[]].
        exists p, c. split; [auto|]. split; [exists w; left; auto|]. split; [apply (P p eq_refl c w); left; auto|].
        split; [|split; [f_equal; f_equal; f_equal; lia|lia]].
        intros k v [Q|Q]; [injection Q as <- _; lia|]. specialize (C1 _ _ Q). lia.
      * exists a, b. split; [destruct A as [A|[va A]]; [injection A as <-; right; exists w; left; auto | right; exists va; right; auto]|].
        split; [exists vb; right; auto|]. split; auto. split; [|auto].
        intros k v [I|I]; [injection I as <- _ | eauto]. destruct A as [A|[va A]]; [injection A as <-; lia|]. specialize (C1 _ _ A). lia.
    + intros (a & b & A & [vb B] & L & N & Q & R1 & R2).
      destruct B as [B|B].
      * injection B as <- <-. left. destruct A as [->|[va [A|A]]].
        -- rewrite (Z.add_comm c a), <- Q. destruct (negb _ && negb _) eqn:X; [left; auto | lia].
        -- injection A as <- _. lia.
        -- specialize (C1 _ _ A). lia.
      * right. exists a, b. split.
        -- destruct A as [->|[va [A|A]]].
           ++ exfalso. apply (N c w); [left; auto|]. split; [apply (P a eq_refl c w); left; auto | eapply C1; eauto].
           ++ injection A as <- _. auto.
           ++ right; eauto.
        -- split; [eauto|]. split; auto. split; [intros k v I; apply (N k v); right; auto | auto].
Qed.

(* truncation to the grid stays between two multiples *)
Lemma trunc_between g i j x : 0 < g -> i * g <= x <= j * g -> i * g <= Z.quot x g * g <= j * g.
Proof.
  intros G [H1 H2].
  pose proof (Z.quot_rem x g ltac:(lia)) as QR. set (q := Z.quot x g) in *.
  destruct (Z.le_gt_cases 0 x) as [Px|Px].
  - pose proof (Z.rem_bound_pos x g Px G). assert (i <= q) by nia. assert (q <= j) by nia. nia.
  - pose proof (Z.rem_bound_pos (- x) g ltac:(lia) G) as RB. rewrite Z.rem_opp_l in RB by lia. assert (i <= q) by nia. assert (q <= j) by nia. nia.
Qed.
Lemma half_between a b : a < b -> a <= Z.quot (a + b) 2 <= b.
Proof. intros H. pose proof (Z.quot_rem (a + b) 2 ltac:(lia)). pose proof (Z.rem_bound_abs (a+b) 2 ltac:(lia)). lia. Qed.

Lemma half_track_iff E l c : tracks_on_grid E ->
  (In c (half_coords (e_manu E) None (full_coords E l)) <-> half_track E l c).
Proof.
  intros [G T]. rewrite half_In by (try apply cs_full; discriminate). unfold half_track. split.
  - intros (a & b & [A|[va A]] & [vb B] & L & N & Q & R1 & R2); [discriminate|].
    apply full_In in A. apply full_In in B. destruct A as [A _], B as [B _].
    exists a, b. split; auto. split; auto. split; auto.
    split; [intros x X; apply (N x 0); apply full_In; auto|]. split; auto.
    destruct (T _ _ A) as [i Ei], (T _ _ B) as [j Ej].
    pose proof (trunc_between (e_manu E) i j (Z.quot (a + b) 2) G) as TB. pose proof (half_between a b L).
    rewrite <- Ei, <- Ej, <- Q in TB. lia.
  - intros (a & b & A & B & L & N & Q & R). exists a, b.
    split; [right; exists 0; apply full_In; auto|]. split; [exists 0; apply full_In; auto|]. split; auto.
    split; [intros k v I; apply full_In in I; apply N; tauto|]. unfold middle in Q. split; auto. lia.
Qed.

Lemma half_not_track E l c : half_track E l c -> ~ on_track E l c.
Proof. intros (a & b & A & B & L & N & Q & R) T. exact (N c T R). Qed.

(* exactly the tracks cost 0 and the half-way coordinates cost 1 *)
Lemma cs_all E l : cs (all_coords E l).
Proof. apply cs_fold; [intros; apply cs_cupd; auto | apply cs_full]. Qed.
Lemma all_find E l c v : tracks_on_grid E ->
  (cfind c (all_coords E l) = Some v <-> (v = 0 /\ on_track E l c) \/ (v = 1 /\ half_track E l c)).
Proof.
  intros T. unfold all_coords. rewrite cput_all by apply cs_full.
  destruct (existsb (Z.eqb c) (half_coords (e_manu E) None (full_coords E l))) eqn:X.
  - apply existsb_In, half_track_iff in X; auto. split; [intros Q; injection Q as <-; auto|].
    intros [[-> Q]|[-> Q]]; auto. destruct (half_not_track _ _ _ X Q).
  - rewrite full_find. split; [tauto|]. intros [Q|[-> Q]]; [tauto|]. apply half_track_iff, existsb_In in Q; auto. congruence.
Qed.
