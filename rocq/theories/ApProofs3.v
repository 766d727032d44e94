(* One round of generation makes exactly the places of its types, each once. *)
From Verif Require Import Base GeomModel GridModel ApModel ApSpec ApProofs ApProofs2.

Definition key (a : ap) : point * Z := (ap_pt a, ap_layer a).

Lemma in_set_In s p l : in_set s p l = true <-> In (p, l) s.
Proof.
  unfold in_set. rewrite existsb_exists. split.
  - intros ([[x y] l'] & I & Q). cbn [fst snd] in Q. unfold pt_eq in Q. destruct p as [x' y']. cbn [px py] in Q.
    replace x' with x by lia. replace y' with y by lia. replace l with l' by lia. auto.
  - intros I. exists (p, l). split; auto. cbn [fst snd]. unfold pt_eq. lia.
Qed.

(* --- extensions of the state ------------------------------------------------------------------- *)
Definition ext (Q : ap -> Prop) (K : point -> Z -> Prop) (st st' : gst) : Prop :=
  exists new, fst st' = fst st ++ new /\ (forall a, In a new -> Q a /\ ~ In (key a) (snd st)) /\ NoDup (map key new) /\
    (forall k, In k (snd st') <-> In k (snd st) \/ In k (map key new)) /\ (forall p l, K p l -> In (p, l) (snd st')).

Lemma ext_refl Q st : ext Q (fun _ _ => False) st st.
Proof.
  exists []. rewrite app_nil_r. split; auto. split; [intros a []|]. split; [constructor|].
  split; [intros k; cbn; tauto | intros p l []].
Qed.
Lemma NoDup_app2 {A} (l l' : list A) : NoDup l -> NoDup l' -> (forall x, In x l -> ~ In x l') -> NoDup (l ++ l').
Proof.
  induction 1 as [|x l N D IH]; cbn; auto. intros D' H. constructor.
  - rewrite in_app_iff. intros [I|I]; [auto|]. exact (H x (or_introl eq_refl) I).
  - apply IH; auto.
Qed.
Lemma ext_trans Q K1 K2 st st1 st2 : ext Q K1 st st1 -> ext Q K2 st1 st2 -> ext Q (fun p l => K1 p l \/ K2 p l) st st2.
Proof.
  intros (n1 & A1 & B1 & C1 & D1 & F1) (n2 & A2 & B2 & C2 & D2 & F2). exists (n1 ++ n2).
  split; [rewrite A2, A1, app_assoc; auto|]. split.
  { intros a. rewrite in_app_iff. intros [I|I]; [apply B1; auto|]. destruct (B2 a I) as [X Y]. split; auto.
    intros Z. apply Y, D1. auto. }
  rewrite map_app. split.
  { apply NoDup_app2; auto. intros k I J. apply in_map_iff in J. destruct J as (a & <- & J). destruct (B2 a J) as [_ Y].
    apply Y, D1. auto. }
  split.
  { intros k. rewrite D2, D1, in_app_iff. tauto. }
  intros p l [H|H]; [apply D2; left; auto | auto].
Qed.
Lemma ext_weaken (Q : ap -> Prop) (K K' : point -> Z -> Prop) st st' : (forall p l, K' p l -> K p l) -> ext Q K st st' -> ext Q K' st st'.
Proof. intros H (n & A & B & C & D & F). exists n. do 4 (split; auto). Qed.

Lemma ofold_ext {A} (f : A -> gst -> option gst) Q (K : A -> point -> Z -> Prop) l :
  (forall a st st', In a l -> f a st = Some st' -> ext Q (K a) st st') ->
  forall st st', ofold f l st = Some st' -> ext Q (fun p z => exists a, In a l /\ K a p z) st st'.
Proof.
  induction l as [|a l IH]; cbn [ofold]; intros H st st' Q1.
  - injection Q1 as <-. eapply ext_weaken; [|apply ext_refl]. intros p z (a & [] & _).
  - destruct (f a st) as [s1|] eqn:F; [|discriminate].
    eapply ext_weaken; [|eapply ext_trans; [apply (H a st s1); [left; auto|auto] | apply IH; [|exact Q1]; intros; apply (H a0 st0 st'0); [right; auto|auto]]].
    intros p z (a0 & [<- |I] & Y); [left; auto | right; eauto].
Qed.
Lemma fold_ext {A} (f : gst -> A -> gst) Q (K : A -> point -> Z -> Prop) l :
  (forall a st, In a l -> ext Q (K a) st (f st a)) ->
  forall st, ext Q (fun p z => exists a, In a l /\ K a p z) st (fold_left f l st).
Proof.
  induction l as [|a l IH]; cbn [fold_left]; intros H st.
  - eapply ext_weaken; [|apply ext_refl]. intros p z (a & [] & _).
  - eapply ext_weaken; [|eapply ext_trans; [apply (H a st); left; auto | apply IH; intros; apply H; right; auto]].
    intros p z (a0 & [<- |I] & Y); [left; auto | right; eauto].
Qed.

Lemma add_ap_ext E (Q : ap -> Prop) r l planar via low high p st :
  (inside r p -> Q (new_ap E l planar via p low high)) ->
  ext Q (fun q z => q = p /\ z = l /\ inside r p) st (add_ap E r l planar via low high p st).
Proof.
  intros H. unfold add_ap.
  assert (IC : box_contains_pt r p true = true <-> inside r p) by (unfold box_contains_pt, inside; lia).
  destruct (box_contains_pt r p true) eqn:C; cbn [negb].
  - assert (IN : inside r p) by (apply IC; auto). destruct (in_set (snd st) p l) eqn:S.
    + apply in_set_In in S. exists []. rewrite app_nil_r. split; auto. split; [intros a []|]. split; [constructor|].
      split; [intros k; cbn; tauto|]. intros q z (-> & -> & _). auto.
    + exists [new_ap E l planar via p low high]. split; auto. split.
      { intros a [<- |[]]. split; auto. change (key (new_ap E l planar via p low high)) with (p, l). intros I. apply in_set_In in I. congruence. }
      split; [repeat constructor; intros []|]. split.
      { intros k. cbn [snd map In]. change (key (new_ap E l planar via p low high)) with (p, l). tauto. }
      intros q z (-> & -> & _). left. auto.
  - eapply ext_weaken; [|apply ext_refl]. intros q z (_ & _ & X). apply IC in X. discriminate.
Qed.

(* --- a rectangle --------------------------------------------------------------------------------- *)
Lemma thin_iff E r l : center_line E r l (is_macro E) = true <-> thin E r l.
Proof.
  unfold center_line, thin, is_macro. cbv zeta. destruct (e_kind E) eqn:KD, (e_horz E l) eqn:H; cbn [andb orb negb];
  (split; [intros Q; first [discriminate Q | split; [discriminate|lia]] | intros [N Q]; first [exfalso; apply N; reflexivity | lia]]).
Qed.
Lemma second_iff E l l2 : second_layer E l = Some l2 <-> second E l l2.
Proof.
  unfold second_layer, second. destruct (Z.leb_spec (l + 2) (e_top E)); [|destruct (Z.geb_spec (l - 2) (e_bottom E))].
  - split; [intros Q; injection Q as <-; auto|]. intros [[_ ->]|X]; auto. lia.
  - split; [intros Q; injection Q as <-; lia|]. intros [X|(_ & _ & ->)]; auto. lia.
  - split; [discriminate|]. lia.
Qed.

(* an access point as generated *)
Definition made (E : aenv) (a : ap) : Prop :=
  a = new_ap E (ap_layer a) (allow_planar E (ap_layer a)) (allow_via E (ap_layer a)) (ap_pt a) (ap_low a) (ap_high a) /\
  exists r, candidate E (ap_layer a) r (ap_pt a) (ap_low a) (ap_high a).
Definition in_round (E : aenv) (lt ut : Z) (a : ap) : Prop := made E a /\ ap_high a = ut /\ (ap_low a = lt \/ ap_low a = 0).

Lemma gen_aps_ext E (Q : ap -> Prop) r l planar via xs ys lt ut st :
  (forall p, inside r p -> In (px p, if e_horz E l then ut else lt) xs -> In (py p, if e_horz E l then lt else ut) ys ->
     Q (new_ap E l planar via p lt ut)) ->
  ext Q (fun p z => z = l /\ inside r p /\ In (px p, if e_horz E l then ut else lt) xs /\ In (py p, if e_horz E l then lt else ut) ys)
      st (gen_aps E r l planar via xs ys lt ut st).
Proof.
  intros H. unfold gen_aps.
  eapply ext_weaken; [|apply (fold_ext _ Q (fun ex p z => exists ey, In ey ys /\
     ((if e_horz E l then snd ey else snd ex) = lt /\ (if e_horz E l then snd ex else snd ey) = ut /\ z = l /\ p = mkPt (fst ex) (fst ey) /\ inside r p)))].
  - intros p z (-> & I & X & Y). eexists. split; [exact X|]. eexists. split; [exact Y|]. cbn [fst snd].
    destruct (e_horz E l); (split; [auto|]; split; [auto|]; split; [auto|]; split; [destruct p; auto | auto]).
  - intros ex st0 IX. apply (fold_ext _ Q). intros ey st1 IY. cbv beta zeta.
    destruct (_ && _) eqn:B.
    + apply andb_prop in B. destruct B as [B1 B2]. apply Z.eqb_eq in B1, B2.
      eapply ext_weaken; [|apply add_ap_ext].
      * cbv beta. intros p z (_ & _ & -> & -> & I). auto.
      * intros I. rewrite B1, B2. apply H; auto; cbn [px py]; destruct ex, ey; cbn [fst snd] in *; destruct (e_horz E l); subst; auto.
    + eapply ext_weaken; [|apply ext_refl]. intros p z (X & Y & _). lia.
Qed.

Section Gen.
Variables (E : aenv) (T : tracks_on_grid E).

Lemma gen_rect_ext l lt ut r st st' : 0 <= lt <= 3 -> 0 <= ut <= 2 -> 0 <= l < e_nlayers E -> e_routing E l = true ->
  In r (e_rects E l) -> (e_kind E = StdPin -> l + 2 <= e_top E -> e_rightway E (l + 2) = true -> ut = 0) ->
  gen_rect E l (allow_planar E l) (allow_via E l) lt ut (is_macro E) r st = Some st' ->
  ext (in_round E lt ut) (fun p z => z = l /\ candidate E l r p lt ut) st st'.
Proof.
  intros LT UT LR RT IR RW. unfold gen_rect.
  destruct (Z.ltb_spec (Z.min (bright r - bleft r) (btop r - bbottom r)) (e_minwidth E l)) as [W|W].
  { intros Q; injection Q as <-. eapply ext_weaken; [|apply ext_refl]. intros p z (_ & C). unfold candidate in C. lia. }
  destruct (second_layer E l) as [l2|] eqn:SL; [|discriminate]. apply second_iff in SL.
  intros Q; injection Q as <-.
  set (cl := center_line E r l (is_macro E)). assert (CL : cl = true <-> thin E r l) by apply thin_iff. clearbody cl.
  destruct (low_range E r l) as [lo hi] eqn:LRG. destruct (high_range E r l) as [lo2 hi2] eqn:HRG.
  set (lt' := lower_type E l cl lt).
  assert (LT' : lt' = lt \/ (lt' = 0 /\ cl = true)) by (unfold lt', lower_type; destruct cl, (e_horz E l); cbn [andb]; auto).
  (* what an entry of the two maps means *)
  assert (LOW : forall c, lo <= c <= hi -> In (c, lt') (low_coords E r l cl lt) <->
     (thin E r l /\ lt' = 0 /\ c = middle E lo hi) \/ (~ thin E r l /\ coord_type E l lo hi (flush E r l (e_horz E l)) c lt')).
  { intros c RC. destruct cl.
    - rewrite (center_line_find E r l lo hi lt c lt' LRG). assert (TH : thin E r l) by (apply CL; auto). tauto.
    - assert (NT : ~ thin E r l) by (intros X; apply CL in X; discriminate).
      assert (EL : lt' = lt) by (destruct LT' as [LT'|[_ LT']]; [auto|discriminate]). rewrite EL.
      destruct (low_find E T r l lt c lo hi LT LRG RC) as [S F]. rewrite <- (cfind_In _ S). unfold lowP in F. tauto. }
  assert (HIGH : forall c, lo2 <= c <= hi2 -> In (c, ut) (high_coords E r l l2 ut) <-> coord_type E l2 lo2 hi2 (fun _ => False) c ut).
  { intros c RC. destruct (high_find E T r l l2 ut c lo2 hi2 UT HRG RC) as [S F]. rewrite <- (cfind_In _ S). exact F. }
  assert (CAND : forall p, inside r p ->
     (In (across E l p, lt') (low_coords E r l cl lt) /\ In (along E l p, ut) (high_coords E r l l2 ut) <-> candidate E l r p lt' ut)).
  { intros p [P1 P2]. rewrite LOW, HIGH.
    2: { unfold along, high_range in *. destruct (e_horz E l); injection HRG as <- <-; lia. }
    2: { unfold across, low_range in *. destruct (e_horz E l); injection LRG as <- <-; lia. }
    unfold candidate. unfold low_range in LRG. unfold high_range in HRG.
    assert (W1 : e_minwidth E l <= bright r - bleft r) by lia. assert (W2 : e_minwidth E l <= btop r - bbottom r) by lia.
    split.
    - intros [A B]. do 7 (split; [assumption|]). split; [intros X Y Z; apply RW; auto|]. exists l2. split; auto.
      destruct (e_horz E l); injection LRG as <- <-; injection HRG as <- <-; tauto.
    - intros (_ & _ & _ & _ & _ & _ & _ & _ & l2' & S2 & A & _ & B). assert (l2' = l2).
      { apply second_iff in SL. apply second_iff in S2. congruence. }
      subst l2'. destruct (e_horz E l); injection LRG as <- <-; injection HRG as <- <-; tauto. }
  eapply ext_weaken; [|apply (gen_aps_ext E (in_round E lt ut))].
  - intros p z (-> & C). split; auto.
    assert (I : inside r p) by (unfold candidate in C; unfold inside; tauto). split; auto.
    assert (EL : lt' = lt \/ (thin E r l /\ lt' = 0 /\ lt = 0)).
    { destruct LT' as [X|[X Y]]; auto. right. apply CL in Y. split; auto. split; auto.
      destruct C as (_ & _ & _ & _ & _ & _ & _ & _ & l2' & _ & [(_ & Z & _)|(Z & _)] & _); [auto|contradiction]. }
    assert (C' : candidate E l r p lt' ut) by (destruct EL as [->|(_ & -> & EL)]; [auto | rewrite EL in C; auto]).
    apply CAND in C'; auto. destruct C' as [A B].
    unfold across, along in A, B. fold lt'. destruct (e_horz E l); auto.
  - fold lt'. intros p I X Y.
    assert (C' : candidate E l r p lt' ut).
    { apply CAND; auto. unfold across, along. destruct (e_horz E l); auto. }
    unfold in_round, made. cbn. split; [split; [auto|exists r; exact C']|]. split; auto. destruct LT' as [->|[-> _]]; auto.
Qed.

Lemma gen_layer_ext l lt ut st st' : 0 <= lt <= 3 -> 0 <= ut <= 2 -> 0 <= l < e_nlayers E ->
  gen_layer E lt ut l st = Some st' ->
  ext (in_round E lt ut) (fun p z => z = l /\ exists r, candidate E l r p lt ut) st st'.
Proof.
  intros LT UT LR. unfold gen_layer. destruct (e_routing E l) eqn:RT; cbn [negb].
  2: { intros Q; injection Q as <-. eapply ext_weaken; [|apply ext_refl]. intros p z (_ & r & _ & C & _). congruence. }
  destruct (_ && _) eqn:B.
  - intros Q; injection Q as <-. eapply ext_weaken; [|apply ext_refl].
    intros p z (_ & r & C). destruct C as (_ & _ & _ & _ & _ & _ & _ & C & _).
    apply andb_prop in B. destruct B as [B B4]. apply andb_prop in B. destruct B as [B B3]. apply andb_prop in B. destruct B as [B1 B2].
    unfold is_macro in B1. destruct (e_kind E); try discriminate. specialize (C eq_refl ltac:(lia) B3). lia.
  - intros F.
    assert (RW : e_kind E = StdPin -> l + 2 <= e_top E -> e_rightway E (l + 2) = true -> ut = 0).
    { intros K1 K2 K3. unfold is_macro in B. rewrite K1, K3 in B. replace (l + 2 <=? e_top E) with true in B by lia. cbn [negb andb] in B. lia. }
    eapply ext_weaken; [|apply (ofold_ext _ _ (fun r p z => z = l /\ candidate E l r p lt ut) _ ) with (2 := F)].
    + intros p z (-> & r & C). exists r. split; [|auto]. unfold candidate in C. tauto.
    + intros r s s' I G. eapply gen_rect_ext; eauto.
Qed.

Lemma gen_points_ext lt ut st st' : 0 <= lt <= 3 -> 0 <= ut <= 2 ->
  gen_points E lt ut st = Some st' ->
  ext (in_round E lt ut) (fun p l => exists r, candidate E l r p lt ut) st st'.
Proof.
  intros LT UT F. unfold gen_points in F.
  eapply ext_weaken; [|apply (ofold_ext _ _ (fun l p z => z = l /\ exists r, candidate E l r p lt ut) _ ) with (2 := F)].
  - intros p l (r & C). exists l. split; [|eauto]. apply in_rev. rewrite rev_involutive. apply in_map_iff.
    exists (Z.to_nat l). unfold candidate in C. split; [lia|]. apply in_seq. lia.
  - intros l s s' I G. apply in_rev in I. apply in_map_iff in I. destruct I as (k & <- & I). apply in_seq in I.
    apply gen_layer_ext; auto. lia.
Qed.
End Gen.
