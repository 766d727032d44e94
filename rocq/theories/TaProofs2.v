(* Proofs about the charged intervals and the cost map. *)
From Verif Require Import Base Stl GeomModel GeomSpec GeomProofs TaModel TaSpec TaProofs.
From Coq Require Import Permutation.

Lemma maxX_spec req d : 0 <= d < req ->
  exists m, maxX_of req d = Some m /\ 0 <= m /\
    forall dx, 0 <= dx -> (dx <= m <-> dx * dx + d * d < req * req).
Proof.
  intros H. unfold maxX_of.
  assert (Hp : 0 < req * req - d * d) by nia.
  replace (req * req - d * d <? 0) with false by lia.
  set (v := req * req - d * d) in *. pose proof (Z.sqrt_spec v ltac:(lia)) as [S1 S2].
  assert (S3 : 0 < Z.sqrt v) by (apply Z.sqrt_pos; lia).
  set (m := Z.sqrt v) in *. clearbody m.
  destruct (m * m + d * d =? req * req) eqn:E.
  - eexists; split; [reflexivity|]. split; [lia|]. intros dx Hx. rewrite Z.max_r by lia.
    split; intros; nia.
  - eexists; split; [reflexivity|]. split; [lia|]. intros dx Hx. unfold Z.succ in S2.
    split; intros; nia.
Qed.

Lemma closer_iff a b d : normalised a -> normalised b ->
  (closer a b d <-> box2boxDistSquare a b < d * d).
Proof.
  intros Ha Hb. destruct (box2box_spec a b Ha Hb) as [(p & q & Hp & Hq & E) M]. split.
  - intros (p' & q' & Hp' & Hq' & L). specialize (M p' q' Hp' Hq'). lia.
  - intros L. exists p, q. rewrite E. auto.
Qed.

(* one track: the interval is exact *)
Lemma interval_exact (isH : bool) (b v : box) (loc req m : Z) : normalised b -> normalised v ->
  let d := if isH then box2boxDy b (moved v (on_track isH 0 loc))
           else box2boxDx b (moved v (on_track isH 0 loc)) in
  0 <= m -> (forall dx, 0 <= dx -> (dx <= m <-> dx * dx + d * d < req * req)) ->
  forall x,
  in_box (on_track isH x loc)
    (if isH then box_set (bleft b - m - bright v) loc (bright b + m - bleft v) loc
     else box_set loc (bbottom b - m - btop v) loc (btop b + m - bbottom v)) <->
  closer b (moved v (on_track isH x loc)) req.
Proof.
  intros Hb Hv d Hm Hd x.
  rewrite closer_iff; [|assumption|].
  2:{ destruct Hv. unfold normalised, moved. cbn [ll ur px py]. lia. }
  unfold box2boxDistSquare.
  destruct b as [[bl bb] [br bt]], v as [[vl vb] [vr vt]].
  unfold normalised in *; cbn [ll ur px py] in *. destruct isH.
  - set (dx := box2boxDx _ _). specialize (Hd dx ltac:(unfold dx, box2boxDx; lia)).
    replace (box2boxDy _ (moved _ (on_track true x loc))) with d
      by (unfold d, box2boxDy, moved, bbottom, btop; cbn [on_track ll ur px py]; lia).
    rewrite <- Hd. clear Hd d. unfold dx, box2boxDx, moved, bleft, bright, in_box, box_set.
    cbn [on_track ll ur px py]. split; [intros [H1 H2]|intros H1; split]; zcases; lia.
  - set (dx := box2boxDy _ _). specialize (Hd dx ltac:(unfold dx, box2boxDy; lia)).
    replace (box2boxDx _ (moved _ (on_track false x loc))) with d
      by (unfold d, box2boxDx, moved, bleft, bright; cbn [on_track ll ur px py]; lia).
    rewrite (Z.add_comm (d * d)).
    rewrite <- Hd. clear Hd d. unfold dx, box2boxDy, moved, bbottom, btop, in_box, box_set.
    cbn [on_track ll ur px py]. split; [intros [H1 H2]|intros H1; split]; zcases; lia.
Qed.

(* the box computed by transform is the via moved to the track (position 0 + left edge) *)
Lemma transform_moved v x y : normalised v -> box_transform v (mkXf x y R0) = moved v (mkPt x y).
Proof.
  intros [H1 H2]. destruct v as [[vl vb] [vr vt]]. cbn [ll ur px py] in *.
  unfold box_transform, pt_transform, box_of_pts, box_set, moved. cbn [ori xo yo ll ur px py].
  f_equal; f_equal; zcases; lia.
Qed.

Lemma via_charge_spec (isH isCurrPs : bool) req (b v : box) (loc run : Z) : normalised b -> normalised v ->
  (forall r, 0 <= req r) -> longest_run isH isCurrPs b v loc run ->
  exists cs, via_charge isH isCurrPs req b v loc = Some cs /\
    (forall x, charged_at cs (on_track isH x loc) <-> closer b (moved v (on_track isH x loc)) (req run)) /\
    (forall x l', charged_at cs (on_track isH x l') -> l' = loc).
Proof.
  intros Hb Hv Hreq Hrun. unfold via_charge.
  set (d := if isH then box2boxDy b _ else box2boxDx b _).
  assert (Ed : d = if isH then box2boxDy b (moved v (on_track isH 0 loc))
                   else box2boxDx b (moved v (on_track isH 0 loc))).
  { unfold d. destruct isH; rewrite transform_moved by assumption;
      unfold box2boxDy, box2boxDx, moved, bleft, bright, bbottom, btop; cbn [on_track ll ur px py]; lia. }
  assert (Er : via_prl isH isCurrPs d b v = run).
  { rewrite Ed. clear d Ed. destruct b as [[bl bb] [br bt]], v as [[vl vb] [vr vt]].
    unfold normalised in *; cbn [ll ur px py] in *.
    unfold longest_run, across, extent_along, extent_across in Hrun.
    unfold via_prl, box2boxDx, box2boxDy, moved, bleft, bright, bbottom, btop in *.
    destruct isH; cbn [on_track ll ur px py] in *; destruct Hrun as [R1 R2].
    - destruct (_ >? 0) eqn:E.
      + rewrite R1 by lia. destruct isCurrPs; reflexivity.
      + rewrite R2 by lia. destruct isCurrPs; reflexivity.
    - destruct (_ >? 0) eqn:E.
      + rewrite R1 by lia. destruct isCurrPs; reflexivity.
      + rewrite R2 by lia. destruct isCurrPs; reflexivity. }
  rewrite Er. specialize (Hreq run).
  assert (Hd0 : 0 <= d) by (rewrite Ed; unfold box2boxDy, box2boxDx; destruct isH; lia).
  destruct (d >=? req run) eqn:E.
  - exists []. split; [reflexivity|]. split; [|intros x l' (c & [] & _)].
    intros x. split; [intros (c & [] & _)|]. intros Hc. exfalso.
    apply closer_iff in Hc; [|assumption|].
    2:{ destruct Hv. unfold normalised, moved. cbn [ll ur px py]. lia. }
    assert (d * d <= box2boxDistSquare b (moved v (on_track isH x loc))); [|nia].
    rewrite Ed. unfold box2boxDistSquare. destruct isH.
    + replace (box2boxDy b (moved v (on_track true x loc))) with (box2boxDy b (moved v (on_track true 0 loc)))
        by reflexivity.
      nia.
    + replace (box2boxDx b (moved v (on_track false x loc))) with (box2boxDx b (moved v (on_track false 0 loc)))
        by reflexivity.
      nia.
  - destruct (maxX_spec (req run) d ltac:(lia)) as (m & Em & Hm & Hx). rewrite Em.
    eexists; split; [reflexivity|]. split.
    + intros x. rewrite Ed in Hx.
      pose proof (interval_exact isH b v loc (req run) m Hb Hv Hm Hx x) as I.
      rewrite <- I. unfold charged_at. split; [intros (c & [<- |[]] & H); exact H|].
      intros H. eexists. split; [left; reflexivity|exact H].
    + intros x l' (c & [<- |[]] & [H1 H2]). unfold box_set in *.
      destruct isH; cbn [on_track ll ur px py] in *; zcases; lia.
Qed.

Lemma opt_concat_map {A B} (f : A -> option (list B)) l :
  (forall a, In a l -> exists cs, f a = Some cs) ->
  exists r, opt_concat (map f l) = Some r /\
    forall c, In c r <-> exists a cs, In a l /\ f a = Some cs /\ In c cs.
Proof.
  induction l as [|a l IH]; cbn [map opt_concat]; intros H.
  - exists []. split; [reflexivity|]. intros c. split; [intros []|intros (a & cs & [] & _)].
  - destruct (H a (or_introl eq_refl)) as (cs & E). rewrite E.
    destruct IH as (r & Er & Hr); [intros a' Ha; apply H; right; exact Ha|]. rewrite Er.
    exists (cs ++ r). split; [reflexivity|]. intros c. rewrite in_app_iff, Hr. split.
    + intros [Hc|(a' & cs' & Ha & E' & Hc)]; [exists a, cs|exists a', cs']; repeat split; auto;
        [left; reflexivity|right; exact Ha].
    + intros (a' & cs' & [<- |Ha] & E' & Hc); [left; congruence|right; eauto].
Qed.

(* a run length always exists *)
Lemma longest_run_ex isH isWire b v loc : exists run, longest_run isH isWire b v loc run.
Proof.
  unfold longest_run. destruct (across isH b) as [lo hi], (across isH v) as [vlo vhi].
  destruct ((hi <? vlo + loc) || (vhi + loc <? lo)) eqn:E.
  - eexists; split; intros H; [reflexivity|lia].
  - eexists; split; intros H; [lia|reflexivity].
Qed.

Lemma box_length_ge isH (b : box) : extent_along isH b <= box_length b /\ extent_across isH b <= box_length b.
Proof. unfold box_length, extent_along, extent_across, bleft, bright, bbottom, btop. destruct isH; lia. Qed.

Lemma via_charges_spec isH isWire req tracks b v : normalised b -> normalised v -> sorted_lt tracks ->
  (forall r, 0 <= req r) -> (forall r r', r <= r' -> req r <= req r') ->
  exists cs, via_charges isH isWire req tracks b v = Some cs /\
    forall x loc run, In loc tracks -> longest_run isH isWire b v loc run ->
      (charged_at cs (on_track isH x loc) <-> closer b (moved v (on_track isH x loc)) (req run)).
Proof.
  intros Hb Hv Hs Hpos Hmono. unfold via_charges.
  set (bloat := req _).
  set (p := if isH then _ else _).
  assert (Hp : forall t, In t (tracks_between tracks p) <-> In t tracks /\
     (if isH then bbottom b - bloat - btop v < t < btop b + bloat - bbottom v
      else bleft b - bloat - bright v < t < bright b + bloat - bleft v)).
  { intros t. unfold p. destruct Hb as [Hb1 Hb2], Hv as [Hv1 Hv2].
    assert (0 <= bloat) by apply Hpos.
    unfold bleft, bright, bbottom, btop in *.
    destruct isH; rewrite tracks_between_In by assumption; intuition lia. }
  destruct (opt_concat_map (via_charge isH isWire req b v) (tracks_between tracks p)) as (r & Er & Hr).
  { intros t _. destruct (longest_run_ex isH isWire b v t) as (run & Hrun).
    destruct (via_charge_spec isH isWire req b v t run Hb Hv Hpos Hrun) as (cs & E & _). eauto. }
  exists r. split; [exact Er|]. intros x loc run Hin Hrun.
  destruct (via_charge_spec isH isWire req b v loc run Hb Hv Hpos Hrun) as (cs & E & Hex & _).
  rewrite <- Hex. split.
  - intros (c & Hc & Hb'). apply Hr in Hc as (a & cs' & Ha & Ea & Hc).
    destruct (longest_run_ex isH isWire b v a) as (run' & Hrun').
    destruct (via_charge_spec isH isWire req b v a run' Hb Hv Hpos Hrun') as (cs2 & E2 & _ & Hl).
    rewrite Ea in E2. injection E2 as <-.
    specialize (Hl x loc (ex_intro _ c (conj Hc Hb'))). subst a.
    rewrite E in Ea. injection Ea as <-. exists c. auto.
  - intros (c & Hc & Hb'). exists c. split; [|exact Hb']. apply Hr. exists loc, cs.
    split; [|auto]. apply Hp. split; [exact Hin|].
    assert (Hcl : closer b (moved v (on_track isH x loc)) (req run)).
    { apply Hex. exists c. auto. }
    apply closer_iff in Hcl; [|assumption|].
    2:{ destruct Hv. unfold normalised, moved. cbn [ll ur px py]. lia. }
    assert (Hle : req run <= bloat).
    { apply Hmono. unfold longest_run in Hrun.
      pose proof (box_length_ge isH b) as [L1 L2]. pose proof (box_length_ge isH v) as [L3 L4].
      destruct (across isH b) as [lo hi], (across isH v) as [vlo vhi]. destruct Hrun as [R1 R2].
      destruct ((hi <? vlo + loc) || (vhi + loc <? lo)) eqn:G.
      - rewrite R1 by lia. destruct isWire; lia.
      - rewrite R2 by lia. destruct isWire; lia. }
    pose proof (Hpos run) as Hp0. unfold box2boxDistSquare in Hcl.
    assert (Hbound : (if isH then box2boxDy b (moved v (on_track isH x loc))
                      else box2boxDx b (moved v (on_track isH x loc))) < bloat).
    { destruct isH; nia. }
    clear - Hbound Hb Hv. destruct Hb as [Hb1 Hb2], Hv as [Hv1 Hv2].
    unfold box2boxDx, box2boxDy, moved, bleft, bright, bbottom, btop in *.
    destruct isH; cbn [on_track ll ur px py] in *; lia.
Qed.

(* --- planar charges when one track is in reach -------------------------------------------------- *)
Lemma planar_charges_single isH req hw tracks b : normalised b -> 0 <= hw -> sorted_lt tracks ->
  0 < req (box_length b) ->
  (forall t t', In t tracks -> In t' tracks ->
     fst (across isH b) - req (box_length b) - hw < t < snd (across isH b) + req (box_length b) + hw ->
     fst (across isH b) - req (box_length b) - hw < t' < snd (across isH b) + req (box_length b) + hw ->
     t = t') ->
  exists cs, planar_charges isH req hw tracks b = Some cs /\
    forall x loc, In loc tracks ->
      (charged_at cs (on_track isH x loc) <->
       closer b (moved (wire_end hw) (on_track isH x loc)) (req (box_length b))).
Proof.
  intros Hb Hhw Hs Hpos Hone. unfold planar_charges.
  set (bloat := req (box_length b)) in *.
  set (low := if isH then bbottom b else bleft b).
  set (high := if isH then btop b else bright b).
  assert (Elow : fst (across isH b) = low) by (unfold across, low, bbottom, bleft; destruct isH; reflexivity).
  assert (Ehigh : snd (across isH b) = high) by (unfold across, high, btop, bright; destruct isH; reflexivity).
  rewrite Elow, Ehigh in Hone.
  assert (Hlh : low <= high).
  { destruct Hb. unfold low, high, bbottom, btop, bleft, bright in *. destruct isH; lia. }
  set (left := if isH then bleft b else bbottom b).
  set (right := if isH then bright b else btop b).
  assert (Hlr : left <= right).
  { destruct Hb. unfold left, right, bbottom, btop, bleft, bright in *. destruct isH; lia. }
  set (locs := tracks_between tracks _).
  assert (Hlocs : forall t, In t locs <-> In t tracks /\ low - bloat - hw < t < high + bloat + hw).
  { intros t. unfold locs. rewrite tracks_between_In by assumption. intuition lia. }
  assert (Eb1 : box_set left low right high = mkBox (mkPt left low) (mkPt right high)).
  { unfold box_set. f_equal; f_equal; zcases; lia. }
  assert (Ebw : box_set (- hw) (- hw) hw hw = wire_end hw).
  { unfold box_set, wire_end. f_equal; f_equal; zcases; lia. }
  rewrite Eb1, Ebw. set (b1 := mkBox (mkPt left low) (mkPt right high)).
  assert (Hw : normalised (wire_end hw)) by (unfold normalised, wire_end; cbn [ll ur px py]; lia).
  assert (Far : forall x loc, ~ (low - bloat - hw < loc < high + bloat + hw) ->
     ~ closer b (moved (wire_end hw) (on_track isH x loc)) bloat).
  { intros x loc Hout Hc. apply closer_iff in Hc; [|assumption|].
    2:{ unfold normalised, moved, wire_end. cbn [ll ur px py]. lia. }
    unfold box2boxDistSquare in Hc.
    assert (Hc' : (if isH then box2boxDy b (moved (wire_end hw) (on_track isH x loc))
                 else box2boxDx b (moved (wire_end hw) (on_track isH x loc))) < bloat).
    { destruct isH; nia. }
    apply Hout. clear - Hc' Hb Hhw Hlh. unfold low, high in *. destruct Hb as [Hb1 Hb2].
    unfold box2boxDx, box2boxDy, moved, wire_end, bleft, bright, bbottom, btop in *.
    destruct isH; cbn [on_track ll ur px py] in *; lia. }
  (* at most one location *)
  assert (Hsingle : locs = [] \/ exists t, locs = [t]).
  { unfold locs, tracks_between. set (p := getTrackIdx _ _ _) in *.
    destruct (Z.lt_trichotomy (fst p) (snd p)) as [L|[E|G]].
    - exfalso.
      assert (R1 : In (nth (Z.to_nat (fst p)) tracks 0) locs).
      { apply in_map_iff. exists (fst p). split; [reflexivity|]. apply up_In. lia. }
      assert (R2 : In (nth (Z.to_nat (snd p)) tracks 0) locs).
      { apply in_map_iff. exists (snd p). split; [reflexivity|]. apply up_In. lia. }
      apply Hlocs in R1 as [R1 R1'], R2 as [R2 R2'].
      specialize (Hone _ _ R1 R2 R1' R2').
      pose proof (proj1 (getTrackIdx_spec tracks (low - bloat - hw + 1) (high + bloat + hw - 1) (fst p) Hs)) as Q1.
      pose proof (proj1 (getTrackIdx_spec tracks (low - bloat - hw + 1) (high + bloat + hw - 1) (snd p) Hs)) as Q2.
      fold p in Q1, Q2. specialize (Q1 ltac:(lia)). specialize (Q2 ltac:(lia)).
      specialize (Hs (Z.to_nat (fst p)) (Z.to_nat (snd p)) ltac:(lia) ltac:(lia)). lia.
    - right. rewrite up_cons by lia. rewrite up_empty by lia. eexists. reflexivity.
    - left. rewrite up_empty by lia. reflexivity. }
  destruct Hsingle as [E|[t E]]; rewrite E in *; cbn [planar_loop].
  - exists []. split; [reflexivity|]. intros x loc Hin. split; [intros (c & [] & _)|].
    intros Hc. exfalso. apply (Far x loc); [|exact Hc]. intros Hr.
    destruct (proj2 (Hlocs loc)); auto.
  - rewrite transform_moved by assumption.
    assert (Ht : In t tracks /\ low - bloat - hw < t < high + bloat + hw) by (apply Hlocs; left; reflexivity).
    assert (Ed : box2boxDy b1 (moved (wire_end hw) (mkPt (bleft b1) t)) =
                 if isH then box2boxDy b (moved (wire_end hw) (on_track isH 0 t))
                 else box2boxDx b (moved (wire_end hw) (on_track isH 0 t))).
    { unfold b1, low, high, left, right, box2boxDy, box2boxDx, moved, wire_end, bleft, bright, bbottom, btop.
      destruct isH; cbn [on_track ll ur px py]; lia. }
    rewrite Ed. set (d := if isH then box2boxDy b _ else _) in *.
    assert (Hd : 0 <= d < bloat).
    { clear - Ht Hpos Hhw Hlh. unfold d, low, high in *.
      unfold box2boxDy, box2boxDx, moved, wire_end, bleft, bright, bbottom, btop in *.
      destruct isH; cbn [on_track ll ur px py] in *; lia. }
    destruct (maxX_spec bloat d Hd) as (m & Em & Hm & Hx). rewrite Em.
    eexists; split; [reflexivity|]. intros x loc Hin.
    pose proof (interval_exact isH b (wire_end hw) t bloat m Hb Hw Hm Hx) as I.
    set (c := if isH then box_set (bleft b - m - bright (wire_end hw)) t _ t else _) in I.
    assert (Ec : (if isH then box_set (bleft b1 - m - hw) t (bright b1 + m + hw) t
                  else box_set t (bleft b1 - m - hw) t (bright b1 + m + hw)) = c).
    { unfold c, b1, left, right, wire_end, bleft, bright, bbottom, btop.
      destruct isH; cbn [ll ur px py]; f_equal; lia. }
    rewrite Ec. split.
    + intros (c' & [<- |[]] & Hc).
      assert (loc = t).
      { clear - Hc. destruct Hc as [H1 H2]. unfold c, box_set in *.
        destruct isH; cbn [on_track ll ur px py] in *; zcases; lia. }
      subst loc. apply I. exact Hc.
    + intros Hc. destruct (Z.eq_dec loc t) as [->|Hn].
      * exists c. split; [left; reflexivity|]. apply I. exact Hc.
      * exfalso. apply (Far x loc); [|exact Hc]. intros Hr. apply Hn.
        apply Hone; [exact Hin|apply Ht|exact Hr|apply Ht].
Qed.

(* --- the cost map: taking out what was put in ------------------------------------------------- *)
Section CostMapProofs.
  Variable V : Type.
  Variable eqb : V -> V -> bool.
  Hypothesis eqb_spec : forall a b, eqb a b = true <-> a = b.

  Lemma rq_remove_perm v m : In v m -> Permutation (v :: rq_remove V eqb v m) m.
  Proof.
    induction m as [|x m IH]; cbn [rq_remove]; intros H; [destruct H|].
    destruct (eqb v x) eqn:E.
    - apply eqb_spec in E. subst x. reflexivity.
    - destruct H as [->|H].
      { rewrite (proj2 (eqb_spec v v) eq_refl) in E. discriminate. }
      rewrite perm_swap. constructor. apply IH. exact H.
  Qed.
  Lemma add_all_perm vs m : Permutation (add_all V vs m) (vs ++ m).
  Proof.
    unfold add_all. revert m. induction vs as [|v vs IH]; intros m; cbn [fold_left app]; [reflexivity|].
    rewrite IH. unfold rq_add. symmetry. apply Permutation_middle.
  Qed.
  Lemma sub_all_perm vs : forall m c, Permutation m (vs ++ c) -> Permutation (sub_all V eqb vs m) c.
  Proof.
    unfold sub_all. induction vs as [|v vs IH]; intros m c H; cbn [fold_left]; [exact H|].
    apply IH. assert (Hin : In v m).
    { apply (Permutation_in v (Permutation_sym H)). left. reflexivity. }
    apply (Permutation_cons_inv (a := v)). rewrite (rq_remove_perm v m Hin). exact H.
  Qed.
End CostMapProofs.
