From Verif Require Import Base GeomModel GeomSpec ClipModel ClipSpec ClipProofs BpModel BpSpec BpProofs2 KeepModel KeepSpec KeepProofs.
From Verif Require Import ConnModel ConnSpec.
From Verif Require SubnetModel SubnetSpec.
Import SubnetModel (dfig, DFig, DPatch).

Definition noov (l : list dfig) : Prop :=
  forall i j a c, i <> j -> nth_error l i = Some (DFig a) -> nth_error l j = Some (DFig c) -> ~ overlap a c.
Lemma overlap_sym a c : overlap a c -> overlap c a.
Proof. destruct a, c; cbn; try tauto. intros (-> & H). split; [reflexivity|]. lia. Qed.
Lemma noov_app l1 l2 : noov l1 -> noov l2 -> (forall a c, In (DFig a) l1 -> In (DFig c) l2 -> ~ overlap a c) -> noov (l1 ++ l2).
Proof.
  intros H1 H2 X i j a c N Hi Hj O.
  destruct (Nat.lt_ge_cases i (length l1)) as [Li|Li], (Nat.lt_ge_cases j (length l1)) as [Lj|Lj].
  - rewrite nth_error_app1 in Hi, Hj by assumption. apply (H1 i j a c N Hi Hj O).
  - rewrite nth_error_app1 in Hi by assumption. rewrite nth_error_app2 in Hj by assumption. apply nth_error_In in Hi, Hj. apply (X a c Hi Hj O).
  - rewrite nth_error_app2 in Hi by assumption. rewrite nth_error_app1 in Hj by assumption. apply nth_error_In in Hi, Hj. apply (X c a Hj Hi). apply overlap_sym, O.
  - rewrite nth_error_app2 in Hi, Hj by assumption. apply (H2 (i - length l1)%nat (j - length l1)%nat a c ltac:(lia) Hi Hj O).
Qed.

(* the wire a robj stands for *)
Definition r_of (w : wire) : robj := RSeg (wb w) (we w) (wl w) (trunc (bSty (ws w))) (trunc (eSty (ws w))).
Lemma lies_on_w w k : lies_on (r_of w) k <-> onw w k.
Proof. unfold onw. cbn. reflexivity. Qed.
Lemma is_end_w w k : is_end (r_of w) k <-> endw w k.
Proof. reflexivity. Qed.
Lemma trunc_end_w w k : truncated_end (r_of w) k <-> truncw w k.
Proof. reflexivity. Qed.

Section O.
Variable b : box.
Variable lw : Z -> Z.
Hypothesis sol : solid b.

Definition subseg (c w : wire) : Prop :=
  wl c = wl w /\
  ((px (wb w) = px (we w) /\ px (wb c) = px (wb w) /\ px (we c) = px (wb w) /\ py (wb w) <= py (wb c) < py (we c) /\ py (we c) <= py (we w)) \/
   (py (wb w) = py (we w) /\ py (wb c) = py (wb w) /\ py (we c) = py (wb w) /\ px (wb w) <= px (wb c) < px (we c) /\ px (we c) <= px (we w))).
Lemma piece_sub w s c : proper w -> In (s, FSeg c) (load_fig false b lw (FSeg w)) -> subseg c w.
Proof.
  intros P H. split; [apply (piece_layer false b lw sol w s c P H)|]. destruct sol as [S1 S2].
  destruct (piece_cases false b lw sol w P s (FSeg c) H) as (? & Ec & K). injection Ec as <-. clear H.
  destruct K as [(_ & -> & [[A B]|(A & A' & B)])|[(Hx & Hy & A & [(_ & -> & K)|[(_ & -> & K)|(_ & -> & K)]])|(Hx & Hy & A & [(_ & -> & K)|[(_ & -> & K)|(_ & -> & K)]])]];
    unfold proper, low_v, mid_v, high_v, low_h, mid_h, high_h, across_v, across_h, bleft, bright, bbottom, btop in *; cbn [wl wb we ws px py] in *; lia.
Qed.
Lemma sub_overlap c w c' w' : subseg c w -> subseg c' w' -> overlap (r_of c) (r_of c') -> overlap (r_of w) (r_of w').
Proof. unfold subseg, r_of. cbn. intros (-> & A) (-> & B) (-> & C). split; [reflexivity|]. lia. Qed.

(* ---- the raw routable objects ---- *)
Lemma objs_in F g : In g (clip_objs b lw F) <-> exists f, In f F /\ In (Route, g) (load_raw b lw f).
Proof.
  unfold clip_objs, on_side. rewrite in_map_iff. split.
  - intros ((s & f) & E & H). cbn [snd] in E. subst f. apply filter_In in H as (H & S). apply in_flat_map in H as (f & Hf & H).
    destruct s; [|discriminate S]. eauto.
  - intros (f & Hf & H). exists (Route, g). split; [reflexivity|]. apply filter_In. split; [|reflexivity]. apply in_flat_map. eauto.
Qed.
Lemma objs_seg F c : In (FSeg c) (clip_objs b lw F) <-> exists w, In (FSeg w) F /\ In (Route, c) (load_seg false b lw w).
Proof.
  rewrite objs_in. split.
  - intros (f & Hf & H). destruct f as [w|o l1 l2 d|o l off]; cbn [load_raw] in H.
    + apply in_map_iff in H as ((s & c') & E & H). cbn [fst snd] in E. injection E as -> ->. eauto.
    + destruct H as [H|[]]. discriminate H.
    + destruct H as [H|[]]. discriminate H.
  - intros (w & Hw & H). exists (FSeg w). split; [exact Hw|]. cbn [load_raw]. apply in_map_iff. exists (Route, c). auto.
Qed.
Lemma raw_sub w c : proper w -> In (Route, c) (load_seg false b lw w) -> subseg c w.
Proof. intros P H. destruct (raw_route b lw w c H) as [(_ & _ & H')|(_ & H')]; apply (piece_sub w _ c P H'). Qed.

Definition dobjs (F : list fig) : list dfig := map to_d (clip_objs b lw F).
Lemma dobjs_cons f F : dobjs (f :: F) = map to_d (on_side Route (load_raw b lw f)) ++ dobjs F.
Proof. unfold dobjs, clip_objs. cbn [flat_map]. unfold on_side. rewrite filter_app, map_app, map_app. reflexivity. Qed.
Lemma one_fig_noov f : fig_proper f -> noov (map to_d (on_side Route (load_raw b lw f))).
Proof.
  intros P. destruct f as [w|o l1 l2 d|o l off].
  - cbn [fig_proper] in P. destruct sol as [S1 S2]. unfold noov.
    assert (E : on_side Route (load_raw b lw (FSeg w)) = map FSeg (map snd (filter (fun x => match fst x with Route => true | Ext => false end) (load_seg false b lw w)))).
    { cbn [load_raw]. unfold on_side. induction (load_seg false b lw w) as [|[s c] r IH]; [reflexivity|]. cbn. destruct s; cbn; rewrite IH; reflexivity. }
    rewrite E. clear E. intros i j a c N Hi Hj. unfold load_seg in Hi, Hj. cbv zeta in Hi, Hj. unfold bleft, bright, bbottom, btop in *.
    assert (Dir : (px (wb w) =? px (we w) = true /\ py (wb w) < py (we w)) \/ (px (wb w) =? px (we w) = false /\ py (wb w) =? py (we w) = true /\ px (wb w) < px (we w))).
    { destruct P as [P|P]; lia. }
    destruct Dir as [[D1 D2]|(D0 & D1 & D2)].
    + rewrite D1 in Hi, Hj. destruct ((px (ll b) <=? px (wb w)) && (px (wb w) <=? px (ur b))) eqn:A.
      * destruct (py (wb w) <? py (ll b)) eqn:E1; destruct (py (we w) <? py (ll b)) eqn:E2; try (exfalso; lia);
        destruct (py (we w) >? py (ur b)) eqn:E3; destruct (py (wb w) >? py (ur b)) eqn:E4; try (exfalso; lia);
        destruct (py (wb w) >=? py (ur b)) eqn:E5; destruct (py (we w) <=? py (ll b)) eqn:E6; try (exfalso; lia);
        cbn [orb negb app filter map fst snd to_d wb we wl ws] in Hi, Hj;
        (destruct i as [|[|[|i]]]; cbn [nth_error] in Hi; try discriminate Hi; try (destruct i; discriminate Hi));
        (destruct j as [|[|[|j]]]; cbn [nth_error] in Hj; try discriminate Hj; try (destruct j; discriminate Hj)); try congruence;
        injection Hi as <-; injection Hj as <-; cbn [overlap px py]; lia.
      * cbn [filter map fst snd] in Hi. destruct i; discriminate Hi.
    + rewrite D0, D1 in Hi, Hj. destruct ((py (ll b) <=? py (wb w)) && (py (wb w) <=? py (ur b))) eqn:A.
      * destruct (px (wb w) <? px (ll b)) eqn:E1; destruct (px (we w) <? px (ll b)) eqn:E2; try (exfalso; lia);
        destruct (px (we w) >? px (ur b)) eqn:E3; destruct (px (wb w) >? px (ur b)) eqn:E4; try (exfalso; lia);
        destruct (px (wb w) >=? px (ur b)) eqn:E5; destruct (px (we w) <=? px (ll b)) eqn:E6; try (exfalso; lia);
        cbn [orb negb app filter map fst snd to_d wb we wl ws] in Hi, Hj;
        (destruct i as [|[|[|i]]]; cbn [nth_error] in Hi; try discriminate Hi; try (destruct i; discriminate Hi));
        (destruct j as [|[|[|j]]]; cbn [nth_error] in Hj; try discriminate Hj; try (destruct j; discriminate Hj)); try congruence;
        injection Hi as <-; injection Hj as <-; cbn [overlap px py]; lia.
      * cbn [filter map fst snd] in Hi. destruct i; discriminate Hi.
  - cbn [load_raw]. unfold on_side. destruct (origin_in false b o); cbn; intros i j a c N Hi Hj; [|destruct i; discriminate Hi].
    destruct i as [|i]; [|destruct i; discriminate Hi]. destruct j as [|j]; [congruence|destruct j; discriminate Hj].
  - cbn [load_raw]. unfold on_side. destruct (origin_in false b o); cbn; intros i j a c N Hi Hj; [|destruct i; discriminate Hi].
    destruct i as [|i]; [discriminate Hi|destruct i; discriminate Hi].
Qed.
Lemma dobjs_obj F o : In (DFig o) (dobjs F) ->
  (exists w c, In (FSeg w) F /\ In (Route, c) (load_seg false b lw w) /\ o = r_of c) \/
  (exists p l1 l2 d, In (FVia p l1 l2 d) F /\ origin_in false b p = true /\ o = RVia p l1 l2).
Proof.
  unfold dobjs. intros H. apply in_map_iff in H as (g & E & H). destruct g as [c|p l1 l2 d|p l off]; cbn [to_d] in E; [| |discriminate E].
  - left. apply objs_seg in H as (w & Hw & H). exists w, c. split; [exact Hw|]. split; [exact H|]. injection E as <-. reflexivity.
  - right. injection E as <-. apply objs_in in H as (f & Hf & H). destruct f as [w|o' l1' l2' d'|o' l off]; cbn [load_raw] in H.
    + apply in_map_iff in H as ((s & c') & E & H). discriminate E.
    + destruct H as [H|[]]. destruct (origin_in false b o') eqn:Q; [|discriminate H]. injection H as -> -> -> ->. exists p, l1, l2, d. auto.
    + destruct H as [H|[]]. discriminate H.
Qed.
Lemma robjs_in F o : In o (robjs F) <-> (exists w, In (FSeg w) F /\ o = r_of w) \/ (exists p l1 l2 d, In (FVia p l1 l2 d) F /\ o = RVia p l1 l2).
Proof.
  unfold robjs. rewrite in_flat_map. split.
  - intros (f & Hf & H). destruct f as [w|p l1 l2 d|p l off]; cbn [to_d] in H; [| |destruct H].
    + destruct H as [<-|[]]. left. exists w. auto.
    + destruct H as [<-|[]]. right. exists p, l1, l2, d. auto.
  - intros [(w & Hw & ->)|(p & l1 & l2 & d & Hv & ->)]; eexists; (split; [eassumption|]); cbn; auto.
Qed.
Lemma dobjs_wires_ok F : Forall fig_proper F -> no_overlap (robjs F) -> SubnetSpec.wires_ok (dobjs F).
Proof.
  intros P N. split.
  - intros o H. apply dobjs_obj in H as [(w & c & Hw & H & ->)|(p & l1 & l2 & d & _ & _ & ->)]; [|exact I].
    rewrite Forall_forall in P. specialize (P _ Hw). cbn [fig_proper] in P. destruct (raw_sub w c P H) as (_ & S). cbn. lia.
  - change (noov (dobjs F)). induction F as [|f F IH]; [intros i j a c _ Hi; destruct i; discriminate Hi|].
    rewrite dobjs_cons. inversion P as [|? ? Pf PF]; subst.
    assert (NF : no_overlap (robjs F)).
    { intros i j a c Nij Hi Hj. unfold robjs in N. cbn [flat_map] in N. fold (robjs F) in N. set (l0 := robj_of f) in N.
      apply (N (length l0 + i)%nat (length l0 + j)%nat a c ltac:(lia)); rewrite nth_error_app2 by lia; rewrite Nat.add_comm, Nat.add_sub; assumption. }
    apply noov_app; [apply one_fig_noov; exact Pf|apply IH; assumption|].
    intros a c Ha Hc O.
    assert (Fa : exists w, f = FSeg w /\ exists c', In (Route, c') (load_seg false b lw w) /\ a = r_of c').
    { assert (H : In (DFig a) (dobjs [f])) by (rewrite dobjs_cons; apply in_or_app; left; exact Ha).
      apply dobjs_obj in H as [(w & c' & [->|[]] & H & ->)|(p & l1 & l2 & d & _ & _ & ->)]; [eauto|destruct O]. }
    destruct Fa as (w & -> & c' & H1 & ->). cbn [fig_proper] in Pf.
    apply dobjs_obj in Hc as [(w2 & c2 & Hw2 & H2 & ->)|(p & l1 & l2 & d & _ & _ & ->)]; [|destruct O].
    assert (P2 : proper w2) by (rewrite Forall_forall in PF; apply (PF _ Hw2)).
    pose proof (sub_overlap c' w c2 w2 (raw_sub w c' Pf H1) (raw_sub w2 c2 P2 H2) O) as O'.
    assert (I2 : In (r_of w2) (robjs F)) by (apply robjs_in; left; exists w2; auto).
    apply In_nth_error in I2 as (j & Hj). apply (N 0%nat (S j) (r_of w) (r_of w2) ltac:(lia)); [reflexivity|exact Hj|exact O'].
Qed.
End O.

(* ---- conduction ---- *)
Section C.
Variable pins_at : point -> Z -> list Z.
Lemma cd_trans objs k1 k2 k3 : conducts pins_at objs k1 k2 -> conducts pins_at objs k2 k3 -> conducts pins_at objs k1 k3.
Proof. intros H1 H2. induction H2; [exact H1|eapply cd_obj; eauto|eapply cd_pin; eauto]. Qed.
Lemma cd_sym objs k1 k2 : conducts pins_at objs k1 k2 -> conducts pins_at objs k2 k1.
Proof.
  intros H. induction H as [|a c o H IH Ho L1 L2|a c id H IH L1 L2]; [apply cd_refl| |].
  - eapply cd_trans; [|exact IH]. eapply cd_obj; [apply cd_refl|exact Ho|exact L2|exact L1].
  - eapply cd_trans; [|exact IH]. eapply cd_pin; [apply cd_refl|exact L2|exact L1].
Qed.
Lemma cd_mono objs objs' k1 k2 : (forall o, In o objs -> In o objs') -> conducts pins_at objs k1 k2 -> conducts pins_at objs' k1 k2.
Proof. intros S H. induction H; [apply cd_refl|eapply cd_obj; eauto|eapply cd_pin; eauto]. Qed.
Lemma cd_one objs o k1 k2 : In o objs -> lies_on o k1 -> lies_on o k2 -> conducts pins_at objs k1 k2.
Proof. intros H A B. eapply cd_obj; [apply cd_refl|exact H|exact A|exact B]. Qed.
Lemma cd_joined objs i j k1 k2 : In i (pins_at (fst k1) (snd k1)) -> In j (pins_at (fst k2) (snd k2)) -> conducts pins_at objs k1 k2 ->
  joined pins_at objs (Term i) (Term j).
Proof.
  intros Hi Hj H.
  assert (G : exists t, present objs t /\ joined pins_at objs (Term i) t /\ thing_at pins_at t k2).
  { clear Hj. induction H as [|a c o H IH Ho L1 L2|a c id H IH L1 L2].
    - exists (Term i). split; [exact I|]. split; [apply joined_refl; exact I|exact Hi].
    - destruct IH as (t & _ & J & A). exists (Obj o). split; [exact Ho|]. split; [|exact L2]. eapply joined_step; [exact J|exact A|exact L1|exact Ho].
    - destruct IH as (t & _ & J & A). exists (Term id). split; [exact I|]. split; [|exact L2]. eapply joined_step; [exact J|exact A|exact L1|exact I]. }
  destruct G as (t & _ & J & A). eapply joined_step; [exact J|exact A|exact Hj|exact I].
Qed.

(* conduction only depends on the centre lines and the vias *)
Lemma mid_both w x1 y1 x2 y2 l : proper w \/ straight w -> (x2 = x1 + 1 /\ y2 = y1) \/ (x2 = x1 /\ y2 = y1 + 1) -> wl w = l ->
  on_line w (x1 + x2) (y1 + y2) -> onw w (mkPt x1 y1, l) /\ onw w (mkPt x2 y2, l).
Proof. unfold proper, straight, on_line, onw. cbn [fst snd px py]. intros P S <- O. lia. Qed.
Lemma cd_lines A B k1 k2 : Forall fig_straight A -> Forall fig_straight B ->
  (forall l x y, lines A l x y -> lines B l x y) -> (forall f, not_wire f = true -> In f A -> In f B) ->
  conducts pins_at (robjs A) k1 k2 -> conducts pins_at (robjs B) k1 k2.
Proof.
  intros SA SB L V H. rewrite Forall_forall in SA, SB.
  assert (G : forall o, In o (robjs A) -> forall a c, lies_on o a -> lies_on o c -> conducts pins_at (robjs B) a c).
  { intros o Ho. apply robjs_in in Ho as [(w & Hw & ->)|(p & l1 & l2 & d & Hv & ->)].
    - assert (Sw := SA _ Hw). cbn [fig_straight] in Sw.
      assert (Step : forall x1 y1 x2 y2, (x2 = x1 + 1 /\ y2 = y1) \/ (x2 = x1 /\ y2 = y1 + 1) -> onw w (mkPt x1 y1, wl w) -> onw w (mkPt x2 y2, wl w) ->
                conducts pins_at (robjs B) (mkPt x1 y1, wl w) (mkPt x2 y2, wl w)).
      { intros x1 y1 x2 y2 S O1 O2. destruct (L (wl w) (x1 + x2) (y1 + y2)) as (w' & Hw' & El & O).
        { exists w. split; [exact Hw|]. split; [reflexivity|]. unfold onw, on_line in *. cbn [fst snd px py] in *. lia. }
        assert (Sw' := SB _ Hw'). cbn [fig_straight] in Sw'.
        destruct (mid_both w' x1 y1 x2 y2 (wl w) (or_intror Sw') S El O) as [P1 P2].
        apply (cd_one _ (r_of w')); [apply robjs_in; left; exists w'; auto| |]; apply lies_on_w; assumption. }
      assert (Run : forall n x y, (px (wb w) < px (we w) -> onw w (mkPt x y, wl w) -> onw w (mkPt (x + Z.of_nat n) y, wl w) -> conducts pins_at (robjs B) (mkPt x y, wl w) (mkPt (x + Z.of_nat n) y, wl w)) /\
                (onw w (mkPt x y, wl w) -> onw w (mkPt x (y + Z.of_nat n), wl w) -> conducts pins_at (robjs B) (mkPt x y, wl w) (mkPt x (y + Z.of_nat n), wl w))).
      { induction n as [|n IH]; intros x y.
        - cbn [Z.of_nat]. rewrite !Z.add_0_r. split; intros; apply cd_refl.
        - split; intros.
          + assert (M : onw w (mkPt (x + Z.of_nat n) y, wl w)) by (unfold onw in *; cbn [fst snd px py] in *; lia).
            eapply cd_trans; [apply (proj1 (IH x y)); assumption|]. apply Step; [left; lia|exact M|assumption].
          + assert (M : onw w (mkPt x (y + Z.of_nat n), wl w)) by (unfold onw in *; cbn [fst snd px py] in *; lia).
            eapply cd_trans; [apply (proj2 (IH x y)); assumption|]. apply Step; [right; lia|exact M|assumption]. }
      assert (Up : forall a c, onw w a -> onw w c -> px (fst a) <= px (fst c) -> py (fst a) <= py (fst c) -> conducts pins_at (robjs B) a c).
      { intros [[xa ya] la] [[xc yc] lc] Oa Oc Hx Hy. assert (la = wl w) by apply Oa. assert (lc = wl w) by apply Oc. subst la lc. cbn [fst snd px py] in *.
        destruct Sw as [[Sx Sy]|[Sy Sx]].
        - assert (xc = xa) by (unfold onw in *; cbn [fst snd px py] in *; lia). subst xc.
          pose proof (Run (Z.to_nat (yc - ya)) xa ya) as [_ R]. rewrite Z2Nat.id in R by lia. replace (ya + (yc - ya)) with yc in R by lia. apply R; assumption.
        - assert (yc = ya) by (unfold onw in *; cbn [fst snd px py] in *; lia). subst yc.
          destruct (Z.eq_dec xa xc) as [->|Nx]; [apply cd_refl|].
          pose proof (Run (Z.to_nat (xc - xa)) xa ya) as [R _]. rewrite Z2Nat.id in R by lia. replace (xa + (xc - xa)) with xc in R by lia.
          apply R; try assumption. unfold onw in *. cbn [fst snd px py] in *. lia. }
      intros a c Oa Oc. apply lies_on_w in Oa, Oc.
      assert (D : (px (fst a) <= px (fst c) /\ py (fst a) <= py (fst c)) \/ (px (fst c) <= px (fst a) /\ py (fst c) <= py (fst a))).
      { clear - Sw Oa Oc. destruct Oa as (_ & A1 & A2), Oc as (_ & B1 & B2). destruct Sw as [[Sx Sy]|[Sy Sx]]; lia. }
      destruct D as [[D1 D2]|[D1 D2]]; [apply Up; assumption|apply cd_sym, Up; assumption].
    - intros a c Oa Oc. apply (cd_one _ (RVia p l1 l2)); [|exact Oa|exact Oc]. apply robjs_in. right. exists p, l1, l2, d. split; [|reflexivity]. apply V; [reflexivity|exact Hv]. }
  induction H as [|a c o H IH Ho L1 L2|a c id H IH L1 L2]; [apply cd_refl| |].
  - eapply cd_trans; [exact IH|]. apply (G o Ho); assumption.
  - eapply cd_pin; eauto.
Qed.
End C.
