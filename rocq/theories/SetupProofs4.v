(* Proofs about the blocked edges after set-up: the fixed shapes, and the whole. *)
From Verif Require Import Base Stl GeomModel GeomSpec GeomProofs GridModel GridSpec GridProofs GridProofs2 CostModel CostSpec CostProofs CostProofs2 CostProofs3 CostProofs4 SetupModel SetupSpec SetupProofs SetupProofs2 SetupProofs3.

Definition hf (q : midx) (a : attr) (b : bool) (ops : list gop) : Prop := forall o, In o ops -> hits o q a = true -> flag_of o = Some b.
Lemma hf_app q a b x y : hf q a b x -> hf q a b y -> hf q a b (x ++ y).
Proof. intros H H' o I. apply in_app_iff in I as [I|I]; auto. Qed.
Lemma hf_flat {A} q a b (F : A -> list gop) l : (forall x, In x l -> hf q a b (F x)) -> hf q a b (flat_map F l).
Proof. intros H o I. apply in_flat_map in I as (x & Hx & I). apply (H x Hx o I). Qed.
Lemma hf_nohit q a b ops : ~ hit_in q a ops -> hf q a b ops.
Proof. intros N o I T. exfalso. apply N. exists o. auto. Qed.
Lemma hf_planar q a g b z s : hf q a s (blk_planar g b z s).
Proof. intros o I _. unfold blk_planar in I. apply in_flat_map in I as (p & _ & I). apply in_map_iff in I as (e & <- & _). destruct s; reflexivity. Qed.
Lemma hf_via q a g b z : hf q a true (blk_via g b z).
Proof. intros o I _. unfold blk_via in I. apply in_flat_map in I as (p & _ & I). destruct I as [<-|[<-|[]]]; reflexivity. Qed.
Lemma hf_adj q a S E g l b pg cuts : hf q a true (mod_adj S E g l b pg cuts).
Proof.
  intros o I _. unfold mod_adj in I. destruct (negb pg); [destruct I|]. apply in_flat_map in I as (c & _ & I). destruct (_ =? _); [destruct I|].
  destruct (adj_rule_viol _ _ _ _ _); [|destruct I]. apply in_map_iff in I as (p & <- & _). reflexivity.
Qed.
Lemma decided_hf q a b ops : hf q a b ops -> (hit_in q a ops /\ decided q a ops = Some b) \/ (~ hit_in q a ops /\ decided q a ops = None).
Proof. intros H. destruct (hit_dec q a ops) as [Y|N]; [left; split; [exact Y|apply decided_all; [exact H|exact Y]]|right; split; [exact N|apply decided_none, N]]. Qed.

Section fixed.
  Variables (S : senv) (E : cenv) (g : gg) (p : midx) (d : dir).
  Hypotheses (GS : grid_sorted g) (LO : layers_ok S g) (SO : shapes_ok S E) (D : d <> DUnk) (VP : valid g p) (VQ : valid g (step p d)).
  Let q0 := owner p d. Let a0 := battr d. Let E0 := no_svia E.
  Lemma hf_so b ops : shape_ops ops -> hf q0 a0 b ops.
  Proof. intros H. apply hf_nohit, so_nohit; [apply battr_flag|exact H]. Qed.
  Lemma t3 : fixed_type 3. Proof. right. reflexivity. Qed.
  Lemma hf_pass1 r z o : hf q0 a0 true (pass1 E0 g r z o).
  Proof.
    unfold pass1. destruct (fo_kind o); try (intros ? []). destruct r; [|apply hf_so, so_cut_cost].
    repeat apply hf_app; auto using hf_planar, hf_via; apply hf_so; auto using so_mod_planar, so_mod_via, so_eol, t3.
  Qed.
  Lemma hf_pass2_set l r z o : (is_pin o -> planar d = false) -> hf q0 a0 true (pass2 S E0 g l r z o).
  Proof.
    intros NP. unfold pass2. destruct (fo_kind o) as [|n t|n t|pg|pg cuts] eqn:K; try (intros ? []).
    - destruct r; [|apply hf_so, so_cut_cost]. apply hf_app.
      + apply hf_nohit. intros T. apply (tch_planar g p d GS D VP VQ) in T as [C _]. rewrite NP in C; [discriminate C|exists n, t; exact K].
      + apply hf_so, so_if; [apply so_app; auto using so_mod_planar, so_eol, t3|apply so_nil].
    - repeat apply hf_app; try (solve [apply hf_so; auto using so_mod_planar, so_mod_via, so_eol, t3]). destruct pg; [apply hf_app; auto using hf_planar, hf_via|intros ? []].
    - destruct r; [apply hf_so; repeat apply so_app; auto using so_mod_planar, so_mod_via, so_eol, t3|]. apply hf_app; [apply hf_adj|apply hf_so, so_cut_cost].
  Qed.
  Lemma hf_pass2_pin l r z o : is_pin o -> hf q0 a0 false (pass2 S E0 g l r z o).
  Proof.
    intros (n & t & K). unfold pass2. rewrite K. destruct r; [|apply hf_so, so_cut_cost]. apply hf_app; [apply hf_planar|].
    apply hf_so, so_if; [apply so_app; auto using so_mod_planar, so_eol, t3|apply so_nil].
  Qed.
  (* ---- wire edges ---- *)
  Section wires.
    Hypothesis PD : planar d = true.
    Let L := getLayerNum g (mz p).
    Lemma L_in : In L (gzs g). Proof. apply (valid_layer g p VP). Qed.
    Lemma L_rout : se_rout S L = true. Proof. apply (in_rout S g LO L L_in). Qed.
    Lemma zof_L : zof g L = mz p.
    Proof. apply (zof_spec g L (mz p) GS L_in (valid_z g p VP)). reflexivity. Qed.
    Lemma touch_L o : In o (found S L) -> (on_shape g (fo_box o) (mz p) p d <-> touches S g p d o).
    Proof.
      intros H. split.
      - intros T. apply (shape_touch S g p d GS VP VQ L o L_in H). rewrite zof_L. exact T.
      - intros T. destruct (touch_shape S g p d GS VP VQ o T) as (l & _ & _ & T' & EL). rewrite (EL PD) in T'. fold L in T'. rewrite zof_L in T'. exact T'.
    Qed.
    Lemma other_layer l : In l (zrange (se_bot S) (se_top S)) -> l <> L -> ~ hit_in q0 a0 (layer_ops S E g l).
    Proof.
      intros HL NL T. unfold layer_ops in T. destruct (slot S g l) as [[r z]|] eqn:SL; [|destruct (tch_nil p d T)].
      assert (WR : forall o pg, In o (found S l) -> fo_kind o = KWire pg -> r = true).
      { intros o pg HO K. pose proof (wire_on_rout S E SO l o pg HO K) as R. rewrite (slot_rout S g l R) in SL. congruence. }
      assert (NS : forall b, r = true -> ~ on_shape g b z p d).
      { intros b -> (q & e & AE & Hz & _). destruct (se_rout S l) eqn:R.
        - rewrite (slot_rout S g l R) in SL. injection SL as <-. rewrite (end_layer p d q e PD AE) in Hz. symmetry in Hz.
          apply (zof_spec g l (mz p) GS (rout_in S g LO l HL R) (valid_z g p VP)) in Hz. apply NL. unfold L. congruence.
        - apply (slot_cut S g l true z) in SL as (C & _); [discriminate C|exact R]. }
      apply hit_app in T as [T|T]; apply hit_flat in T as (o & HO & T).
      - apply (tch_pass1 E g p d GS D VP VQ) in T as (R & _ & T). apply (NS _ R T).
      - apply (tch_pass2 S E g p d GS D VP VQ) in T; [|intros pg K; apply (WR o pg HO K)]. destruct T as [(_ & R & _ & T)|[(K & T)|(_ & c & _ & T)]].
        + apply (NS _ R T).
        + apply (NS _ (WR o true HO K) T).
        + apply (tch_adj S E g p d GS D VP VQ) in T as (_ & c' & q & _ & _ & _ & AE & _). pose proof (adj_vertical p d q AE). congruence.
    Qed.
    Let P2 (res : list fobj) := flat_map (pass2 S E0 g L true (mz p)) res.
    Lemma scan res : (forall o, In o res -> In o (found S L)) ->
      (decided q0 a0 (P2 res) = Some true /\ exists l1 o l2, res = l1 ++ o :: l2 /\ is_power_wire o /\ touches S g p d o /\ forall o', In o' l2 -> touches S g p d o' -> ~ is_pin o') \/
      (decided q0 a0 (P2 res) = Some false /\ exists l1 o l2, res = l1 ++ o :: l2 /\ is_pin o /\ touches S g p d o /\ forall o', In o' l2 -> touches S g p d o' -> ~ is_power_wire o') \/
      (decided q0 a0 (P2 res) = None /\ forall o, In o res -> touches S g p d o -> ~ is_pin o /\ ~ is_power_wire o).
    Proof.
      induction res as [|o res IH] using rev_ind; intros HI; [right; right; split; [reflexivity|intros o []]|].
      assert (HO : In o (found S L)) by (apply HI, in_app_iff; right; left; reflexivity).
      specialize (IH ltac:(intros; apply HI, in_app_iff; auto)).
      assert (EP : P2 (res ++ [o]) = P2 res ++ pass2 S E0 g L true (mz p) o) by (unfold P2; rewrite flat_map_app; cbn [flat_map]; rewrite app_nil_r; reflexivity).
      rewrite EP, decided_app. pose proof (tch_pass2 S E g p d GS D VP VQ L true (mz p) o ltac:(reflexivity)) as TP. rewrite (touch_L o HO) in TP. fold E0 in TP.
      assert (TP' : tch p d (pass2 S E0 g L true (mz p) o) <-> touches S g p d o /\ (is_pin o \/ is_power_wire o)).
      { rewrite TP. split; [intros [(A & _ & _ & B)|[(A & B)|(C & _)]]; [tauto|tauto|discriminate C]|intros [A [B|B]]; [left; auto|right; left; auto]]. }
      clear TP EP. assert (KD : is_pin o \/ ~ is_pin o) by (unfold is_pin; destruct (fo_kind o); first [left; eauto; fail|right; intros (? & ? & C); discriminate C]).
      destruct KD as [KP|KP].
      - destruct (decided_hf q0 a0 false _ (hf_pass2_pin L true (mz p) o KP)) as [[T ->]|[N ->]].
        + right. left. split; [reflexivity|]. exists res, o, []. split; [reflexivity|]. split; [exact KP|]. split; [apply TP', T|intros o' []].
        + assert (NT : ~ touches S g p d o) by (intros T; apply N, TP'; auto). clear N TP'.
          destruct IH as [(-> & l1 & x & l2 & -> & A & B & C)|[(-> & l1 & x & l2 & -> & A & B & C)|(-> & A)]].
          * left. split; [reflexivity|]. exists l1, x, (l2 ++ [o]). rewrite <- app_assoc. split; [reflexivity|]. split; [exact A|]. split; [exact B|].
            intros o' H T. apply in_app_iff in H as [H|[<-|[]]]; [apply (C o' H T)|contradiction].
          * right. left. split; [reflexivity|]. exists l1, x, (l2 ++ [o]). rewrite <- app_assoc. split; [reflexivity|]. split; [exact A|]. split; [exact B|].
            intros o' H T. apply in_app_iff in H as [H|[<-|[]]]; [apply (C o' H T)|contradiction].
          * right. right. split; [reflexivity|]. intros o' H T. apply in_app_iff in H as [H|[<-|[]]]; [apply (A o' H T)|contradiction].
      - destruct (decided_hf q0 a0 true _ (hf_pass2_set L true (mz p) o ltac:(intros; contradiction))) as [[T ->]|[N ->]].
        + apply TP' in T as [T [C|K]]; [contradiction|]. left. split; [reflexivity|]. exists res, o, []. split; [reflexivity|]. split; [exact K|]. split; [exact T|intros o' []].
        + assert (NT : touches S g p d o -> ~ is_power_wire o) by (intros T K; apply N, TP'; auto). clear N TP'.
          destruct IH as [(-> & l1 & x & l2 & -> & A & B & C)|[(-> & l1 & x & l2 & -> & A & B & C)|(-> & A)]].
          * left. split; [reflexivity|]. exists l1, x, (l2 ++ [o]). rewrite <- app_assoc. split; [reflexivity|]. split; [exact A|]. split; [exact B|].
            intros o' H T. apply in_app_iff in H as [H|[<-|[]]]; [apply (C o' H T)|exact KP].
          * right. left. split; [reflexivity|]. exists l1, x, (l2 ++ [o]). rewrite <- app_assoc. split; [reflexivity|]. split; [exact A|]. split; [exact B|].
            intros o' H T. apply in_app_iff in H as [H|[<-|[]]]; [apply (C o' H T)|apply NT, T].
          * right. right. split; [reflexivity|]. intros o' H T. apply in_app_iff in H as [H|[<-|[]]]; [apply (A o' H T)|split; [exact KP|apply NT, T]].
    Qed.
    Lemma touches_L o : touches S g p d o -> In o (found S L).
    Proof. intros (q & e & AE & HO & _). rewrite (end_layer p d q e PD AE) in HO. exact HO. Qed.
    Lemma fixed_wire : (fixed_forbids_wire S g p d /\ decided q0 a0 (fixed_ops S E g) = Some true) \/
      (~ fixed_forbids_wire S g p d /\ (decided q0 a0 (fixed_ops S E g) = Some false \/ decided q0 a0 (fixed_ops S E g) = None)).
    Proof.
      unfold q0, a0. rewrite (fixed_decided S E g p d). fold q0 a0.
      destruct (in_rout S g LO L L_in) as [LR _].
      rewrite (decided_pick q0 a0 (layer_ops S E g) L _ (zrange_NoDup _ _) LR other_layer).
      unfold layer_ops. rewrite (slot_rout S g L L_rout), zof_L, decided_app. fold E0. fold (P2 (found S L)).
      destruct (scan (found S L) ltac:(auto)) as [(-> & l1 & o & l2 & EQ & A & B & C)|[(-> & l1 & o & l2 & EQ & A & B & C)|(-> & A)]].
      - left. split; [|reflexivity]. right. exists l1, o, l2. fold L. auto.
      - right. split; [|left; reflexivity]. intros [[_ N]|(m1 & x & m2 & EQ' & K & T & N)].
        + apply (N o B A).
        + fold L in EQ'. rewrite EQ in EQ'. (* positions of o and x *)
          assert (G : forall l1 l2 m1 m2, l1 ++ o :: l2 = m1 ++ x :: m2 -> (In x l2 \/ In o m2) \/ o = x).
          { clear. induction l1 as [|y l1 IH]; intros l2 m1 m2 EQ; destruct m1 as [|y' m1]; cbn in EQ; inversion EQ; subst; auto.
            - left. left. apply in_app_iff. right. left. reflexivity.
            - left. right. apply in_app_iff. right. left. reflexivity.
            - eapply IH; eauto. }
          destruct (G _ _ _ _ EQ') as [[H|H]| ->].
          * apply (C x H T K).
          * apply (N o H B A).
          * destruct A as (n & t & A). unfold is_power_wire in K. congruence.
      - destruct (decided_hf q0 a0 true (flat_map (pass1 E0 g true (mz p)) (found S L)) (hf_flat _ _ _ _ _ ltac:(intros; apply hf_pass1))) as [[T ->]|[N ->]].
        + left. split; [|reflexivity]. left. apply hit_flat in T as (o & HO & T). apply (tch_pass1 E g p d GS D VP VQ) in T as (_ & K & T). apply (touch_L o HO) in T.
          split; [eauto|]. intros o' T' KP. apply (proj1 (A o' (touches_L o' T') T')), KP.
        + right. split; [|right; reflexivity]. intros [[(o & K & T) _]|(m1 & x & m2 & EQ' & K & T & _)].
          * apply N, hit_flat. exists o. split; [apply touches_L, T|]. apply (tch_pass1 E g p d GS D VP VQ). split; [reflexivity|]. split; [exact K|]. apply touch_L; [apply touches_L, T|exact T].
          * apply (proj2 (A x (touches_L x T) T)), K.
    Qed.
  End wires.
End fixed.
