(* Proofs about the blocked edges after set-up: via edges, safety, and the whole. *)
From Verif Require Import Base Stl GeomModel GeomSpec GeomProofs GridModel GridSpec GridProofs GridProofs2 CostModel CostSpec CostProofs CostProofs2 CostProofs3 CostProofs4 SetupModel SetupSpec SetupProofs SetupProofs2 SetupProofs3 SetupProofs4.

Lemma same_box a b : box_eq a b = true <-> a = b.
Proof.
  unfold box_eq, pt_eq. rewrite !andb_true_iff, !Z.eqb_eq. destruct a as [[a1 a2] [a3 a4]], b as [[b1 b2] [b3 b4]]; cbn [ll ur px py]. split.
  - intros [[-> ->] [-> ->]]. reflexivity.
  - intros H. injection H as -> -> -> ->. auto.
Qed.
Lemma in_adj_box E l b c q : normalised b -> 0 <= cu_spc c -> 0 <= ce_width E l ->
  (in_box q (adj_box E l b c) <->
   (if cu_c2c c then Z.abs (px q - px (midpoint b)) <= cu_spc c /\ Z.abs (py q - py (midpoint b)) <= cu_spc c
    else let w := cu_spc c + Z.quot (ce_width E l) 2 in bleft b - w <= px q <= bright b + w /\ bbottom b - w <= py q <= btop b + w)).
Proof.
  intros [N1 N2] SP W. unfold adj_box. destruct (cu_c2c c).
  - change (midpoint b) with (centre b). unfold in_box, box_set. rewrite !Z.gtb_ltb.
    replace (px (centre b) + cu_spc c <? px (centre b) - cu_spc c) with false by (symmetry; apply Z.ltb_ge; lia).
    replace (py (centre b) + cu_spc c <? py (centre b) - cu_spc c) with false by (symmetry; apply Z.ltb_ge; lia). cbn [ll ur px py]. lia.
  - cbv zeta. assert (0 <= Z.quot (ce_width E l) 2) by (apply Z.quot_pos; lia). remember (cu_spc c + Z.quot (ce_width E l) 2) as w.
    assert (0 <= w) by lia. unfold box_bloat, in_box, box_set, bleft, bright, bbottom, btop in *. rewrite !Z.gtb_ltb.
    replace (px (ur b) + w <? px (ll b) - w) with false by (symmetry; apply Z.ltb_ge; lia).
    replace (py (ur b) + w <? py (ll b) - w) with false by (symmetry; apply Z.ltb_ge; lia). cbn [ll ur px py]. lia.
Qed.
Section fixed.
  Variables (S : senv) (E : cenv) (g : gg) (p : midx) (d : dir).
  Hypotheses (GS : grid_sorted g) (LO : layers_ok S g) (SO : shapes_ok S E) (D : d <> DUnk) (VP : valid g p) (VQ : valid g (step p d)).
  Let q0 := owner p d. Let a0 := battr d. Let E0 := no_svia E.
  Lemma adj_viol l b cuts c : normalised b -> (adj_rule_viol S l b cuts c = true <->
    exists o, In o (se_q S l (box_bloat cuts (cu_within c))) /\ is_power_via o /\ fo_box o <> b /\ cut_near c b (fo_box o) (cu_spc c)).
  Proof.
    intros NB. unfold adj_rule_viol. rewrite existsb_exists. split.
    - intros (o & HO & H). exists o. split; [exact HO|]. destruct (fo_kind o) as [| | | |[] cc] eqn:K; try discriminate H.
      apply andb_true_iff in H as [H1 H2]. apply Z.ltb_lt in H2. split; [exists cc; exact K|]. split.
      + intros C. assert (T : box_eq b (fo_box o) = true) by (apply same_box; auto). rewrite T in H1. discriminate H1.
      + apply (cut_near_iff c _ _ _ NB (proj1 SO _ _ _ HO)). exact H2.
    - intros (o & HO & [cc K] & NE & H). exists o. split; [exact HO|]. rewrite K. apply andb_true_iff. split.
      + apply negb_true_iff, not_true_iff_false. rewrite same_box. auto.
      + apply Z.ltb_lt. apply (cut_near_iff c _ _ _ NB (proj1 SO _ _ _ HO)) in H. exact H.
  Qed.
  Lemma lower_end q : at_end p d q DU <-> planar d = false /\ (q = p \/ q = step p d) /\ mz q = Z.min (mz p) (mz (step p d)).
  Proof.
    split.
    - intros [[-> <-]|[-> O]]; [split; [reflexivity|split; [auto|cbn; lia]]|]. destruct d; try discriminate O. split; [reflexivity|split; [auto|cbn; lia]].
    - intros (P & H & M). destruct d; try discriminate P; try (exfalso; apply D; reflexivity); destruct H as [-> | ->]; cbn in M; try lia; [right|left]; split; reflexivity.
  Qed.
  Lemma adj_crowded q : at_end p d q DU -> (crowded S E g q <->
    let l := getLayerNum g (mz q) + 1 in exists o cuts, In o (found S l) /\ fo_kind o = KVia true cuts /\ exists c, In c (ce_cut E l) /\ cu_adj c <> -1 /\
      adj_rule_viol S l (fo_box o) cuts c = true /\ in_box (getPoint g q) (adj_box E l (fo_box o) c)).
  Proof.
    intros AE. unfold crowded. cbv zeta. set (l := getLayerNum g (mz q) + 1). destruct SO as (SN & _ & SP & SW). split.
    - intros (o & o' & cuts & c & HO & K & HC & NA & HO' & PV & NE & CN & B). exists o, cuts. split; [exact HO|]. split; [exact K|]. exists c. split; [exact HC|]. split; [exact NA|].
      split; [apply adj_viol; [apply (SN _ _ _ HO)|exists o'; auto]|]. pose proof (SP l) as F. rewrite Forall_forall in F. apply in_adj_box; [apply (SN _ _ _ HO)|apply F, HC|apply SW|exact B].
    - intros (o & cuts & HO & K & c & HC & NA & V & B). apply adj_viol in V as (o' & HO' & PV & NE & CN); [|apply (SN _ _ _ HO)].
      pose proof (SP l) as F. rewrite Forall_forall in F. exists o, o', cuts, c. apply in_adj_box in B; [|apply (SN _ _ _ HO)|apply F, HC|apply SW].
      refine (conj HO (conj K (conj HC (conj NA (conj HO' (conj PV (conj NE (conj CN B)))))))).
  Qed.
  Section vias.
    Hypothesis PD : planar d = false.
    Lemma via_touch : tch p d (flat_map (layer_ops S E g) (zrange (se_bot S) (se_top S))) <-> fixed_forbids_via S E g p d.
    Proof.
      unfold tch. rewrite hit_flat. split.
      - intros (l & HL & T). unfold layer_ops in T. destruct (slot S g l) as [[r z]|] eqn:SL; [|destruct (tch_nil p d T)].
        assert (WR : forall o pg, In o (found S l) -> fo_kind o = KWire pg -> r = true).
        { intros o pg HO K. pose proof (wire_on_rout S E SO l o pg HO K) as R. rewrite (slot_rout S g l R) in SL. congruence. }
        assert (NS : forall o, In o (found S l) -> r = true -> on_shape g (fo_box o) z p d -> touches S g p d o).
        { intros o HO -> T'. destruct (se_rout S l) eqn:R.
          - rewrite (slot_rout S g l R) in SL. injection SL as <-. apply (shape_touch S g p d GS VP VQ l o (rout_in S g LO l HL R) HO T').
          - apply (slot_cut S g l true z) in SL as (C & _); [discriminate C|exact R]. }
        apply hit_app in T as [T|T]; apply hit_flat in T as (o & HO & T).
        + apply (tch_pass1 E g p d GS D VP VQ) in T as (R & K & T). left. exists o. auto.
        + apply (tch_pass2 S E g p d GS D VP VQ) in T; [|intros pg K; apply (WR o pg HO K)]. destruct T as [(_ & _ & C & _)|[(K & T)|(R & c & K & T)]]; [congruence| |].
          * left. exists o. split; [auto|]. apply NS; [exact HO|apply (WR o true HO K)|exact T].
          * right. apply (tch_adj S E g p d GS D VP VQ) in T as (_ & c' & q & HC & NA & V & AE & Hz & B). exists q. apply lower_end in AE as AE'. destruct AE' as (_ & AQ & AM). split; [exact AQ|]. split; [exact AM|].
            assert (R' : se_rout S l = false) by (apply not_true_iff_false; intros R'; rewrite (slot_rout S g l R') in SL; congruence).
            apply (slot_cut S g l r z) in SL as (_ & _ & LB & RL & _); [|exact R'].
            assert (IL : In (l - 1) (gzs g)) by (apply (rout_in S g LO); [apply zrange_in in HL; apply zrange_in; lia|exact RL]).
            pose proof (valid_z g q (end_valid g p d q DU VP VQ AE)) as ZR. symmetry in Hz. apply (zof_spec g (l - 1) (mz q) GS IL ZR) in Hz.
            apply (adj_crowded q AE). cbv zeta. replace (getLayerNum g (mz q) + 1) with l by lia. exists o, c. split; [exact HO|]. split; [exact K|]. exists c'. auto.
      - intros [(o & K & T)|(q & AQ & AM & CR)].
        + destruct (touch_shape S g p d GS VP VQ o T) as (l & IL & HO & T' & _). destruct (in_rout S g LO l IL) as [LR RL]. exists l. split; [exact LR|].
          unfold layer_ops. rewrite (slot_rout S g l RL). apply hit_app. destruct K as [K|K]; [left|right]; apply hit_flat; exists o; (split; [exact HO|]).
          * apply (tch_pass1 E g p d GS D VP VQ). auto.
          * apply (tch_pass2 S E g p d GS D VP VQ); [reflexivity|]. right. left. auto.
        + assert (AE : at_end p d q DU) by (apply lower_end; auto). apply (adj_crowded q AE) in CR. cbv zeta in CR. set (l := getLayerNum g (mz q) + 1) in *.
          destruct CR as (o & cuts & HO & K & c & HC & NA & V & B). pose proof (end_valid g p d q DU VP VQ AE) as VV. pose proof (valid_z g q VV) as ZR.
          assert (UP : mz q + 1 < nz g).
          { destruct AE as [[-> <-]|[-> O]].
            - pose proof (valid_z g _ VQ) as Z'. cbn in Z'. lia.
            - destruct d; try discriminate O. pose proof (valid_z g _ VP) as Z'. cbn. lia. }
          destruct LO as (L1 & L2 & L3). destruct (L3 (mz q) ltac:(lia) UP) as [CL TL]. fold l in CL, TL.
          pose proof (valid_layer g q VV) as IL. apply L1 in IL as [LB RL]. replace (getLayerNum g (mz q)) with (l - 1) in LB, RL by (unfold l; lia).
          exists l. split; [apply zrange_in; lia|]. unfold layer_ops, slot. rewrite (L2 l CL), CL, RL. replace (se_bot S <=? l - 1) with true by (symmetry; apply Z.leb_le; lia). cbn [andb].
          apply hit_app. right. apply hit_flat. exists o. split; [exact HO|]. apply (tch_pass2 S E g p d GS D VP VQ).
          * intros pg K'. congruence.
          * right. right. split; [reflexivity|]. exists cuts. split; [exact K|]. apply (tch_adj S E g p d GS D VP VQ). split; [reflexivity|]. exists c, q.
            refine (conj HC (conj NA (conj V (conj AE (conj _ B))))). replace (l - 1) with (getLayerNum g (mz q)) by (unfold l; lia). symmetry.
            apply (zof_spec g _ (mz q) GS (valid_layer g q VV) ZR). reflexivity.
    Qed.
    Lemma fixed_via : (fixed_forbids_via S E g p d /\ decided q0 a0 (fixed_ops S E g) = Some true) \/
      (~ fixed_forbids_via S E g p d /\ decided q0 a0 (fixed_ops S E g) = None).
    Proof.
      unfold q0, a0. rewrite (fixed_decided S E g p d).
      assert (H : hf (owner p d) (battr d) true (flat_map (layer_ops S E g) (zrange (se_bot S) (se_top S)))).
      { apply hf_flat. intros l HL. unfold layer_ops. destruct (slot S g l) as [[r z]|]; [|intros ? []]. apply hf_app; apply hf_flat; intros o HO.
        - apply (hf_pass1 E g p d).
        - apply (hf_pass2_set S E g p d GS D VP VQ). intros _. exact PD. }
      destruct (decided_hf _ _ true _ H) as [[T ->]|[N ->]]; [left|right]; (split; [|reflexivity]); rewrite <- via_touch; assumption.
    Qed.
  End vias.
  Lemma fixed_all : (fixed_forbids S E g p d /\ decided q0 a0 (fixed_ops S E g) = Some true) \/
    (~ fixed_forbids S E g p d /\ decided q0 a0 (fixed_ops S E g) <> Some true).
  Proof.
    unfold fixed_forbids. destruct (planar d) eqn:PD.
    - destruct (fixed_wire S E g p d GS LO SO D VP VQ PD) as [H|[A [B|B]]]; [left; exact H|right|right]; (split; [exact A|]); unfold q0, a0; rewrite B; discriminate.
    - destruct (fixed_via PD) as [H|[A B]]; [left; exact H|right]; (split; [exact A|]); rewrite B; discriminate.
  Qed.
End fixed.
