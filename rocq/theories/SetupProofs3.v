(* Proofs about the blocked edges after set-up: which of the rules decides. *)
From Verif Require Import Base Stl GeomModel GeomSpec GeomProofs GridModel GridSpec GridProofs GridProofs2 CostModel CostSpec CostProofs CostProofs2 CostProofs3 CostProofs4 SetupModel SetupSpec SetupProofs SetupProofs2.

Lemma decided_pick {A} q a (F : A -> list gop) L ls : NoDup ls -> In L ls -> (forall l, In l ls -> l <> L -> ~ hit_in q a (F l)) ->
  decided q a (flat_map F ls) = decided q a (F L).
Proof.
  induction ls as [|l ls IH]; intros ND I N; [destruct I|]. apply NoDup_cons_iff in ND as [NI ND]. cbn [flat_map]. rewrite decided_app. destruct I as [->|I].
  - rewrite (decided_none q a (flat_map F ls)); [reflexivity|]. rewrite hit_flat. intros (x & Hx & T). apply (N x); [right; exact Hx|intros ->; contradiction|exact T].
  - rewrite (IH ND I) by (intros; apply N; [right|]; auto). rewrite (decided_none q a (F l)); [destruct (decided q a (F L)); reflexivity|].
    apply N; [left; reflexivity|intros ->; contradiction].
Qed.
Lemma step_neq p d : d <> DUnk -> step p d <> p.
Proof. intros D H. destruct p as [x y z], d; cbn in H; try congruence; injection H; lia. Qed.
Lemma end_unique p d q e e' : d <> DUnk -> at_end p d q e -> at_end p d q e' -> e = e'.
Proof. intros D [[A B]|[A B]] [[A' B']|[A' B']]; subst; try reflexivity; exfalso; apply (step_neq p d D); congruence. Qed.

(* ---- access points ---- *)
Lemma ap_one p d a : d <> DUnk ->
  (exists e, at_end p d (a_mi a) e /\ decided (owner p d) (battr d) (ap_ops [a]) = Some (negb (a_ok a e))) \/
  (forall e, ~ at_end p d (a_mi a) e) /\ decided (owner p d) (battr d) (ap_ops [a]) = None.
Proof.
  intros D. unfold ap_ops. cbn [flat_map]. rewrite app_nil_r, decided_app.
  assert (NV : decided (owner p d) (battr d) (match a_via a with Some _ => [SetSVia (a_mi a)] | None => [] end) = None).
  { apply decided_none. intros (o & H & T). destruct (a_via a); [|destruct H]. destruct H as [<-|[]]. apply hits_true in T as [_ T]. cbn in T. destruct d; discriminate T. }
  rewrite NV.
  assert (ALL : forall e, e <> DUnk -> In e [DE; DW; DN; DS; DU; DD]) by (intros e He; destruct e; cbn; auto 8; congruence).
  assert (HO : forall o, In o (map (fun e => if a_ok a e then ResetBlocked (a_mi a) e else SetBlocked (a_mi a) e) [DE; DW; DN; DS; DU; DD]) -> hits o (owner p d) (battr d) = true ->
    exists e, at_end p d (a_mi a) e /\ flag_of o = Some (negb (a_ok a e))).
  { intros o H T. apply in_map_iff in H as (e & <- & He). assert (EU : e <> DUnk) by (intros ->; cbn in He; intuition discriminate).
    exists e. destruct (a_ok a e); [apply hit_reset in T|apply hit_set in T]; auto. }
  destruct (hit_dec (owner p d) (battr d) (map (fun e => if a_ok a e then ResetBlocked (a_mi a) e else SetBlocked (a_mi a) e) [DE; DW; DN; DS; DU; DD])) as [Y|N].
  - left. pose proof Y as (o & H & T). destruct (HO o H T) as (e & AE & F). exists e. split; [exact AE|]. apply decided_all; [|exact Y].
    intros o' H' T'. destruct (HO o' H' T') as (e' & AE' & F'). rewrite (end_unique p d _ _ _ D AE AE'). exact F'.
  - right. split; [|apply decided_none, N]. intros e AE. pose proof (end_notunk p d _ e D AE) as EU. apply N.
    exists (if a_ok a e then ResetBlocked (a_mi a) e else SetBlocked (a_mi a) e). split; [apply in_map_iff; exists e; auto|].
    destruct (a_ok a e); [apply hit_reset|apply hit_set]; auto.
Qed.
Lemma ap_all p d aps : d <> DUnk ->
  (exists a e, last_access aps p d a e /\ decided (owner p d) (battr d) (ap_ops aps) = Some (negb (a_ok a e))) \/
  no_access aps p d /\ decided (owner p d) (battr d) (ap_ops aps) = None.
Proof.
  intros D. induction aps as [|a aps IH] using rev_ind; [right; split; [intros a e []|reflexivity]|].
  assert (EA : ap_ops (aps ++ [a]) = ap_ops aps ++ ap_ops [a]) by (unfold ap_ops; apply flat_map_app). rewrite EA, decided_app.
  destruct (ap_one p d a D) as [(e & AE & ->)|(NE & ->)].
  - left. exists a, e. split; [|reflexivity]. exists aps, []. repeat split; auto.
  - destruct IH as [(a' & e & (l1 & l2 & -> & AE & NL) & ->)|[NA ->]].
    + left. exists a', e. split; [|reflexivity]. exists l1, (l2 ++ [a]). rewrite <- app_assoc. cbn [app]. split; [reflexivity|]. split; [exact AE|].
      intros a0 e0 H. apply in_app_iff in H as [H|[<-|[]]]; [apply NL, H|apply NE].
    + right. split; [|reflexivity]. intros a0 e0 H. apply in_app_iff in H as [H|[<-|[]]]; [apply NA, H|apply NE].
Qed.
Lemma last_unique aps p d a e a' e' : d <> DUnk -> last_access aps p d a e -> last_access aps p d a' e' -> a_ok a e = a_ok a' e'.
Proof.
  intros D H H'. destruct (ap_all p d aps D) as [(a0 & e0 & L0 & _)|(N & _)].
  2:{ destruct H as (l1 & l2 & -> & AE & _). exfalso. apply (N a e); [apply in_app_iff; right; left; reflexivity|exact AE]. }
  assert (G : forall l1 x l2 l1' x' l2' f f', l1 ++ x :: l2 = l1' ++ x' :: l2' -> at_end p d (a_mi x) f -> at_end p d (a_mi x') f' ->
    (forall y h, In y l2 -> ~ at_end p d (a_mi y) h) -> (forall y h, In y l2' -> ~ at_end p d (a_mi y) h) -> x = x' /\ f = f').
  { induction l1 as [|y l1 IH]; intros x l2 l1' x' l2' f f' EQ A A' N N'.
    - destruct l1' as [|y' l1']; cbn in EQ; inversion EQ; subst.
      + split; [reflexivity|]. eapply end_unique; eauto.
      + exfalso. eapply N; [apply in_app_iff; right; left; reflexivity|exact A'].
    - destruct l1' as [|y' l1']; cbn in EQ; inversion EQ; subst.
      + exfalso. eapply N'; [apply in_app_iff; right; left; reflexivity|exact A].
      + eapply IH; eauto. }
  destruct H as (l1 & l2 & E1 & A1 & N1), H' as (l1' & l2' & E2 & A2 & N2). rewrite E1 in E2. destruct (G _ _ _ _ _ _ _ _ E2 A1 A2 N1 N2) as [-> ->]. reflexivity.
Qed.

Section fixed.
  Variables (S : senv) (E : cenv) (g : gg) (p : midx) (d : dir).
  Hypotheses (GS : grid_sorted g) (LO : layers_ok S g) (SO : shapes_ok S E) (D : d <> DUnk) (VP : valid g p) (VQ : valid g (step p d)).
  Let q0 := owner p d. Let a0 := battr d.
  Lemma rout_in l : In l (zrange (se_bot S) (se_top S)) -> se_rout S l = true -> In l (gzs g).
  Proof. intros H R. apply zrange_in in H. apply LO. auto. Qed.
  Lemma in_rout l : In l (gzs g) -> In l (zrange (se_bot S) (se_top S)) /\ se_rout S l = true.
  Proof. intros H. apply LO in H as [A B]. split; [apply zrange_in, A|exact B]. Qed.
  Lemma valid_z q : valid g q -> 0 <= mz q < nz g. Proof. unfold valid, on_grid. tauto. Qed.
  Lemma valid_layer q : valid g q -> In (getLayerNum g (mz q)) (gzs g). Proof. intros V. apply layer_in, valid_z, V. Qed.
  Lemma shape_touch l o : In l (gzs g) -> In o (found S l) -> on_shape g (fo_box o) (zof g l) p d -> touches S g p d o.
  Proof.
    intros HL HO (q & e & AE & Hz & HB). exists q, e. split; [exact AE|]. split; [|exact HB].
    pose proof (valid_z q (end_valid g p d q e VP VQ AE)) as ZR. symmetry in Hz. apply (zof_spec g l (mz q) GS HL ZR) in Hz. rewrite Hz. exact HO.
  Qed.
  Lemma touch_shape o : touches S g p d o -> exists l, In l (gzs g) /\ In o (found S l) /\ on_shape g (fo_box o) (zof g l) p d /\ (planar d = true -> l = getLayerNum g (mz p)).
  Proof.
    intros (q & e & AE & HO & HB). pose proof (end_valid g p d q e VP VQ AE) as V. exists (getLayerNum g (mz q)). split; [apply valid_layer, V|]. split; [exact HO|]. split.
    - exists q, e. split; [exact AE|]. split; [|exact HB]. symmetry. apply (zof_spec g _ (mz q) GS (valid_layer q V) (valid_z q V)). reflexivity.
    - intros PD. rewrite (end_layer p d q e PD AE). reflexivity.
  Qed.
  (* ---- IO pins ---- *)
  Lemma io_touch : tch p d (planar_term_ops S g) <-> io_forbids S g p d.
  Proof.
    unfold tch, planar_term_ops. rewrite hit_flat. split.
    - intros (l & HL & T). destruct (se_rout S l) eqn:R; [|destruct (tch_nil _ _ T)]. pose proof (rout_in l HL R) as IL.
      apply hit_flat in T as (o & HO & T). apply (tch_io g p d GS D VP VQ) in T as (IO & q & e & AE & Hz & HB & K).
      exists q, e, o. split; [exact AE|]. split; [|auto]. split; [|exact HB].
      pose proof (valid_z q (end_valid g p d q e VP VQ AE)) as ZR. symmetry in Hz. apply (zof_spec g l (mz q) GS IL ZR) in Hz. rewrite Hz. exact HO.
    - intros (q & e & o & AE & [HO HB] & IO & K). pose proof (end_valid g p d q e VP VQ AE) as V. pose proof (valid_layer q V) as IL.
      exists (getLayerNum g (mz q)). destruct (in_rout _ IL) as [A ->]. split; [exact A|]. apply hit_flat. exists o. split; [exact HO|].
      apply (tch_io g p d GS D VP VQ). split; [exact IO|]. exists q, e. split; [exact AE|]. split; [|auto]. symmetry.
      apply (zof_spec g _ (mz q) GS IL (valid_z q V)). reflexivity.
  Qed.
  Lemma io_set o : In o (planar_term_ops S g) -> flag_of o = Some true.
  Proof.
    unfold planar_term_ops. rewrite in_flat_map. intros (l & _ & H). destruct (se_rout S l); [|destruct H]. apply in_flat_map in H as (x & _ & H).
    unfold io_ops in H. destruct (fo_kind x); try destruct H. apply in_flat_map in H as (q & _ & H). apply in_app_iff in H as [H|H].
    - cbn in H. destruct H as [<-|[<-|[]]]; reflexivity.
    - destruct (_ >? _); cbn in H; destruct H as [<-|[<-|[]]]; reflexivity.
  Qed.
  Lemma io_decided : (io_forbids S g p d /\ decided q0 a0 (planar_term_ops S g) = Some true) \/ (~ io_forbids S g p d /\ decided q0 a0 (planar_term_ops S g) = None).
  Proof.
    destruct (hit_dec q0 a0 (planar_term_ops S g)) as [Y|N].
    - left. split; [apply io_touch, Y|]. apply decided_all; [intros o H _; apply io_set, H|exact Y].
    - right. split; [rewrite <- io_touch; exact N|apply decided_none, N].
  Qed.
  (* ---- fixed shapes: wires ---- *)
  Let E0 := no_svia E.
  Lemma tch_pass1 r z o : tch p d (pass1 E0 g r z o) <-> r = true /\ is_blk o /\ on_shape g (fo_box o) z p d.
  Proof.
    assert (T3 : fixed_type 3) by (right; reflexivity).
    unfold pass1, is_blk. destruct (fo_kind o); try (split; [intros H; destruct (tch_nil _ _ H)|intros (_ & C & _); discriminate C]).
    destruct r; [|split; [intros H; destruct (tch_so p d _ (so_cut_cost E0 g (fo_box o) z true) H)|intros (C & _); discriminate C]].
    rewrite !tch_app, (tch_planar g p d GS D VP VQ), (tch_via g p d GS D VP VQ). split.
    - intros [H|[H|[H|[H|[H|H]]]]]; try (exfalso; refine (tch_so p d _ _ H); solve [apply so_mod_planar, T3|apply so_mod_via, T3|apply so_eol, T3]); (split; [reflexivity|split; [reflexivity|tauto]]).
    - intros (_ & _ & H). destruct (planar d); tauto.
  Qed.
  Lemma tch_adj l b pg cuts : tch p d (mod_adj S E0 g l b pg cuts) <-> pg = true /\ exists c q, In c (ce_cut E l) /\ cu_adj c <> -1 /\ adj_rule_viol S l b cuts c = true /\
    at_end p d q DU /\ mz q = zof g (l - 1) /\ in_box (getPoint g q) (adj_box E l b c).
  Proof.
    unfold mod_adj. destruct pg; cbn [negb]; [|split; [intros H; destruct (tch_nil _ _ H)|intros (C & _); discriminate C]].
    unfold tch. rewrite hit_flat. cbn [ce_cut E0 no_svia]. split.
    - intros (c & HC & T). split; [reflexivity|]. destruct (Z.eqb_spec (cu_adj c) (-1)) as [EA|NA]; [destruct (tch_nil _ _ T)|].
      destruct (adj_rule_viol S l b cuts c) eqn:V; [|destruct (tch_nil _ _ T)]. destruct T as (o & HO & T). apply in_map_iff in HO as (q & <- & HQ).
      apply hit_set in T; [|exact D|discriminate]. exists c, q. split; [exact HC|]. split; [exact NA|]. split; [exact V|]. split; [exact T|].
      apply (window_point g _ _ q GS (end_valid g p d q DU VP VQ T)), HQ.
    - intros (_ & c & q & HC & NA & V & AE & HW). exists c. split; [exact HC|]. replace (cu_adj c =? -1) with false by (symmetry; apply Z.eqb_neq, NA). rewrite V.
      exists (SetBlocked q DU). split; [|apply hit_set; [exact D|discriminate|exact AE]]. apply in_map_iff. exists q. split; [reflexivity|].
      apply (window_point g _ _ q GS (end_valid g p d q DU VP VQ AE)), HW.
  Qed.
  Lemma adj_vertical q : at_end p d q DU -> planar d = false.
  Proof. intros AE. rewrite <- (end_planar p d q DU AE). reflexivity. Qed.
  Lemma tch_pass2 l r z o : (forall pg, fo_kind o = KWire pg -> r = true) -> tch p d (pass2 S E0 g l r z o) <->
    (is_pin o /\ r = true /\ planar d = true /\ on_shape g (fo_box o) z p d) \/ (is_power_wire o /\ on_shape g (fo_box o) z p d) \/
    (r = false /\ exists cuts, fo_kind o = KVia true cuts /\ tch p d (mod_adj S E0 g l (fo_box o) true cuts)).
  Proof.
    intros RW. assert (T3 : fixed_type 3) by (right; reflexivity).
    unfold pass2, is_pin, is_power_wire. destruct (fo_kind o) as [|n t|n t|pg|pg cuts] eqn:K.
    1,2: split; [intros H; destruct (tch_nil _ _ H)|intros [((n' & t' & C) & _)|[[C _]|(_ & c & C & _)]]; discriminate C].
    - destruct r; [|split; [intros H; destruct (tch_so p d _ (so_cut_cost E0 g (fo_box o) z true) H)|intros [(_ & C & _)|[[C _]|(_ & c & C & _)]]; discriminate C]].
      rewrite tch_app, (tch_planar g p d GS D VP VQ). split.
      + intros [[A B]|H]; [left; repeat split; eauto|]. exfalso. refine (tch_so p d _ _ H). apply so_if; [apply so_app; auto using so_mod_planar, so_eol|apply so_nil].
      + intros [(_ & _ & A & B)|[[C _]|(_ & c & C & _)]]; [left; auto|discriminate C|discriminate C].
    - rewrite !tch_app. split.
      + intros [H|[H|[H|[H|H]]]]; try (exfalso; refine (tch_so p d _ _ H); solve [apply so_mod_planar, T3|apply so_mod_via, T3|apply so_eol, T3]).
        destruct pg; [|destruct (tch_nil _ _ H)]. right. left. split; [reflexivity|]. rewrite tch_app, (tch_planar g p d GS D VP VQ), (tch_via g p d GS D VP VQ) in H. tauto.
      + intros [((n' & t' & C) & _)|[[C H]|(_ & c & C & _)]]; try discriminate C. injection C as ->. do 4 right. rewrite tch_app, (tch_planar g p d GS D VP VQ), (tch_via g p d GS D VP VQ).
        destruct (planar d); tauto.
    - destruct r.
      + rewrite !tch_app. split.
        * intros [H|[H|[H|H]]]; exfalso; refine (tch_so p d _ _ H); solve [apply so_mod_planar, T3|apply so_mod_via, T3|apply so_eol, T3].
        * intros [((n' & t' & C) & _)|[[C H]|(C & _)]]; discriminate C.
      + rewrite tch_app. split.
        * intros [H|H]; [|exfalso; apply (tch_so p d _ (so_cut_cost E0 g (fo_box o) z false) H)]. right. right. split; [reflexivity|].
          pose proof H as PG. apply tch_adj in PG as [-> _]. exists cuts. auto.
        * intros [((n' & t' & C) & _)|[[C H]|(_ & c & C & H)]]; try discriminate C. injection C as -> ->. left. exact H.
  Qed.
  Definition layer_ops (l : Z) : list gop :=
    match slot S g l with Some (r, z) => flat_map (pass1 E0 g r z) (found S l) ++ flat_map (pass2 S E0 g l r z) (found S l) | None => [] end.
  Lemma fixed_decided : decided q0 a0 (fixed_ops S E g) = decided q0 a0 (flat_map layer_ops (zrange (se_bot S) (se_top S))).
  Proof.
    unfold fixed_ops. rewrite decided_app. rewrite (decided_none _ _ (flat_map _ (terms_met S g))); [reflexivity|].
    apply so_nohit; [apply battr_flag|]. apply so_flat. intros k. apply so_term.
  Qed.
  Lemma slot_rout l : se_rout S l = true -> slot S g l = Some (true, zof g l). Proof. unfold slot. intros ->. reflexivity. Qed.
  Lemma slot_cut l r z : slot S g l = Some (r, z) -> se_rout S l = false -> r = false /\ se_cutl S l = true /\ se_bot S <= l - 1 /\ se_rout S (l - 1) = true /\ z = zof g (l - 1).
  Proof.
    unfold slot. intros H R. rewrite R in H. destruct (se_cutl S l); [|discriminate]. destruct (_ && _) eqn:C; [|discriminate]. injection H as <- <-.
    apply andb_true_iff in C as [A B]. repeat split; auto. lia.
  Qed.
  Lemma wire_on_rout l o pg : In o (found S l) -> fo_kind o = KWire pg -> se_rout S l = true.
  Proof. apply SO. Qed.
  Lemma found_norm l o : In o (found S l) -> normalised (fo_box o). Proof. apply SO. Qed.
End fixed.
