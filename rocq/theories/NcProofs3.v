(* Proofs about the costs while one net is routed: set-up, and the terms of one net. *)
From Coq Require Import Permutation.
From Verif Require Import Base Stl GeomModel GeomSpec GeomProofs GridModel GridSpec GridProofs GridProofs2 CostModel CostSpec CostProofs CostProofs2 CostProofs3 CostProofs4 SetupModel SetupSpec SetupProofs SetupProofs2 SetupProofs3 SetupProofs4 SetupProofs5 SetupProofs6 NcModel NcSpec NcProofs NcProofs2.

Definition zsum {A} (f : A -> Z) (l : list A) : Z := fold_right (fun x s => f x + s) 0 l.
Lemma zsum_app {A} (f : A -> Z) x y : zsum f (x ++ y) = zsum f x + zsum f y.
Proof. unfold zsum. induction x as [|a x IH]; cbn; [reflexivity|]. rewrite IH. lia. Qed.
Lemma zsum_flat {A B} (f : A -> Z) (G : B -> list A) l : zsum f (flat_map G l) = zsum (fun y => zsum f (G y)) l.
Proof. induction l as [|b l IH]; cbn [flat_map]; [reflexivity|]. rewrite zsum_app, IH. reflexivity. Qed.
Lemma zsum_map {A B} (f : A -> Z) (h : B -> A) l : zsum f (map h l) = zsum (fun y => f (h y)) l.
Proof. unfold zsum. induction l as [|b l IH]; cbn; [reflexivity|]. rewrite IH. reflexivity. Qed.
Lemma zsum_ext {A} (f h : A -> Z) l : (forall x, In x l -> f x = h x) -> zsum f l = zsum h l.
Proof. unfold zsum. induction l as [|b l IH]; cbn; intros H; [reflexivity|]. rewrite (H b (or_introl eq_refl)), IH; auto. Qed.
Lemma zsum_add {A} (f h : A -> Z) l : zsum (fun x => f x + h x) l = zsum f l + zsum h l.
Proof. unfold zsum. induction l as [|b l IH]; cbn; [reflexivity|]. rewrite IH. lia. Qed.
Lemma zsum_opp {A} (f : A -> Z) l : zsum (fun x => - f x) l = - zsum f l.
Proof. unfold zsum. induction l as [|b l IH]; cbn; [reflexivity|]. rewrite IH. lia. Qed.
Lemma zsum_zero {A} (f : A -> Z) l : (forall x, In x l -> f x = 0) -> zsum f l = 0.
Proof. unfold zsum. induction l as [|b l IH]; cbn; intros H; [reflexivity|]. rewrite (H b (or_introl eq_refl)), IH; auto. Qed.
Lemma zsum_filter {A} (f : A -> Z) (c : A -> bool) l : zsum f l = zsum f (filter c l) + zsum f (filter (fun x => negb (c x)) l).
Proof. unfold zsum. induction l as [|b l IH]; cbn; [reflexivity|]. destruct (c b); cbn; rewrite IH; lia. Qed.
Lemma zsum_nonneg {A} (f : A -> Z) l : (forall x, In x l -> 0 <= f x) -> 0 <= zsum f l.
Proof. unfold zsum. induction l as [|b l IH]; cbn; intros H; [lia|]. pose proof (H b (or_introl eq_refl)). specialize (IH (fun x Hx => H x (or_intror Hx))). lia. Qed.
Lemma zsum_pos {A} (f : A -> Z) l : (forall x, In x l -> 0 <= f x) -> (0 < zsum f l <-> exists x, In x l /\ 0 < f x).
Proof.
  unfold zsum. induction l as [|b l IH]; cbn; intros H; [split; [lia|intros (x & [] & _)]|]. pose proof (H b (or_introl eq_refl)). pose proof (zsum_nonneg f l (fun x Hx => H x (or_intror Hx))) as N. unfold zsum in N.
  specialize (IH (fun x Hx => H x (or_intror Hx))). split.
  - intros L. destruct (Z_lt_le_dec 0 (f b)); [exists b; auto|]. destruct (proj1 IH ltac:(lia)) as (x & Hx & P). exists x. auto.
  - intros (x & [<-|Hx] & P); [lia|]. pose proof (proj2 IH (ex_intro _ x (conj Hx P))). lia.
Qed.
Lemma net_zsum {A} (F : A -> list gop) l q a : net (flat_map F l) q a = zsum (fun x => net (F x) q a) l.
Proof. apply net_flat. Qed.

Lemma good_no_svia E : good_tech E -> good_tech (no_svia E). Proof. intros [A B C D F G H]. constructor; assumption. Qed.
Lemma svia_no_svia E : svia_good (no_svia E). Proof. intros q s H. discriminate H. Qed.

Lemma in_zrange a b x : In x (zrange a b) <-> a <= x <= b.
Proof. apply zrange_in. Qed.

Section Count.
  Variables (S : senv) (E : cenv) (g : gg) (aps : list apat).
  Hypothesis GT : good_tech E.
  Hypothesis SV : svia_good (with_svia E aps).
  Hypothesis GS : grid_sorted g.
  Hypothesis LO : layers_ok S g.
  Hypothesis SO : shapes_ok S E.
  Hypothesis RO : rects_ok S E g.
  Variable q : midx.
  Hypothesis V : valid g q.
  Let E0 := no_svia E.
  Let E1 := with_svia E aps.
  Lemma xyv : xy_valid g q. Proof. unfold valid, on_grid in V. unfold xy_valid. lia. Qed.
  Lemma zof_at l : In l (gzs g) -> 0 <= zof g l < nz g /\ getLayerNum g (zof g l) = l.
  Proof.
    intros H. assert (R : 0 <= zof g l < nz g).
    { unfold zof, nz. destruct GS as (_ & _ & Sz). pose proof (lb_lt (gzs g) l H Sz). lia. }
    split; [exact R|]. apply (zof_spec g l (zof g l) GS H R). reflexivity.
  Qed.
  Lemma zof_q l : In l (gzs g) -> (mz q = zof g l <-> getLayerNum g (mz q) = l).
  Proof.
    intros H. rewrite <- (zof_spec g l (mz q) GS H); [split; congruence|]. unfold valid, on_grid in V. lia.
  Qed.
  Lemma rout_in l : se_bot S <= l <= se_top S -> se_rout S l = true -> In l (gzs g).
  Proof. intros A B. apply (proj1 LO). auto. Qed.
  (* a rectangle as set-up sees it *)
  Definition rnet (Ex : cenv) (t z : Z) (b : box) (blk : bool) : Z := net (mod_planar Ex g t b z blk) q (wire_counter t) + net (mod_eol Ex g t b z false) q (wire_counter t).
  Lemma rnet0 l b blk : In l (gzs g) -> rect_ok E l b -> rect_wire E g q (zof g l) b blk (rnet E0 3 (zof g l) b blk).
  Proof.
    intros H [GB W]. destruct (zof_at l H) as [_ Z1].
    destruct (rect_net E0 g 3 b (zof g l) blk q (good_no_svia E GT) (svia_no_svia E) GS xyv ltac:(unfold kind_ok; lia) GB) as (n & R & N); [rewrite Z1; exact W|].
    unfold rnet. rewrite N. replace (kind_sign 3 * n) with n by (change (kind_sign 3) with 1; lia). exact R.
  Qed.
  Lemma good_with : good_tech E1. Proof. destruct GT as [A B C D F G H]. constructor; assumption. Qed.
  Lemma rnet1 l b blk t : t = 2 \/ t = 3 -> In l (gzs g) -> rect_ok E l b -> rnet E1 t (zof g l) b blk = kind_sign t * rnet E0 3 (zof g l) b blk.
  Proof.
    intros T H R. pose proof (rnet0 l b blk H R) as R0. destruct R as [GB W]. destruct (zof_at l H) as [_ Z1].
    destruct (rect_net E1 g t b (zof g l) blk q good_with SV GS xyv ltac:(unfold kind_ok; lia) GB) as (n & R & N); [rewrite Z1; exact W|].
    unfold rnet at 1. rewrite N. f_equal. eapply (rect_wire_fun E); [exact R|exact R0].
  Qed.

  (* ---- objects ---- *)
  Definition onet (lo : Z * fobj) : Z :=
    match slot S g (fst lo) with
    | Some (r, z) => net (pass1 E0 g r z (snd lo)) q AShapeX + net (pass2 S E0 g (fst lo) r z (snd lo)) q AShapeX
    | None => 0 end.
  Ltac offs := repeat first [apply off_nil | apply off_blk | apply off_blkv | apply off_adj | apply off_via; [auto|]; solve [auto using vo_mod_via, vo_cut_cost] | apply off_app].
  Lemma onet_spec l o : se_bot S <= l <= se_top S -> In o (found S l) -> obj_wire S E g q (l, o) (onet (l, o)).
  Proof.
    intros HL HO. unfold obj_wire, onet, slot. cbn [fst snd]. destruct (se_rout S l) eqn:RL.
    - pose proof (rout_in l HL RL) as IL. pose proof (proj1 RO l o HO RL) as RK. change (Z.quot 2 2 - 1) with 0.
      unfold pass1, pass2. destruct (fo_kind o) as [|n t|n t|pg|pg cuts]; rewrite ?net_app.
      + rewrite (off_net q AShapeX (mod_via E0 g 3 (fo_box o) (zof g l) true false true)) by offs. rewrite (off_net q AShapeX (mod_via E0 g 3 (fo_box o) (zof g l) false false true)) by offs.
        rewrite (off_net q AShapeX (blk_planar _ _ _ _)) by offs. rewrite (off_net q AShapeX (blk_via _ _ _)) by offs. cbn [net].
        replace (_ + _ + 0) with (rnet E0 3 (zof g l) (fo_box o) true) by (unfold rnet; change (wire_counter 3) with AShapeX; lia). apply rnet0; assumption.
      + reflexivity.
      + rewrite (off_net q AShapeX (blk_planar _ _ _ _)) by offs. change (Z.quot 2 2 - 1) with 0. destruct (zof g l <=? 0); cbn [net]; [|reflexivity]. rewrite ?net_app.
        match goal with |- rect_wire _ _ _ _ _ _ ?x => replace x with (rnet E0 3 (zof g l) (fo_box o) true) by (unfold rnet; change (wire_counter 3) with AShapeX; cbn [net]; lia) end. apply rnet0; assumption.
      + rewrite (off_net q AShapeX (mod_via E0 g 3 (fo_box o) (zof g l) true true false)) by offs. rewrite (off_net q AShapeX (mod_via E0 g 3 (fo_box o) (zof g l) false true false)) by offs.
        rewrite (off_net q AShapeX (if pg then _ else _)) by (destruct pg; offs). cbn [net].
        replace (0 + _) with (rnet E0 3 (zof g l) (fo_box o) false) by (unfold rnet; change (wire_counter 3) with AShapeX; lia). apply rnet0; assumption.
      + rewrite (off_net q AShapeX (mod_via E0 g 3 (fo_box o) (zof g l) true false false)) by offs. rewrite (off_net q AShapeX (mod_via E0 g 3 (fo_box o) (zof g l) false false false)) by offs. cbn [net].
        replace (0 + _) with (rnet E0 3 (zof g l) (fo_box o) false) by (unfold rnet; change (wire_counter 3) with AShapeX; lia). apply rnet0; assumption.
    - assert (H : forall z, net (pass1 E0 g false z o) q AShapeX = 0 /\ net (pass2 S E0 g l false z o) q AShapeX = 0).
      { intros z. split; apply off_net; unfold pass1, pass2; destruct (fo_kind o) eqn:K; try solve [offs].
        rewrite (proj1 (proj2 SO) l o pg HO K) in RL. discriminate. }
      destruct (se_cutl S l); [|reflexivity]. destruct (_ && _); [|reflexivity]. destruct (H (zof g (l - 1))) as [-> ->]. reflexivity.
  Qed.
  Definition FF : Z := zsum onet (all_fixed S).
  Lemma fixed_sums : sums (obj_wire S E g q) (all_fixed S) FF.
  Proof.
    apply (sums_intro _ onet). intros [l o] H. apply in_flat_map in H as (l' & Hl & H). apply in_map_iff in H as (o' & EQ & Ho). injection EQ as -> ->.
    apply in_zrange in Hl. apply onet_spec; assumption.
  Qed.
  Lemma fixed_net : net (flat_map (fun l => match slot S g l with
                     | Some (r, z) => flat_map (pass1 E0 g r z) (found S l) ++ flat_map (pass2 S E0 g l r z) (found S l)
                     | None => [] end) (zrange (se_bot S) (se_top S))) q AShapeX = FF.
  Proof.
    rewrite net_zsum. unfold FF, all_fixed. rewrite zsum_flat. apply zsum_ext. intros l _. rewrite zsum_map. unfold onet. cbn [fst snd].
    destruct (slot S g l) as [[r z]|]; [rewrite net_app, !net_zsum, zsum_add; reflexivity|symmetry; apply zsum_zero; reflexivity].
  Qed.

  (* ---- terms ---- *)
  Lemma met_found n t : In (n, t) (terms_met S g) <-> term_found S g n t.
  Proof.
    unfold terms_met, term_found. rewrite nodup_In, in_flat_map. split.
    - intros (l & Hl & H). apply in_zrange in Hl. destruct (slot S g l) eqn:SL; [|destruct H]. apply in_flat_map in H as (o & Ho & H). exists l, o. rewrite SL.
      split; [exact Hl|]. split; [discriminate|]. split; [exact Ho|]. unfold term_key in H. destruct (fo_kind o); try (destruct H; fail); destruct H as [H|[]]; injection H as -> ->; auto.
    - intros (l & o & Hl & SL & Ho & K). exists l. split; [apply in_zrange, Hl|]. destruct (slot S g l) as [[r z]|]; [|congruence]. apply in_flat_map. exists o. split; [exact Ho|].
      unfold term_key. destruct K as [-> | ->]; left; reflexivity.
  Qed.
  Definition tnet (t : Z) : Z := zsum (fun lb => if se_rout S (fst lb) then rnet E0 3 (zof g (fst lb)) (snd lb) false else 0) (te_figs (se_term S t)).
  Lemma tnet_spec n t : term_found S g n t -> term_wire S E g q t (tnet t).
  Proof.
    intros H. apply (sums_intro _ (fun lb => if se_rout S (fst lb) then rnet E0 3 (zof g (fst lb)) (snd lb) false else 0)). intros [l b] Hb. cbn [fst snd].
    destruct (se_rout S l) eqn:R; [|reflexivity]. destruct (proj2 RO n t l b H Hb R) as [A B]. apply rnet0; assumption.
  Qed.
  Lemma term_net n t : term_found S g n t -> net (term_ops S E0 g true false (se_term S t)) q AShapeX = tnet t.
  Proof.
    intros H. unfold term_ops, tnet. rewrite net_zsum. apply zsum_ext. intros [l b] Hb. cbn [fst snd]. destruct (se_rout S l) eqn:R; [|reflexivity].
    rewrite !net_app. rewrite (off_net q AShapeX (mod_via E0 g 3 b (zof g l) true false false)) by offs. rewrite (off_net q AShapeX (mod_via E0 g 3 b (zof g l) false false false)) by offs.
    rewrite (off_net q AShapeX (if te_macro _ then _ else _)) by (apply off_via; [auto|]; destruct (te_macro _); [apply vo_app; apply vo_mincut|apply vo_nil]). unfold rnet. change (wire_counter 3) with AShapeX. lia.
  Qed.
  Lemma term_net1 n t add : term_found S g n t -> net (term_ops S E1 g add true (se_term S t)) q AShapeX = (if add then 1 else -1) * tnet t.
  Proof.
    intros H. unfold term_ops, tnet. rewrite net_zsum. replace ((if add then 1 else -1) * _) with (zsum (fun lb => (if add then 1 else -1) * (if se_rout S (fst lb) then rnet E0 3 (zof g (fst lb)) (snd lb) false else 0)) (te_figs (se_term S t))).
    2:{ destruct add; [|rewrite <- Z.opp_eq_mul_m1, Z.mul_comm || idtac]; unfold zsum; induction (te_figs (se_term S t)) as [|x l IH]; cbn [fold_right]; lia. }
    apply zsum_ext. intros [l b] Hb. cbn [fst snd]. destruct (se_rout S l) eqn:R; [|destruct add; reflexivity]. destruct (proj2 RO n t l b H Hb R) as [A B].
    set (ty := if add then 3 else 2). rewrite !net_app. rewrite (off_net q AShapeX (if te_macro _ then _ else _)) by (apply off_via; [auto|]; destruct (te_macro _); [apply vo_app; apply vo_mincut|apply vo_nil]).
    pose proof (rnet1 l b false ty ltac:(unfold ty; destruct add; auto) A B) as N. replace ((if add then 1 else -1) * rnet E0 3 (zof g l) b false) with (kind_sign ty * rnet E0 3 (zof g l) b false) by (unfold ty; destruct add; reflexivity). rewrite <- N.
    unfold rnet. replace (wire_counter ty) with AShapeX by (unfold ty; destruct add; reflexivity). cbn [net]. lia.
  Qed.
  Definition TT (l : list (Z * Z)) : Z := zsum (fun k => tnet (snd k)) l.
  Lemma tnet_pos n t : term_found S g n t -> 0 <= tnet t /\ (0 < tnet t <-> pin_near S E g q t).
  Proof.
    intros H. set (f := fun lb : Z * box => if se_rout S (fst lb) then rnet E0 3 (zof g (fst lb)) (snd lb) false else 0).
    assert (P : forall lb, In lb (te_figs (se_term S t)) -> 0 <= f lb /\ (0 < f lb <-> fst lb = getLayerNum g (mz q) /\ near_wire E g q (snd lb) false)).
    { intros [l b] Hb. unfold f. cbn [fst snd]. destruct (se_rout S l) eqn:R.
      - destruct (proj2 RO n t l b H Hb R) as [A B]. destruct (rect_wire_pos E g q _ _ _ _ (rnet0 l b false A B)) as [P1 P2]. split; [exact P1|]. rewrite P2, (zof_q l A). split; intros [X Y]; split; auto.
      - split; [lia|]. split; [lia|]. intros [-> _]. exfalso. assert (Z1 : In (getLayerNum g (mz q)) (gzs g)).
        { unfold getLayerNum. apply nth_In. unfold valid, on_grid, nz in V. lia. }
        apply (proj1 LO) in Z1. destruct Z1. congruence. }
    unfold tnet. fold f. split; [apply zsum_nonneg; intros x Hx; apply (P x Hx)|]. rewrite zsum_pos by (intros x Hx; apply (P x Hx)). unfold pin_near. split.
    - intros ([l b] & Hb & F). apply (P _ Hb) in F. cbn [fst snd] in F. destruct F as [-> F]. exists b. auto.
    - intros (b & Hb & F). exists (getLayerNum g (mz q), b). split; [exact Hb|]. apply (P _ Hb). auto.
  Qed.
  Lemma FF_pos : 0 <= FF /\ (0 < FF <-> fixed_near S E g q).
  Proof.
    assert (P : forall lo, In lo (all_fixed S) -> 0 <= onet lo /\ (0 < onet lo <-> fst lo = getLayerNum g (mz q) /\ match fo_kind (snd lo) with
        | KBlk => near_wire E g q (fo_box (snd lo)) true | KTerm _ _ => False | KInstTerm _ _ => mz q = 0 /\ near_wire E g q (fo_box (snd lo)) true
        | KWire _ | KVia _ _ => near_wire E g q (fo_box (snd lo)) false end)).
    { intros [l o] H. apply in_flat_map in H as (l' & Hl & H). apply in_map_iff in H as (o' & EQ & Ho). injection EQ as -> ->. apply in_zrange in Hl.
      pose proof (onet_spec l o Hl Ho) as OW. unfold obj_wire in OW. cbn [fst snd] in *. destruct (se_rout S l) eqn:R.
      - pose proof (rout_in l Hl R) as IL. pose proof (zof_q l IL) as ZQ. assert (Z0 : 0 <= zof g l) by (apply (zof_at l IL)).
        assert (RW : forall blk n, rect_wire E g q (zof g l) (fo_box o) blk n -> 0 <= n /\ (0 < n <-> l = getLayerNum g (mz q) /\ near_wire E g q (fo_box o) blk)).
        { intros blk n W. apply rect_wire_pos in W as [W1 W2]. split; [exact W1|]. rewrite W2, ZQ. split; intros [X Y]; auto. }
        destruct (fo_kind o); try (apply RW, OW).
        + rewrite OW. split; [lia|]. split; [lia|tauto].
        + destruct (Z.leb_spec (zof g l) 0) as [L|L].
          * apply RW in OW as [W1 W2]. split; [exact W1|]. rewrite W2. split; intros [X Y]; split; auto; [|apply Y]. split; [|exact Y]. assert (mz q = zof g l) by (apply ZQ; congruence). lia.
          * rewrite OW. split; [lia|]. split; [lia|]. intros (X & Y & _). assert (mz q = zof g l) by (apply ZQ; congruence). lia.
      - rewrite OW. split; [lia|]. split; [lia|]. intros [-> _]. exfalso. assert (Z1 : In (getLayerNum g (mz q)) (gzs g)).
        { unfold getLayerNum. apply nth_In. unfold valid, on_grid, nz in V. lia. }
        apply (proj1 LO) in Z1. destruct Z1. congruence. }
    unfold FF. split; [apply zsum_nonneg; intros x Hx; apply (P x Hx)|]. rewrite zsum_pos by (intros x Hx; apply (P x Hx)). unfold fixed_near. split.
    - intros ([l o] & Hb & F). pose proof (proj1 (proj2 (P _ Hb)) F) as [F1 F2]. cbn [fst snd] in *. subst l. exists o. split; [|exact F2].
      apply in_flat_map in Hb as (l' & _ & H). apply in_map_iff in H as (o' & EQ & Ho). injection EQ as -> ->. exact Ho.
    - intros (o & Ho & F). assert (I : In (getLayerNum g (mz q), o) (all_fixed S)).
      { apply in_flat_map. exists (getLayerNum g (mz q)). split; [apply in_zrange|apply in_map, Ho]. apply (proj1 LO). unfold getLayerNum. apply nth_In. unfold valid, on_grid, nz in V. lia. }
      exists (getLayerNum g (mz q), o). split; [exact I|]. apply (P _ I). auto.
  Qed.
End Count.
