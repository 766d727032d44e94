(* The routing the grid router returns connects the places of a sub-net. *)
From Verif Require Import Base GeomModel ClipModel ClipSpec KeepModel KeepSpec KeepProofs KeepProofs2.
From Verif Require Import GridModel GridSpec MazeSpec NetModel NetSpec GridProofs2 NetProofs4 NetProofs5 NetProps.
From Verif Require ConnModel ConnSpec SubnetModel.

(* every grid point used is in range *)
Lemma routed_valid sd dd E next_ext init_ext pick n fuel tbfuel g pins st :
  (forall l a, 0 <= sd l a) -> (forall c1 c2 a, dd c1 c2 a < 2 ^ 31 - 1) ->
  net_ready g pins -> (grid_size g <= tbfuel)%nat ->
  routeNet sd dd E next_ext init_ext pick n fuel tbfuel g pins = ROk st ->
  forall f u v, In f (rsfigs st) -> In (u, v) (unit_steps f) -> valid g u /\ valid g v.
Proof.
  intros Hs Hd R Hf H f u v Ff Huv. destruct (Nat.leb_spec (length pins) 1) as [Hl|Hl].
  - unfold routeNet in H. replace (length pins <=? 1)%nat with true in H by lia. injection H as <-. destruct Ff.
  - destruct (prep_li pins sd dd Hs Hd g R E next_ext init_ext pick n fuel tbfuel Hl) as (rap & st0 & E0 & L & Hlt & Hn). rewrite E0 in H.
    pose proof (NetProofs5.loop_spec pins sd dd Hs Hd g R E next_ext init_ext pick rap fuel tbfuel Hf n st0 L) as X. rewrite H in X. destruct X as [L' Hu].
    pose proof (li_conn _ _ _ _ L') as C. destruct (rsfirst st).
    + destruct C as (C & _). rewrite C in Ff. destruct Ff.
    + destruct C as (hub & pts & (_ & _ & _ & _ & _ & T) & Ps & _). destruct (T u v) as [Tu Tv]; [apply in_flat_map; eauto|]. split; [apply (Ps u Tu)|apply (Ps v Tv)].
Qed.
Lemma seg_ends g a b l pa pb tb te rap : well_formed g rap (Seg a b l pa pb tb te) ->
  (forall u v, In (u, v) (unit_steps (Seg a b l pa pb tb te)) -> valid g u /\ valid g v) -> valid g a /\ valid g b.
Proof.
  destruct a as [ax ay az], b as [bx by0 bz]. cbn [well_formed mx my mz unit_steps]. intros (Ez & D & _) H. subst bz. destruct D as [[D <-]|[<- D]].
  - split; [apply (H (mkMI ax ay az) (mkMI (ax + 1) ay az))|apply (H (mkMI (bx - 1) ay az) (mkMI bx ay az))]; apply in_or_app; left; apply in_map_iff; [exists ax|exists (bx - 1)]; (split; [repeat f_equal; lia|apply zrange_in; lia]).
  - split; [apply (H (mkMI ax ay az) (mkMI ax (ay + 1) az))|apply (H (mkMI ax (by0 - 1) az) (mkMI ax by0 az))]; apply in_or_app; right; apply in_map_iff; [exists ay|exists (by0 - 1)]; (split; [repeat f_equal; lia|apply zrange_in; lia]).
Qed.
Lemma mono_le (h : Z -> Z) n i j : (forall i j, 0 <= i < j -> j < n -> h i < h j) -> 0 <= i -> i <= j -> j < n -> h i <= h j.
Proof. intros M A B C. destruct (Z.eq_dec i j) as [<-|N]; [lia|]. specialize (M i j). lia. Qed.
Definition objs_of (lw vd : Z -> Z) (f : NetModel.fig) : list ConnModel.robj := match to_d (to_fig lw vd f) with SubnetModel.DFig o => [o] | _ => [] end.
Lemma step_on lw vd g rap f : grid_ordered g -> well_formed g rap f ->
  (forall u v, In (u, v) (unit_steps f) -> valid g u /\ valid g v) ->
  exists o, objs_of lw vd f = [o] /\ forall u v, In (u, v) (unit_steps f) -> ConnSpec.lies_on o (g_loc g u) /\ ConnSpec.lies_on o (g_loc g v).
Proof.
  intros (GX & GY & GZ) W V. destruct f as [a b l pa pb tb te|a b cut o s].
  - destruct (seg_ends _ _ _ _ _ _ _ _ _ W V) as [Va Vb]. eexists. split; [reflexivity|]. intros u v H. destruct (V u v H) as [Vu Vv].
    cbn [well_formed] in W. destruct W as (Ez & D & -> & -> & -> & _).
    cbn [to_fig to_d wb we wl ws ConnSpec.lies_on g_loc fst snd px py]. unfold valid in Va, Vb, Vu, Vv.
    destruct Va as (VaX & VaY & VaZ), Vb as (VbX & VbY & VbZ).
    cbn [unit_steps] in H. apply in_app_or in H as [H|H]; apply in_map_iff in H as (x & Hx & Ix); apply zrange_in in Ix; injection Hx as <- <-; cbn [mx my mz].
    + destruct D as [[D1 D2]|[D1 D2]]; [|lia]. rewrite <- D2.
      assert (M := fun i j => mono_le (fun i => nth (Z.to_nat i) (gxs g) 0) (nx g) i j GX). cbn beta in M.
      pose proof (M (mx a) x). pose proof (M x (mx b)). pose proof (M (mx a) (x + 1)). pose proof (M (x + 1) (mx b)). lia.
    + destruct D as [[D1 D2]|[D1 D2]]; [lia|]. rewrite <- D1.
      assert (M := fun i j => mono_le (fun i => nth (Z.to_nat i) (gys g) 0) (ny g) i j GY). cbn beta in M.
      pose proof (M (my a) x). pose proof (M x (my b)). pose proof (M (my a) (x + 1)). pose proof (M (x + 1) (my b)). lia.
  - eexists. split; [reflexivity|]. intros u v [H|[]]. injection H as <- <-. destruct (V a b (or_introl eq_refl)) as [Va Vb].
    cbn [well_formed] in W. destruct W as (Ex & Ey & Ez & -> & ->). cbn [to_fig to_d ConnSpec.lies_on]. unfold g_loc. rewrite Ex, Ey, Ez.
    unfold valid in Va, Vb. destruct Va as (_ & _ & Va), Vb as (_ & _ & Vb). rewrite Ez in Vb. rewrite GZ by lia. split; [left|right]; f_equal; lia.
Qed.
Lemma straight_of lw vd g rap f : grid_ordered g -> well_formed g rap f ->
  (forall u v, In (u, v) (unit_steps f) -> valid g u /\ valid g v) -> fig_straight (to_fig lw vd f).
Proof.
  intros (GX & GY & _) W V. destruct f as [a b l pa pb tb te|a b cut o s]; [|exact I].
  destruct (seg_ends _ _ _ _ _ _ _ _ _ W V) as [(VaX & VaY & _) (VbX & VbY & _)]. cbn [well_formed] in W. destruct W as (_ & D & _ & -> & -> & _).
  cbn [to_fig fig_straight]. unfold straight. cbn [wb we px py].
  destruct D as [[D1 D2]|[D1 D2]]; [right; rewrite D2; specialize (GX (mx a) (mx b)); lia|left; rewrite D1; specialize (GY (my a) (my b)); lia].
Qed.
Lemma robjs_app A B : robjs (A ++ B) = robjs A ++ robjs B.
Proof. apply flat_map_app. Qed.
Lemma robjs_figs lw vd fs : robjs (map (to_fig lw vd) fs) = flat_map (objs_of lw vd) fs.
Proof. unfold robjs. rewrite flat_map_concat_map, map_map, <- flat_map_concat_map. apply flat_map_ext. intros f. unfold objs_of. destruct f; reflexivity. Qed.
Lemma routed_routes b lw vd pins_at s r : routed b lw vd pins_at s r -> routes b pins_at s r /\ Forall fig_straight r.
Proof.
  intros (sd & dd & E & next_ext & init_ext & pick & n & fuel & tbfuel & g & pins & st & patches & Hs & Hd & R & GO & Hf & PS & H & FP & ->).
  destruct (C22_routed_net_connected _ _ _ _ _ _ _ _ _ _ _ _ Hs Hd R Hf H) as [hub C].
  destruct (C24_routed_objects_well_formed _ _ _ _ _ _ _ _ _ _ _ _ Hs Hd R Hf H) as [rap W]. rewrite Forall_forall in W.
  pose proof (routed_valid _ _ _ _ _ _ _ _ _ _ _ _ Hs Hd R Hf H) as V.
  split.
  - assert (J : forall u v, NetSpec.joined (rsfigs st) u v -> conducts pins_at (robjs (map (to_fig lw vd) (rsfigs st) ++ patches)) (g_loc g u) (g_loc g v)).
    { intros u v J. induction J as [p|p q f Ff Hs'|p q _ IH|p q t _ IH1 _ IH2].
      - apply cd_refl.
      - destruct (step_on lw vd g rap f GO (W f Ff) (fun u v => V f u v Ff)) as (o & Eo & Lo). destruct (Lo p q Hs') as [L1 L2].
        apply (cd_one pins_at _ o); [|exact L1|exact L2]. rewrite robjs_app, robjs_figs. apply in_or_app. left. apply in_flat_map. exists f. split; [exact Ff|]. rewrite Eo. now left.
      - apply cd_sym, IH.
      - eapply cd_trans; eassumption. }
    assert (P : forall k, sub_place b pins_at s k -> conducts pins_at (robjs (map (to_fig lw vd) (rsfigs st) ++ patches)) (g_loc g hub) k).
    { destruct PS as [PB PP]. intros k [Hk|(id & Hid & Hk)].
      - destruct (PB k Hk) as (p & Ip & Ep). destruct (C p Ip) as (a & Ia & Ja). rewrite <- (Ep a Ia). apply J, Ja.
      - destruct (PP id Hid) as (p & Ip & Ep). destruct (C p Ip) as (a & Ia & Ja). eapply cd_pin; [apply J, Ja|apply (Ep a Ia)|exact Hk]. }
    intros k k' A A'. eapply cd_trans; [apply cd_sym, P, A|apply P, A'].
  - apply Forall_app. split.
    + apply Forall_forall. intros f' Hf'. apply in_map_iff in Hf' as (f & <- & Ff). exact (straight_of lw vd g rap f GO (W f Ff) (fun u v => V f u v Ff)).
    + eapply Forall_impl; [|exact FP]. intros [w|o l1 l2 d|o l bx]; cbn; tauto.
Qed.
