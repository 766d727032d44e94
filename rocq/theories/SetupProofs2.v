(* Proofs about the blocked edges after set-up: which operations touch an edge. *)
From Verif Require Import Base Stl GeomModel GeomSpec GeomProofs GridModel GridSpec GridProofs GridProofs2 CostModel CostSpec CostProofs CostProofs2 CostProofs3 CostProofs4 SetupModel SetupSpec SetupProofs.

Definition battr (d : dir) : attr := by_dir ABlockE ABlockN ABlockU d.
Lemma battr_flag d : flag_attr (battr d). Proof. unfold flag_attr, battr. destruct d; cbn; auto. Qed.
Definition tch (p : midx) (d : dir) (ops : list gop) : Prop := hit_in (owner p d) (battr d) ops.
Lemma end_key p d q e : d <> DUnk -> e <> DUnk -> (owner p d = owner q e /\ battr d = battr e) <-> at_end p d q e.
Proof.
  intros D E. unfold at_end, battr. destruct p as [x y z], q as [x' y' z'].
  destruct d, e; try congruence; cbn; (split;
    [intros [A B]; try discriminate B; injection A; intros; first [left; split; [f_equal; lia|reflexivity]|right; split; [f_equal; lia|reflexivity]]
    |intros [[A B]|[A B]]; try discriminate B; injection A; intros; split; try reflexivity; f_equal; lia]).
Qed.
Lemma hit_set p d q e : d <> DUnk -> e <> DUnk -> hits (SetBlocked q e) (owner p d) (battr d) = true <-> at_end p d q e.
Proof. intros D E. rewrite hits_true. cbn [op_point op_attr]. change (by_dir ABlockE ABlockN ABlockU e) with (battr e). apply end_key; assumption. Qed.
Lemma hit_reset p d q e : d <> DUnk -> e <> DUnk -> hits (ResetBlocked q e) (owner p d) (battr d) = true <-> at_end p d q e.
Proof. intros D E. rewrite hits_true. cbn [op_point op_attr]. change (by_dir ABlockE ABlockN ABlockU e) with (battr e). apply end_key; assumption. Qed.
Lemma end_planar p d q e : at_end p d q e -> planar e = planar d.
Proof. intros [[_ ->]|[_ ->]]; [reflexivity|destruct d; reflexivity]. Qed.
Lemma end_valid g p d q e : valid g p -> valid g (step p d) -> at_end p d q e -> valid g q.
Proof. intros A B [[-> _]|[-> _]]; assumption. Qed.
Lemma end_notunk p d q e : d <> DUnk -> at_end p d q e -> e <> DUnk.
Proof. intros D [[_ ->]|[_ ->]]; [exact D|destruct d; cbn; congruence]. Qed.
Lemma end_layer p d q e : planar d = true -> at_end p d q e -> mz q = mz p.
Proof. intros D [[-> _]|[-> _]]; [reflexivity|]. destruct d; cbn in *; congruence. Qed.

(* ---- grid points of a shape ---- *)
Lemma window_point g b z q : grid_sorted g -> valid g q -> In q (window g b z) <-> mz q = z /\ in_box (getPoint g q) b.
Proof.
  intros GS V. assert (XY : xy_valid g q) by (unfold valid, on_grid in V; unfold xy_valid; lia).
  assert (IB : box_contains_pt b (getPoint g q) true = true <-> in_box (getPoint g q) b) by (unfold box_contains_pt, in_box, bleft, bright, bbottom, btop; lia).
  rewrite <- IB, <- (window_contains g b z q GS XY). split.
  - intros H. assert (mz q = z) by (apply window_in in H; destruct (getIdxBox g b) as [[[? ?] ?] ?]; apply H). split; [assumption|]. subst z. destruct q; exact H.
  - intros [<- H]. destruct q; exact H.
Qed.
Definition on_shape (g : gg) (b : box) (z : Z) (p : midx) (d : dir) : Prop := exists q e, at_end p d q e /\ mz q = z /\ in_box (getPoint g q) b.
Section edge.
  Variables (g : gg) (p : midx) (d : dir).
  Hypotheses (GS : grid_sorted g) (D : d <> DUnk) (VP : valid g p) (VQ : valid g (step p d)).
  Lemma tch_planar b z s : tch p d (blk_planar g b z s) <-> planar d = true /\ on_shape g b z p d.
  Proof.
    unfold tch, blk_planar. rewrite hit_flat. unfold hit_in, on_shape. split.
    - intros (q & Hq & o & Ho & T). apply in_map_iff in Ho as (e & <- & He).
      assert (EU : e <> DUnk /\ planar e = true) by (cbn in He; destruct He as [<-|[<-|[<-|[<-|[]]]]]; split; congruence || reflexivity). destruct EU as [EU EP].
      assert (AE : at_end p d q e) by (destruct s; [apply hit_set in T|apply hit_reset in T]; assumption).
      split; [rewrite <- (end_planar p d q e AE); exact EP|]. exists q, e. split; [exact AE|].
      apply (window_point g b z q GS (end_valid g p d q e VP VQ AE)), Hq.
    - intros (PD & q & e & AE & Hz & HB). exists q. split; [apply (window_point g b z q GS (end_valid g p d q e VP VQ AE)); auto|].
      pose proof (end_notunk p d q e D AE) as EU. pose proof (end_planar p d q e AE) as EP. rewrite PD in EP.
      exists (if s then SetBlocked q e else ResetBlocked q e). split.
      + apply in_map_iff. exists e. split; [reflexivity|]. destruct e; cbn in *; try congruence; auto 6.
      + destruct s; [apply hit_set|apply hit_reset]; assumption.
  Qed.
  Lemma tch_via b z : tch p d (blk_via g b z) <-> planar d = false /\ on_shape g b z p d.
  Proof.
    unfold tch, blk_via. rewrite hit_flat. unfold hit_in, on_shape. split.
    - intros (q & Hq & o & Ho & T). assert (K : exists e, o = SetBlocked q e /\ e <> DUnk /\ planar e = false) by (cbn in Ho; destruct Ho as [<-|[<-|[]]]; eexists; repeat split; congruence).
      destruct K as (e & -> & EU & EP). apply hit_set in T; try assumption. split; [rewrite <- (end_planar p d q e T); exact EP|].
      exists q, e. split; [exact T|]. apply (window_point g b z q GS (end_valid g p d q e VP VQ T)), Hq.
    - intros (PD & q & e & AE & Hz & HB). exists q. split; [apply (window_point g b z q GS (end_valid g p d q e VP VQ AE)); auto|].
      pose proof (end_notunk p d q e D AE) as EU. pose proof (end_planar p d q e AE) as EP. rewrite PD in EP.
      exists (SetBlocked q e). split; [destruct e; cbn in *; try congruence; auto|apply hit_set; assumption].
  Qed.
  Lemma tch_so ops : shape_ops ops -> ~ tch p d ops.
  Proof. apply so_nohit, battr_flag. Qed.
  Lemma tch_app x y : tch p d (x ++ y) <-> tch p d x \/ tch p d y. Proof. apply hit_app. Qed.
  Lemma tch_nil : ~ tch p d []. Proof. intros (o & [] & _). Qed.
  Lemma tch_io o z : tch p d (io_ops g z o) <-> is_io o /\ exists q e, at_end p d q e /\ mz q = z /\ in_box (getPoint g q) (fo_box o) /\
    (planar e = false \/
     (bright (fo_box o) - bleft (fo_box o) > btop (fo_box o) - bbottom (fo_box o) /\ (e = DN \/ e = DS)) \/
     (bright (fo_box o) - bleft (fo_box o) <= btop (fo_box o) - bbottom (fo_box o) /\ (e = DE \/ e = DW))).
  Proof.
    unfold io_ops, is_io. destruct (fo_kind o) as [|n t|n t|pg|pg c] eqn:EK; try (split; [intros H; destruct (tch_nil H)|intros ((n' & t' & C) & _); discriminate C]).
    unfold tch. rewrite hit_flat. unfold hit_in. rewrite Z.gtb_ltb. split.
    - intros (q & Hq & o' & Ho & T). split; [eauto|].
      assert (K : exists e, o' = SetBlocked q e /\ e <> DUnk /\ (planar e = false \/
        (bright (fo_box o) - bleft (fo_box o) > btop (fo_box o) - bbottom (fo_box o) /\ (e = DN \/ e = DS)) \/
        (bright (fo_box o) - bleft (fo_box o) <= btop (fo_box o) - bbottom (fo_box o) /\ (e = DE \/ e = DW)))).
      { apply in_app_iff in Ho as [Ho|Ho]; [cbn in Ho; destruct Ho as [<-|[<-|[]]]; eexists; split; [reflexivity| |reflexivity|]; split; try congruence; left; reflexivity|].
        destruct (Z.ltb_spec (btop (fo_box o) - bbottom (fo_box o)) (bright (fo_box o) - bleft (fo_box o))) as [L|L];
          cbn in Ho; destruct Ho as [<-|[<-|[]]]; eexists; (split; [reflexivity|]); (split; [congruence|]); right; [left|left|right|right]; (split; [lia|]); auto. }
      destruct K as (e & -> & EU & EK'). apply hit_set in T; try assumption. exists q, e. split; [exact T|].
      apply (window_point g _ z q GS (end_valid g p d q e VP VQ T)) in Hq as [A B]. auto.
    - intros (_ & q & e & AE & Hz & HB & K). exists q. split; [apply (window_point g _ z q GS (end_valid g p d q e VP VQ AE)); auto|].
      pose proof (end_notunk p d q e D AE) as EU. exists (SetBlocked q e). split; [|apply hit_set; assumption].
      apply in_app_iff. destruct K as [K|[[L K]|[L K]]].
      + left. destruct e; cbn in *; try congruence; auto.
      + right. replace (btop (fo_box o) - bbottom (fo_box o) <? bright (fo_box o) - bleft (fo_box o)) with true by (symmetry; apply Z.ltb_lt; lia).
        destruct K as [-> | ->]; cbn; auto.
      + right. replace (btop (fo_box o) - bbottom (fo_box o) <? bright (fo_box o) - bleft (fo_box o)) with false by (symmetry; apply Z.ltb_ge; lia).
        destruct K as [-> | ->]; cbn; auto.
  Qed.
End edge.
(* ---- layers ---- *)
Lemma zof_spec g l z : grid_sorted g -> In l (gzs g) -> 0 <= z < nz g -> (zof g l = z <-> getLayerNum g z = l).
Proof.
  intros (_ & _ & Sz) H Hz. unfold zof, getLayerNum. split.
  - intros <-. apply In_nth with (d := 0) in H as (i & Hi & <-). rewrite (lower_bound_nth _ _ Sz Hi), Nat2Z.id. reflexivity.
  - intros <-. unfold nz in Hz. rewrite lower_bound_nth by (auto; lia). lia.
Qed.
Lemma layer_in g z : 0 <= z < nz g -> In (getLayerNum g z) (gzs g).
Proof. intros H. unfold getLayerNum, nz in *. apply nth_In. lia. Qed.
