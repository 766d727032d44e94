(* Proofs about fixed metal: placement, the index. *)
From Verif Require Import Base GeomModel GeomSpec GeomProofs FmModel FmSpec FmProofs.
From Coq Require Import String.
From Coq Require Import List.
Open Scope list_scope.

Definition pl_xf (c : dcomp) (m : lmacro) : xform := inst_updated_xform (macro_box m) (mkXf (dc_x c) (dc_y c) (dc_ori c)) false.
Lemma pl_ori c m : ori (pl_xf c m) = dc_ori c.
Proof. unfold pl_xf, inst_updated_xform, xf_update. destruct (dc_ori c); reflexivity. Qed.
Lemma in_cell_transform m v o q : 0 <= lm_sx m -> 0 <= lm_sy m ->
  in_box q (box_transform (cell m) (mkXf (px v) (py v) o)) <-> exists p, in_box p (cell m) /\ q = padd v (orient_map o p).
Proof.
  intros A B. rewrite box_transform_points by (unfold normalised, cell; cbn; lia).
  split; intros (p & I & ->); exists p; (split; [exact I|]); rewrite transform_spec; cbn; destruct v; reflexivity.
Qed.
Lemma placement_is c m v : lm_ox m <= lm_sx m -> lm_oy m <= lm_sy m -> 0 <= lm_sx m -> 0 <= lm_sy m ->
  placement c m v <-> v = mkPt (xo (pl_xf c m)) (yo (pl_xf c m)).
Proof.
  intros X Y SX SY. unfold placement.
  set (B := mkBox (mkPt (dc_x c) (dc_y c)) _).
  assert (BE : B = box_transform (cell m) (pl_xf c m)).
  { unfold B, pl_xf, inst_updated_xform, box_transform, box_of_pts, macro_box, cell. rewrite !box_set_minmax. unfold swaps. clear B.
    destruct (dc_ori c); cbn [xf_update pt_transform bleft bright bbottom btop px py ll ur xo yo ori]; f_equal; f_equal; lia. }
  assert (XF : pl_xf c m = mkXf (px (mkPt (xo (pl_xf c m)) (yo (pl_xf c m)))) (py (mkPt (xo (pl_xf c m)) (yo (pl_xf c m)))) (dc_ori c)).
  { rewrite <- (pl_ori c m). destruct (pl_xf c m); reflexivity. }
  split.
  - intros H.
    assert (E : B = box_transform (cell m) (mkXf (px v) (py v) (dc_ori c))).
    { apply box_ext; [rewrite BE; apply box_transform_normalised|apply box_transform_normalised|]. intros q. rewrite H. symmetry. apply in_cell_transform; assumption. }
    rewrite BE, XF in E. cbn [px py] in E. unfold box_transform, box_of_pts, cell in E. rewrite !box_set_minmax in E.
    destruct v as [vx vy]. set (x := xo (pl_xf c m)) in *. set (y := yo (pl_xf c m)) in *. clearbody x y. clear - E SX SY.
    injection E as E1 E2 E3 E4. destruct (dc_ori c); cbn in *; f_equal; lia.
  - intros -> q. fold B. rewrite BE. rewrite XF at 1. apply in_cell_transform; assumption.
Qed.
Lemma placed_is c m x1 y1 x2 y2 b : lm_ox m <= lm_sx m -> lm_oy m <= lm_sy m -> 0 <= lm_sx m -> 0 <= lm_sy m ->
  placed c m x1 y1 x2 y2 b <-> b = box_transform (box_set x1 y1 x2 y2) (pl_xf c m).
Proof.
  intros X Y SX SY.
  assert (I : image (fun p => padd (mkPt (xo (pl_xf c m)) (yo (pl_xf c m))) (orient_map (dc_ori c) p)) x1 y1 x2 y2 (box_transform (box_set x1 y1 x2 y2) (pl_xf c m))).
  { eapply image_ext; [|apply image_transform]. intros p. cbv beta. rewrite transform_spec, pl_ori. reflexivity. }
  split.
  - intros (v & P & H). apply placement_is in P; auto. subst v. eapply image_unique; eauto.
  - intros ->. eexists. split; [apply placement_is; auto; reflexivity|exact I].
Qed.

Lemma wire_box_is p q w be ee r : wire_box p q w be ee r <-> r = seg_box p q w be ee.
Proof.
  unfold wire_box, seg_box. destruct (px p =? px q); (split; [intros H; eapply image_unique; [exact H|apply image_set]|intros ->; apply image_set]).
Qed.
Lemma via_box_is v f b : image (padd (sv_pt v)) (bleft f) (bbottom f) (bright f) (btop f) b <-> b = box_transform f (mkXf (px (sv_pt v)) (py (sv_pt v)) R0).
Proof.
  assert (I : image (padd (sv_pt v)) (bleft f) (bbottom f) (bright f) (btop f) (box_transform f (mkXf (px (sv_pt v)) (py (sv_pt v)) R0))).
  { eapply image_ext; [|apply image_box_transform]. intros p. reflexivity. }
  split; [intros H; eapply image_unique; eauto|intros ->; exact I].
Qed.

Section P.
Variable lay : string -> option Z.
Variable (lib : list lmacro) (cs : list dcomp) (ps : list dpin) (ss : list snet) (bs : list dblk).

Lemma somes_nth j : nth_error (somes (read_dblk lay) bs) j = match nth_error (filter (plain_blk lay) bs) j with Some B => read_dblk lay B | None => None end.
Proof.
  assert (X : forall B, (read_dblk lay B <> None) <-> plain_blk lay B = true).
  { intros B. unfold read_dblk, plain_blk. destruct (db_layer B) as [n|]; [|split; congruence]. destruct (lay n); [|split; congruence]. destruct (db_attr B); cbn; split; congruence. }
  revert j. induction bs as [|B l IH]; intros j; [destruct j; reflexivity|]. unfold somes. cbn [flat_map filter].
  pose proof (X B) as XB. destruct (read_dblk lay B) as [f|] eqn:E.
  - rewrite (proj1 XB) by discriminate. destruct j; cbn; [symmetry; exact E|apply IH].
  - destruct (plain_blk lay B) eqn:PB; [exfalso; apply XB; reflexivity|]. cbn. apply IH.
Qed.

(* ---- figures ---- *)
Lemma fig_entry_in t o figs l b o' : In (l, b, o') (flat_map (fig_entry t o) figs) <-> o' = o /\ exists r, In (MRect l r) figs /\ b = box_transform r t.
Proof.
  rewrite in_flat_map. split.
  - intros (f & I & H). destruct f as [l' r|]; cbn in H; [|destruct H]. destruct H as [H|[]]. injection H as -> <- ->. split; [reflexivity|]. exists r. auto.
  - intros (-> & r & I & ->). exists (MRect l r). split; [exact I|left; reflexivity].
Qed.
Lemma fig_entry0_in o figs l b o' : In (l, b, o') (flat_map (fig_entry0 o) figs) <-> o' = o /\ In (MRect l b) figs.
Proof.
  rewrite in_flat_map. split.
  - intros (f & I & H). destruct f as [l' r|]; cbn in H; [|destruct H]. destruct H as [H|[]]. injection H as -> -> ->. auto.
  - intros (-> & I). exists (MRect l b). split; [exact I|left; reflexivity].
Qed.

Variable (D : fdesign).
Hypothesis RD : read_design lay lib cs ps ss bs = Some D.
Hypothesis OZ : origin_ok lib cs.

Lemma read_parts : exists rl, omap (read_macro lay) lib = Some rl /\ read_comps rl [] cs = Some (fd_insts D) /\ omap (read_dpin lay) ps = Some (fd_terms D) /\
  fd_snets D = ss /\ fd_blks D = somes (read_dblk lay) bs.
Proof.
  unfold read_design in RD. destruct (omap (read_macro lay) lib) as [rl|]; [|discriminate]. destruct (read_comps rl [] cs) eqn:A; [|discriminate].
  destruct (omap (read_dpin lay) ps) eqn:B; [|discriminate]. injection RD as <-. exists rl. cbn. auto.
Qed.
Lemma inst_is i I : nth_error (fd_insts D) i = Some I <->
  exists c m b, nth_error cs i = Some c /\ macro_of lib (dc_macro c) m /\ read_macro lay m = Some b /\ I = mkFI b (dc_x c) (dc_y c) (dc_ori c).
Proof.
  destruct read_parts as (rl & EL & EC & _). rewrite (read_comps_nth rl [] cs _ EC i). split.
  - destruct (nth_error cs i) as [c|]; [|discriminate]. destruct (find_block rl (dc_macro c)) as [b|] eqn:EF; [|discriminate]. intros E. injection E as <-.
    apply (find_block_spec lay lib rl _ _ EL) in EF as (m & M & R). exists c, m, b. auto.
  - intros (c & m & b & -> & M & R & ->). rewrite (proj2 (find_block_spec lay lib rl (dc_macro c) b EL)); [reflexivity|]. eauto.
Qed.
Lemma read_macro_ok m c i : nth_error cs i = Some c -> macro_of lib (dc_macro c) m -> exists b, read_macro lay m = Some b.
Proof.
  intros _ (l1 & l2 & EQ & _). destruct read_parts as (rl & EL & _).
  pose proof (proj1 (omap_none (read_macro lay) lib) ltac:(congruence) m ltac:(rewrite EQ; apply in_elt)). destruct (read_macro lay m); [eauto|congruence].
Qed.
Lemma rb_is m b : read_macro lay m = Some b ->
  rb_box b = macro_box m /\ rb_terms b = map (fun p => map (fun its => read_items lay its None) (lp_ports p)) (lm_pins m) /\ rb_blks b = map (fun its => read_items lay its None) (lm_obs m).
Proof. unfold read_macro. destruct (forallb _ _); [|discriminate]. intros E. injection E as <-. auto. Qed.

Lemma entries_metal l b o : In (l, b, o) (entries D) <-> metal lay lib cs ps ss bs l b o.
Proof.
  destruct read_parts as (rl & EL & EC & ET & ES & EB). unfold entries. rewrite !in_app_iff, !each_in. rewrite ES, EB. split.
  - intros [(i & I & N & H)|[(j & figs & N & H)|[(k & N' & N & H)|(j & figs & N & H)]]].
    + apply inst_is in N as (c & m & rb & NC & M & R & ->). destruct (OZ c m (nth_error_In _ _ NC) M) as (OX & OY & SX & SY).
      destruct (rb_is m rb R) as (RB & RT & RBL). unfold inst_entries in H. cbn [fi_ref fi_x fi_y fi_ori] in H. rewrite RB in H. fold (pl_xf c m) in H.
      rewrite in_app_iff, !each_in in H. destruct H as [(j & pins & NP & H)|(j & figs & NP & H)].
      * rewrite RT in NP. rewrite nth_error_map in NP. destruct (nth_error (lm_pins m) j) as [P|] eqn:EP; [|discriminate]. injection NP as <-.
        apply in_flat_map in H as (figs & IF & H). apply in_map_iff in IF as (port & <- & IP). apply fig_entry_in in H as (-> & r & IR & ->).
        apply read_items_top in IR as (n & x1 & y1 & x2 & y2 & RO & L & ->).
        eapply metal_pin; eauto. apply placed_is; auto.
      * rewrite RBL in NP. rewrite nth_error_map in NP. destruct (nth_error (lm_obs m) j) as [its|] eqn:EP; [|discriminate]. injection NP as <-.
        apply fig_entry_in in H as (-> & r & IR & ->). apply read_items_top in IR as (n & x1 & y1 & x2 & y2 & RO & L & ->).
        eapply metal_obs; eauto. apply placed_is; auto.
    + rewrite (omap_nth _ _ _ ET) in N. destruct (nth_error ps j) as [P|] eqn:EP; [|discriminate]. apply fig_entry0_in in H as (-> & H).
      unfold read_dpin in N. destruct (negb (use_ok (dp_use P)) || dp_port P); [discriminate|].
      destruct (omap _ (dp_rects P)) as [a|] eqn:E1; [|discriminate]. destruct (omap _ (dp_polys P)) as [b'|] eqn:E2; [|discriminate]. injection N as <-.
      apply in_app_iff in H as [H|H].
      * apply (omap_in _ _ _ _ E1) in H as ([n [[[x1 y1] x2] y2]] & I & F). cbn [fst snd] in F. destruct (lay n) as [l'|] eqn:L; [|discriminate]. injection F as -> <-.
        eapply metal_term; eauto. eapply image_ext; [|apply image_transform]. intros p. cbv beta. rewrite transform_spec. reflexivity.
      * apply (omap_in _ _ _ _ E2) in H as ([n r] & I & F). cbn [fst snd] in F. destruct (lay n); discriminate F.
    + unfold snet_entries in H. rewrite in_app_iff, !each_in in H. destruct H as [(j & s & NS & H)|(j & v & NS & H)].
      * destruct s as [l' p q w be ee|l' r|]; cbn in H; [| |destruct H]; (destruct H as [H|[]]; injection H as -> <- <-).
        -- eapply metal_wire; eauto. apply wire_box_is. reflexivity.
        -- eapply metal_rect; eauto.
      * unfold via_entry in H. rewrite !in_app_iff, !in_map_iff in H.
        destruct H as [(f & E & I)|[(f & E & I)|(f & E & I)]]; injection E as <- <- <-; (eapply metal_via; [exact N|exact NS| |apply via_box_is; reflexivity]); auto.
    + rewrite somes_nth in N. destruct (nth_error (filter (plain_blk lay) bs) j) as [B|] eqn:EP; [|discriminate]. apply fig_entry0_in in H as (-> & H).
      unfold read_dblk in N. destruct (db_layer B) as [n|] eqn:DL; [|discriminate]. destruct (lay n) as [l'|] eqn:L; [|discriminate]. destruct (db_attr B); [discriminate|]. injection N as <-.
      apply in_map_iff in H as ([[[x1 y1] x2] y2] & E & I). injection E as -> <-. eapply metal_blk; eauto. apply image_set.
  - intros H. destruct H as [i c m j P port n x1 y1 x2 y2 NC M NP IP RO L PL|i c m j its n x1 y1 x2 y2 NC M NP RO L PL|j P n x1 y1 x2 y2 NP IR L IM|k N j p q w be ee NN NS WB|k N j NN NS|k N j v f NN NV HF IM|j B n x1 y1 x2 y2 NB DL L IR IM].
    + left. destruct (read_macro_ok m c i NC M) as (rb & R). destruct (OZ c m (nth_error_In _ _ NC) M) as (OX & OY & SX & SY). destruct (rb_is m rb R) as (RB & RT & RBL).
      exists i, (mkFI rb (dc_x c) (dc_y c) (dc_ori c)). split; [apply inst_is; exists c, m, rb; auto|]. unfold inst_entries. cbn [fi_ref fi_x fi_y fi_ori]. rewrite RB. fold (pl_xf c m).
      rewrite in_app_iff, !each_in. left. exists j, (map (fun its => read_items lay its None) (lp_ports P)). split; [rewrite RT, nth_error_map, NP; reflexivity|].
      apply in_flat_map. exists (read_items lay port None). split; [apply in_map_iff; exists port; auto|]. apply fig_entry_in. split; [reflexivity|].
      exists (box_set x1 y1 x2 y2). split; [apply read_items_top; exists n, x1, y1, x2, y2; auto|]. apply (proj1 (placed_is c m x1 y1 x2 y2 b OX OY SX SY)). exact PL.
    + left. destruct (read_macro_ok m c i NC M) as (rb & R). destruct (OZ c m (nth_error_In _ _ NC) M) as (OX & OY & SX & SY). destruct (rb_is m rb R) as (RB & RT & RBL).
      exists i, (mkFI rb (dc_x c) (dc_y c) (dc_ori c)). split; [apply inst_is; exists c, m, rb; auto|]. unfold inst_entries. cbn [fi_ref fi_x fi_y fi_ori]. rewrite RB. fold (pl_xf c m).
      rewrite in_app_iff, !each_in. right. exists j, (read_items lay its None). split; [rewrite RBL, nth_error_map, NP; reflexivity|].
      apply fig_entry_in. split; [reflexivity|].
      exists (box_set x1 y1 x2 y2). split; [apply read_items_top; exists n, x1, y1, x2, y2; auto|]. apply (proj1 (placed_is c m x1 y1 x2 y2 b OX OY SX SY)). exact PL.
    + right. left.
      pose proof (omap_nth _ _ _ ET j) as NT. rewrite NP in NT.
      pose proof (proj1 (omap_none (read_dpin lay) ps) ltac:(congruence) P (nth_error_In _ _ NP)) as NN.
      destruct (read_dpin lay P) as [figs|] eqn:RP; [|congruence]. exists j, figs. split; [exact NT|]. apply fig_entry0_in. split; [reflexivity|].
      unfold read_dpin in RP. destruct (negb (use_ok (dp_use P)) || dp_port P); [discriminate|].
      destruct (omap _ (dp_rects P)) as [a|] eqn:E1; [|discriminate]. destruct (omap _ (dp_polys P)) as [b'|] eqn:E2; [|discriminate]. injection RP as <-.
      apply in_app_iff. left. apply (omap_in _ _ _ _ E1). exists (n, (x1, y1, x2, y2)). split; [exact IR|]. cbn [fst snd]. rewrite L. do 2 f_equal.
      eapply image_unique; [eapply image_ext; [|apply image_transform]|exact IM]. intros p. cbv beta. rewrite transform_spec. reflexivity.
    + right. right. left. exists k, N. split; [exact NN|]. unfold snet_entries. rewrite in_app_iff, !each_in. left. eexists j, _. split; [exact NS|]. cbn. left. apply wire_box_is in WB. subst b. reflexivity.
    + right. right. left. exists k, N. split; [exact NN|]. unfold snet_entries. rewrite in_app_iff, !each_in. left. eexists j, _. split; [exact NS|]. cbn. left. reflexivity.
    + right. right. left. exists k, N. split; [exact NN|]. unfold snet_entries. rewrite in_app_iff, !each_in. right. exists j, v. split; [exact NV|]. apply via_box_is in IM. subst b.
      unfold via_entry. rewrite !in_app_iff, !in_map_iff. destruct HF as [[I ->]|[[I ->]|[I ->]]]; eauto.
    + right. right. right. pose proof (somes_nth j) as NT. rewrite NB in NT. unfold read_dblk in NT. rewrite DL, L in NT.
      apply nth_error_In, filter_In in NB as [_ PB]. unfold plain_blk in PB. rewrite DL, L in PB. apply negb_true_iff in PB. rewrite PB in NT.
      eexists j, _. split; [exact NT|]. apply fig_entry0_in. split; [reflexivity|]. apply in_map_iff. exists (x1, y1, x2, y2). split; [|exact IR]. f_equal. eapply image_unique; [apply image_set|exact IM].
Qed.
End P.
