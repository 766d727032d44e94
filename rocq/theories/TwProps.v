(* The DEF after track assignment describes the assigned wires. *)
From Verif Require Import Base GeomModel ClipModel ClipSpec IoModel IoSpec IoProofs IoProps TwModel TwSpec TwProofs TwProofs2 TwProofs3 TwProofs4.
From Coq Require Import Permutation String.
From Coq Require Import List.
Open Scope list_scope.

Definition e0 (l : Z) : option Z := None.

(* C132 *)
(* The centre lines written are those of the assigned wires that have a length. *)
Theorem C132_same_lines lw vcut figs : Forall fig_straight figs -> forall l x y,
  lines (merge_split lw vcut figs) l x y <-> exists w, In (FSeg w) figs /\ proper w /\ wl w = l /\ on_line w x y.
Proof. intros S. apply (out_lines lw vcut figs S e0); intros; exact I. Qed.
Print Assumptions C132_same_lines.

(* No piece of wire is written twice, and no wire of length 0. *)
Theorem C132_wires_once lw vcut figs : Forall fig_straight figs ->
  Forall fig_proper (merge_split lw vcut figs) /\
  forall i j u v x y x' y', i <> j -> nth_error (merge_split lw vcut figs) i = Some (FSeg u) -> nth_error (merge_split lw vcut figs) j = Some (FSeg v) -> wl u = wl v ->
    on_line u x y -> on_line v x y -> on_line u x' y' -> on_line v x' y' -> x = x' /\ y = y'.
Proof.
  intros S. assert (H1 : forall l, match e0 l with None => True | Some x => x = default_ext lw l end) by (intros; exact I).
  assert (H2 : forall w, In (FSeg w) figs -> match e0 (wl w) with None => True | Some x => 0 <= x /\ bSty (ws w) = StExtend /\ bExt (ws w) = x /\ eSty (ws w) = StExtend /\ eExt (ws w) = x end) by (intros; exact I).
  assert (Pr : forall w, In (FSeg w) (merge_split lw vcut figs) -> proper w) by (intros w; apply (out_proper lw vcut figs S e0 H1 H2)).
  split; [apply Forall_forall; intros [w| |] Hw; cbn; auto|].
  assert (W : forall i u, nth_error (merge_split lw vcut figs) i = Some (FSeg u) -> nth_error (flat_map snd (final lw vcut figs)) i = Some u).
  { intros i u H. unfold merge_split in H. fold (final lw vcut figs) in H. destruct (Nat.lt_ge_cases i (length (flat_map snd (final lw vcut figs)))) as [L|L].
    - rewrite nth_error_app1 in H by (rewrite map_length; exact L). rewrite nth_error_map in H. destruct (nth_error (flat_map snd (final lw vcut figs)) i); [injection H as ->; reflexivity|discriminate H].
    - exfalso. rewrite nth_error_app2 in H by (rewrite map_length; exact L). apply nth_error_In in H. apply in_flat_map in H as (k & _ & H). destruct (via_at vcut figs k) as [f|] eqn:E; [|destruct H]. destruct H as [->|[]].
      revert E. unfold via_at. assert (Q : forall l r, r <> Some (FSeg u) -> fold_left (fun r f => match via_key vcut f with [k'] => if vkey_eqb k' k then Some f else r | _ => r end) l r <> Some (FSeg u)).
      { clear. induction l as [|f r IH]; cbn; intros s Hs; [exact Hs|]. apply IH. destruct f; cbn [via_key]; try exact Hs. destruct (vkey_eqb (px o, py o, vcut d) k); [discriminate|exact Hs]. }
      apply Q. discriminate. }
  destruct (final_TI lw vcut figs S e0 H1 H2) as [T _]. pose proof (TI_pairs e0 _ T) as PW.
  assert (Main : forall i j u v x y x' y', (i < j)%nat -> nth_error (merge_split lw vcut figs) i = Some (FSeg u) -> nth_error (merge_split lw vcut figs) j = Some (FSeg v) -> wl u = wl v ->
    on_line u x y -> on_line v x y -> on_line u x' y' -> on_line v x' y' -> x = x' /\ y = y').
  { intros i j u v x y x' y' L Hu Hv El A1 A2 A3 A4. pose proof (fop_nth _ _ PW i j u v L (W _ _ Hu) (W _ _ Hv)) as R.
    pose proof (proj1 (proper_good u) (Pr u (nth_error_In _ _ Hu))) as Gu. pose proof (proj1 (proper_good v) (Pr v (nth_error_In _ _ Hv))) as Gv.
    apply (on_line_good _ _ _ _ Gu) in A1, A3. apply (on_line_good _ _ _ _ Gv) in A2, A4. unfold R2, apart, w_key in R. cbn [w_key fst snd] in A1, A2, A3, A4.
    destruct (is_h u) eqn:Hu', (is_h v) eqn:Hv'; try lia.
    - assert (E : w_track u = w_track v) by lia. rewrite El, E in R. specialize (R eq_refl). lia.
    - assert (E : w_track u = w_track v) by lia. rewrite El, E in R. specialize (R eq_refl). lia. }
  intros i j u v x y x' y' Ne Hu Hv El A1 A2 A3 A4. destruct (Nat.lt_total i j) as [L|[L|L]]; [eapply (Main i j u v); eassumption|contradiction|].
  eapply (Main j i v u); try eassumption. symmetry. exact El.
Qed.
Print Assumptions C132_wires_once.

(* No two wires written cross in the middle of both. *)
Theorem C132_no_crossing lw vcut figs : Forall fig_straight figs ->
  forall a c, In (FSeg a) (merge_split lw vcut figs) -> In (FSeg c) (merge_split lw vcut figs) -> ~ crossing a c.
Proof.
  intros S. assert (H1 : forall l, match e0 l with None => True | Some x => x = default_ext lw l end) by (intros; exact I).
  assert (H2 : forall w, In (FSeg w) figs -> match e0 (wl w) with None => True | Some x => 0 <= x /\ bSty (ws w) = StExtend /\ bExt (ws w) = x /\ eSty (ws w) = StExtend /\ eExt (ws w) = x end) by (intros; exact I).
  intros a c Ha Hc (El & Va & Hh & X1 & X2).
  apply (out_wire lw vcut figs) in Ha as (k1 & A & I1 & Ia). apply (out_wire lw vcut figs) in Hc as (k2 & B & I2 & Ic).
  destruct (final_wire lw vcut figs S e0 H1 H2 _ _ _ I1 Ia) as ((Ka & _) & _). destruct (final_wire lw vcut figs S e0 H1 H2 _ _ _ I2 Ic) as ((Kc & _) & _).
  assert (Ha : is_h a = false) by (unfold is_h; replace (px (wb a) =? px (we a)) with true by lia; reflexivity).
  assert (Hc : is_h c = true) by (unfold is_h; replace (px (wb c) =? px (we c)) with false by lia; reflexivity).
  unfold w_key in Ka, Kc. rewrite Ha in Ka. rewrite Hc, <- El in Kc. subst k1 k2.
  pose proof (merged_TI figs S e0 H2) as T. rewrite (final_eq lw vcut figs S e0 H2) in I1, I2.
  assert (Ks := crossings_keys lw e0 H1 (merged figs) T).
  refine (crossings_noX lw e0 H1 (merged figs) T (wl a) (w_track a) (w_track c) _ _ A B a c I1 I2 Ia Ic _).
  - rewrite <- Ks. apply in_map_iff. eexists. split; [|exact I1]. reflexivity.
  - rewrite <- Ks. apply in_map_iff. eexists. split; [|exact I2]. reflexivity.
  - cbn [snd]. unfold spans, w_lo, w_hi, w_track. rewrite Ha, Hc. lia.
Qed.
Print Assumptions C132_no_crossing.

Lemma vkey_eqb_eq a c : vkey_eqb a c = true <-> a = c.
Proof. destruct a as [[x1 y1] z1], c as [[x2 y2] z2]. unfold vkey_eqb. rewrite !andb_true_iff, !Z.eqb_eq. split; [intros [[-> ->] ->]; reflexivity|intros H; injection H as -> -> ->; auto]. Qed.
Lemma via_at_some vcut k figs f : via_at vcut figs k = Some f -> In f figs /\ via_key vcut f = [k].
Proof.
  unfold via_at. assert (Q : forall l r, (forall g, r = Some g -> In g figs /\ via_key vcut g = [k]) -> incl l figs -> forall g, fold_left (fun r f => match via_key vcut f with [k'] => if vkey_eqb k' k then Some f else r | _ => r end) l r = Some g -> In g figs /\ via_key vcut g = [k]).
  { induction l as [|h r IH]; cbn; intros s Hs Hl g; [apply Hs|]. apply IH; [|intros x Hx; apply Hl; now right]. destruct (via_key vcut h) as [|k' [|]] eqn:E; try exact Hs.
    destruct (vkey_eqb k' k) eqn:Ek; [|exact Hs]. apply vkey_eqb_eq in Ek. subst k'. intros g' H. injection H as <-. split; [apply Hl; now left|exact E]. }
  apply Q; [discriminate|apply incl_refl].
Qed.
Lemma via_at_in vcut k figs f : In f figs -> via_key vcut f = [k] -> exists g, via_at vcut figs k = Some g.
Proof.
  unfold via_at. intros Hf E. assert (Q : forall l r, (r <> None \/ In f l) -> exists g, fold_left (fun r f => match via_key vcut f with [k'] => if vkey_eqb k' k then Some f else r | _ => r end) l r = Some g).
  { induction l as [|h r IH]; cbn; intros s Hs; [destruct Hs as [Hs|[]]; destruct s; [eauto|contradiction]|]. apply IH. destruct Hs as [Hs|[->|Hs]].
    - left. destruct (via_key vcut h) as [|k' [|]]; try exact Hs. destruct (vkey_eqb k' k); [discriminate|exact Hs].
    - left. rewrite E. replace (vkey_eqb k k) with true by (symmetry; apply vkey_eqb_eq; reflexivity). discriminate.
    - now right. }
  apply Q. now right.
Qed.
Lemma same_place_key vcut f g : same_place vcut f g -> exists k, via_key vcut f = [k] /\ via_key vcut g = [k].
Proof. destruct f, g; cbn; try tauto. intros [-> ->]. eauto. Qed.
Lemma key_same_place vcut f g k : via_key vcut f = [k] -> via_key vcut g = [k] -> same_place vcut f g.
Proof. destruct f as [|o ? ? ?|], g as [|o' ? ? ?|]; cbn; try discriminate. intros H1 H2. rewrite <- H2 in H1. injection H1 as A B C. split; [destruct o, o'; cbn in *; congruence|exact C]. Qed.

(* Every via written is one of the net, and each place with a via gets exactly one. *)
Theorem C132_vias_once lw vcut figs :
  (forall f, a_via f -> In f (merge_split lw vcut figs) -> In f figs) /\
  (forall f, a_via f -> In f figs -> exists g pre post, merge_split lw vcut figs = pre ++ g :: post /\ same_place vcut f g /\ forall g', In g' (pre ++ post) -> ~ same_place vcut f g').
Proof.
  split.
  - intros f V H. unfold merge_split in H. apply in_app_or in H as [H|H].
    + apply in_map_iff in H as (w & <- & _). destruct V.
    + apply in_flat_map in H as (k & _ & H). destruct (via_at vcut figs k) as [g|] eqn:E; [|destruct H]. destruct H as [->|[]]. apply (via_at_some vcut k figs f E).
  - intros f V Hf. assert (exists k, via_key vcut f = [k]) as [k Ek] by (destruct f; cbn in *; try contradiction; eauto).
    assert (Ik : In k (via_keys vcut figs)). { unfold via_keys. apply (proj2 (kset_in _ vkey_tot _ _)). apply in_flat_map. exists f. split; [exact Hf|]. rewrite Ek. now left. }
    assert (Nk : NoDup (via_keys vcut figs)) by apply (kset_nodup _ vkey_irr vkey_tr vkey_tot).
    destruct (in_split _ _ Ik) as (K1 & K2 & EK). rewrite EK in Nk. apply NoDup_remove_2 in Nk.
    destruct (via_at_in vcut k figs f Hf Ek) as [g Eg]. exists g. unfold merge_split. rewrite EK. rewrite flat_map_app. cbn [flat_map]. rewrite Eg. cbn [app].
    eexists. eexists. split; [rewrite app_assoc; reflexivity|]. destruct (via_at_some vcut k figs g Eg) as [_ Kg]. split; [eapply key_same_place; eassumption|].
    intros g' Hg' Sp. destruct (same_place_key _ _ _ Sp) as (k' & Q1 & Q2). rewrite Ek in Q1. injection Q1 as <-.
    assert (X : forall K, In g' (flat_map (fun k => match via_at vcut figs k with Some f => [f] | None => [] end) K) -> In k K).
    { intros K H. apply in_flat_map in H as (k' & Hk & H). destruct (via_at vcut figs k') as [h|] eqn:Eh; [|destruct H]. destruct H as [->|[]]. destruct (via_at_some vcut k' figs g' Eh) as [_ Q]. rewrite Q2 in Q. injection Q as <-. exact Hk. }
    apply Nk. apply in_or_app. apply in_app_or in Hg' as [H|H]; [apply in_app_or in H as [H|H]|].
    + apply in_map_iff in H as (w & <- & _). discriminate Q2.
    + left. apply X, H.
    + right. apply X, H.
Qed.
Print Assumptions C132_vias_once.

(* the metal of a wire with default style: everything within half a width of its centre line *)
Lemma metal_dilates w h : straight w -> bExt (ws w) = h -> eExt (ws w) = h -> Z.quot (sWid (ws w)) 2 = h -> 0 <= h -> forall x y,
  on_metal w x y <-> exists x' y', on_line w x' y' /\ - 2 * h <= x - x' <= 2 * h /\ - 2 * h <= y - y' <= 2 * h.
Proof.
  intros S B E W H x y. unfold on_metal, in_box2, seg_box, on_line. rewrite B, E, W. unfold straight in S.
  destruct w as [l [bx bY] [ex ey] st]. cbn [wb we ws px py] in *. clear B E W.
  assert (Q : forall P : Prop, (bx = ex /\ bY <= ey -> P) -> (bx <> ex /\ bY = ey /\ bx <= ex -> P) -> P) by (intros P0 A1 A2; destruct (Z.eq_dec bx ex); [apply A1; lia|apply A2; lia]).
  apply Q; clear Q S.
  - intros [-> S]. rewrite Z.eqb_refl. cbn [negb]. unfold box_set, bleft, bright, bbottom, btop; cbn [ll ur px py].
    replace (ex - h >? ex + h) with false by (symmetry; rewrite Z.gtb_ltb; apply Z.ltb_ge; lia). replace (bY - h >? ey + h) with false by (symmetry; rewrite Z.gtb_ltb; apply Z.ltb_ge; lia).
    split; [intros X; exists (2 * ex), (Z.max (2 * bY) (Z.min y (2 * ey))); lia|intros (x' & y' & X); lia].
  - intros (N & -> & S). destruct (Z.eqb_spec bx ex); [contradiction|]. cbn [negb]. unfold box_set, bleft, bright, bbottom, btop; cbn [ll ur px py].
    replace (bx - h >? ex + h) with false by (symmetry; rewrite Z.gtb_ltb; apply Z.ltb_ge; lia). replace (ey - h >? ey + h) with false by (symmetry; rewrite Z.gtb_ltb; apply Z.ltb_ge; lia).
    split; [intros X; exists (Z.max (2 * bx) (Z.min x (2 * ex))), (2 * ey); lia|intros (x' & y' & X); lia].
Qed.
Definition restyle (lw : Z -> Z) (f : fig) : fig :=
  match f with FSeg w => FSeg (mkW (wl w) (wb w) (we w) (mkSt (bSty (ws w)) (bExt (ws w)) (eSty (ws w)) (eExt (ws w)) (lw (wl w)))) | _ => f end.
Lemma filter_restyle lw (p : fig -> bool) l : (forall f, p (restyle lw f) = p f) -> filter p (map (restyle lw) l) = map (restyle lw) (filter p l).
Proof. intros H. induction l as [|f r IH]; cbn; [reflexivity|]. rewrite H. destruct (p f); cbn; rewrite IH; reflexivity. Qed.
Lemma write_restyle lw lname vname vl1 figs : write_net lname vname vl1 (map (restyle lw) figs) = write_net lname vname vl1 figs.
Proof.
  unfold write_net, fill_conn. rewrite !filter_restyle by (intros []; reflexivity). rewrite <- !map_app.
  destruct (filter is_seg figs ++ filter is_via figs ++ filter is_patch figs) as [|f r]; cbn; [reflexivity|]. f_equal. f_equal; [destruct f; reflexivity|]. rewrite map_map. apply map_ext. intros []; reflexivity.
Qed.
(* The file contains exactly the metal of the assigned wires and of the vias. *)
Theorem C132_file_has_the_metal lname lnum lw vname vdef vl1 vl2 vshapes vcut figs :
  (forall l, 0 <= lw l) -> names_ok lname lnum vname vdef vl1 figs ->
  Forall fig_proper figs -> Forall (fig_default lw) figs -> (forall o l off, ~ In (FPatch o l off) figs) ->
  (forall f g, In f figs -> In g figs -> same_place vcut f g -> f = g) ->
  exists ss, net_means lnum lw vdef vl1 vl2 (write_net lname vname vl1 (merge_split lw vcut figs)) = Some ss /\
    forall l x y, def_metal lw vshapes ss l x y <-> net_metal vshapes figs l x y.
Proof.
  intros L N P D NP V1. set (out := merge_split lw vcut figs).
  assert (S : Forall fig_straight figs) by (eapply Forall_impl; [|exact P]; intros [w| |]; cbn; auto; unfold proper, straight; lia).
  set (e := fun l => Some (default_ext lw l)).
  assert (H1 : forall l, match e l with None => True | Some x => x = default_ext lw l end) by (intros; reflexivity).
  assert (Hq : forall l, 0 <= default_ext lw l) by (intros l; apply Z.quot_pos; [apply L|lia]).
  assert (H2 : forall w, In (FSeg w) figs -> match e (wl w) with None => True | Some x => 0 <= x /\ bSty (ws w) = StExtend /\ bExt (ws w) = x /\ eSty (ws w) = StExtend /\ eExt (ws w) = x end).
  { intros w Hw. rewrite Forall_forall in D. specialize (D _ Hw). cbn in D. cbn. rewrite D. cbn. auto. }
  pose proof (out_lines lw vcut figs S e H1 H2) as OL. fold out in OL.
  assert (OS : forall w, In (FSeg w) out -> proper w /\ bst (e (wl w)) (ws w) /\ est (e (wl w)) (ws w)).
  { intros w Hw. split; [apply (out_proper lw vcut figs S e H1 H2 w Hw)|apply (out_style lw vcut figs S e H1 H2 w Hw)]. }
  destruct (C132_vias_once lw vcut figs) as [VA VB]. fold out in VA, VB.
  assert (PO : forall o l off, ~ In (FPatch o l off) out).
  { intros o l off H. unfold out, merge_split in H. apply in_app_or in H as [H|H]; [apply in_map_iff in H as (w & Q & _); discriminate Q|].
    apply in_flat_map in H as (k & _ & H). destruct (via_at vcut figs k) as [g|] eqn:E; [|destruct H]. destruct H as [->|[]]. apply (NP o l off), (via_at_some vcut k figs _ E). }
  assert (VC : forall f, a_via f -> (In f out <-> In f figs)).
  { intros f Vf. split; [apply VA, Vf|]. intros Hf. destruct (VB f Vf Hf) as (g & pre & post & E & Sp & _).
    assert (Ig : In g out) by (rewrite E; apply in_or_app; right; now left). assert (Vg : a_via g) by (destruct f, g; cbn in Sp; try contradiction; exact I).
    rewrite (V1 f g Hf (VA g Vg Ig) Sp). exact Ig. }
  assert (LW : forall w, In (FSeg w) out -> exists w', In (FSeg w') figs /\ wl w' = wl w).
  { intros w Hw. destruct (proj1 (OL (wl w) (2 * px (wb w)) (2 * py (wb w)))) as (w' & I1 & _ & E & _); [|eauto].
    exists w. split; [exact Hw|]. split; [reflexivity|]. destruct (OS w Hw) as [Pw _]. unfold on_line. unfold proper in Pw. lia. }
  destruct (C85_file_describes_routing lname lnum lw vname vdef vl1 vl2 vshapes (map (restyle lw) out)) as (ss & E & _ & M).
  - exact L.
  - intros f Hf. apply in_map_iff in Hf as (g & <- & Hg). destruct g as [w|o l1 l2 d|o l off]; cbn.
    + destruct (LW w Hg) as (w' & I1 & <-). exact (N _ I1).
    + exact (N _ (proj1 (VC (FVia o l1 l2 d) Logic.I) Hg)).
    + destruct (PO o l off Hg).
  - apply Forall_forall. intros f Hf. apply in_map_iff in Hf as (g & <- & Hg). destruct g; cbn; auto. destruct (OS w Hg) as [Pw _]. exact Pw.
  - apply Forall_forall. intros f Hf. apply in_map_iff in Hf as (g & <- & Hg). destruct g; cbn; auto. destruct (OS w Hg) as (_ & [B1 B2] & [C1 C2]). unfold standard, half_w. cbn.
    split; [reflexivity|]. unfold std_end. unfold default_ext in *. split; [destruct B2 as [->|[-> Q]]|destruct C2 as [->|[-> Q]]]; congruence.
  - rewrite write_restyle in E. exists ss. split; [exact E|]. intros l x y. rewrite M. unfold net_metal. split.
    + intros (f & Hf & C). apply in_map_iff in Hf as (g & <- & Hg). destruct g as [w|o l1 l2 d|o l' off]; cbn [restyle] in C.
      * cbn in C. destruct C as [El C]. destruct (OS w Hg) as (Pw & [B1 _] & [C1 _]).
        apply (metal_dilates _ (default_ext lw (wl w))) in C; [|cbn; unfold proper, straight in *; cbn; lia|exact B1|exact C1|reflexivity|apply Hq]. destruct C as (x' & y' & O & X & Y).
        destruct (proj1 (OL l x' y')) as (v & Iv & Pv & Elv & Ov); [exists w; split; [exact Hg|split; [exact El|exact O]]|].
        exists (FSeg v). split; [exact Iv|]. cbn. split; [exact Elv|]. rewrite Forall_forall in D. specialize (D _ Iv). cbn in D.
        apply (metal_dilates v (default_ext lw (wl v))); [unfold proper, straight in *; lia|rewrite D; reflexivity|rewrite D; reflexivity|rewrite D; reflexivity|apply Hq|].
        exists x', y'. rewrite Elv, <- El. auto.
      * exists (FVia o l1 l2 d). split; [apply (VC (FVia o l1 l2 d) Logic.I), Hg|exact C].
      * destruct (PO o l' off Hg).
    + intros (f & Hf & C). destruct f as [w|o l1 l2 d|o l' off].
      * cbn in C. destruct C as [El C]. rewrite Forall_forall in D, P. pose proof (D _ Hf) as Dw. pose proof (P _ Hf) as Pw. cbn in Dw, Pw.
        apply (metal_dilates _ (default_ext lw (wl w))) in C; [|unfold proper, straight in *; lia|rewrite Dw; reflexivity|rewrite Dw; reflexivity|rewrite Dw; reflexivity|apply Hq]. destruct C as (x' & y' & O & X & Y).
        destruct (proj2 (OL l x' y')) as (v & Iv & Elv & Ov); [exists w; auto|]. destruct (OS v Iv) as (Pv & [B1 _] & [C1 _]).
        exists (restyle lw (FSeg v)). split; [apply in_map; exact Iv|]. cbn. split; [exact Elv|].
        apply (metal_dilates _ (default_ext lw (wl v))); [cbn; unfold proper, straight in *; cbn; lia|exact B1|exact C1|reflexivity|apply Hq|]. exists x', y'. rewrite Elv, <- El. auto.
      * exists (FVia o l1 l2 d). split; [|exact C]. apply in_map_iff. exists (FVia o l1 l2 d). split; [reflexivity|]. apply (VC (FVia o l1 l2 d) Logic.I), Hf.
      * destruct (NP o l' off Hf).
Qed.
Print Assumptions C132_file_has_the_metal.

(* The vias do not influence the wires: the code that should split the wires at the vias has no effect. *)
Theorem C132_vias_do_not_split lw vcut figs vias : Forall fig_straight figs -> Forall a_via vias ->
  wires_of (merge_split lw vcut (figs ++ vias)) = wires_of (merge_split lw vcut figs).
Proof.
  intros S V. assert (W : wires_of (figs ++ vias) = wires_of figs).
  { unfold wires_of. rewrite flat_map_app. replace (flat_map _ vias) with (@nil wire); [apply app_nil_r|]. clear -V. induction V as [|f r H _ IH]; cbn; [reflexivity|]. destruct f; cbn in H; [destruct H|exact IH|destruct H]. }
  assert (S' : Forall fig_straight (figs ++ vias)) by (apply Forall_app; split; [exact S|eapply Forall_impl; [|exact V]; intros []; cbn; tauto]).
  assert (Q : forall fs, wires_of (merge_split lw vcut fs) = flat_map snd (final lw vcut fs)).
  { intros fs. unfold merge_split. fold (final lw vcut fs). unfold wires_of. rewrite flat_map_app.
    replace (flat_map _ (flat_map _ (via_keys vcut fs))) with (@nil wire).
    - rewrite app_nil_r. induction (flat_map snd (final lw vcut fs)) as [|w r IH]; cbn; [reflexivity|]. f_equal. exact IH.
    - induction (via_keys vcut fs) as [|k r IH]; cbn; [reflexivity|]. destruct (via_at vcut fs k) as [f|] eqn:E; [|exact IH]. destruct (via_at_some vcut k fs f E) as [_ K]. destruct f; cbn in *; try discriminate K. exact IH. }
  rewrite !Q. f_equal.
  assert (H2 : forall fs w, In (FSeg w) fs -> match e0 (wl w) with None => True | Some x => 0 <= x /\ bSty (ws w) = StExtend /\ bExt (ws w) = x /\ eSty (ws w) = StExtend /\ eExt (ws w) = x end) by (intros; exact I).
  rewrite (final_eq lw vcut _ S e0 (H2 _)), (final_eq lw vcut _ S' e0 (H2 _)). unfold merged, long_wires. rewrite W. reflexivity.
Qed.
Print Assumptions C132_vias_do_not_split.

(* a net on layer 2 (vertical and horizontal wires, width 20): two overlapping horizontal wires, a vertical wire that crosses
   them, a wire on a second track, and two vias *)
Definition tw_lw (l : Z) : Z := 20.
Definition tw_sty : sstyle := mkSt StExtend 10 StExtend 10 20.
Definition tw_cut (d : Z) : Z := 3.
Definition tw_w (a c d e : Z) : fig := FSeg (mkW 2 (mkPt a c) (mkPt d e) tw_sty).
Definition tw_net : list fig :=
  [tw_w 0 0 100 0; FVia (mkPt 50 0) 2 4 1; tw_w 50 0 200 0; tw_w 80 (-50) 80 70; tw_w 0 40 30 40; FVia (mkPt 80 70) 2 4 1].
Definition tw_name (l : Z) : string := if l =? 2 then "m1"%string else if l =? 4 then "m2"%string else "?"%string.
Definition tw_num (s : string) : option Z := (if String.eqb s "m1" then Some 2 else if String.eqb s "m2" then Some 4 else None).
Definition tw_vname (d : Z) : string := "v"%string.
Definition tw_vdef (s : string) : option Z := if String.eqb s "v" then Some 1 else None.
Example C132_nonvacuous :
  names_ok tw_name tw_num tw_vname tw_vdef (fun _ => 2) tw_net /\ Forall fig_proper tw_net /\ Forall (fig_default tw_lw) tw_net /\ Forall fig_straight tw_net /\
  (forall o l off, ~ In (FPatch o l off) tw_net) /\ (forall f g, In f tw_net -> In g tw_net -> same_place tw_cut f g -> f = g) /\
  map (fun f => match f with FSeg w => (wb w, we w) | FVia o _ _ _ => (o, o) | FPatch o _ _ => (o, o) end) (merge_split tw_lw tw_cut tw_net) =
    [(mkPt 80 (-50), mkPt 80 0); (mkPt 80 0, mkPt 80 40); (mkPt 80 40, mkPt 80 70); (mkPt 0 0, mkPt 80 0); (mkPt 80 0, mkPt 200 0); (mkPt 0 40, mkPt 30 40);
     (mkPt 50 0, mkPt 50 0); (mkPt 80 70, mkPt 80 70)].
Proof.
  split; [|split; [|split; [|split; [|split; [|split]]]]].
  - intros f Hf. cbn in Hf. repeat (destruct Hf as [<-|Hf]; [cbn; auto; repeat split; discriminate|]). destruct Hf.
  - repeat constructor; cbn; unfold proper; cbn; lia.
  - repeat constructor.
  - repeat constructor; cbn; unfold straight; cbn; lia.
  - intros o l off Hf. cbn in Hf. repeat (destruct Hf as [Hf|Hf]; [discriminate Hf|]). destruct Hf.
  - intros f g Hf Hg. cbn in Hf, Hg. repeat (destruct Hf as [<-|Hf]; [repeat (destruct Hg as [<-|Hg]; [cbn; try tauto; intros [Q _]; discriminate Q|]); destruct Hg|]). destruct Hf.
  - vm_compute. reflexivity.
Qed.

(* The metal of a wire of length 0 (the end of a wire in its extended style) is not in the file. *)
Theorem C132_zero_length_refuted :
  exists lw vcut figs, (forall l, 0 <= lw l) /\ Forall fig_straight figs /\ Forall (fig_default lw) figs /\
    merge_split lw vcut figs = [] /\ exists l x y, net_metal (fun _ => []) figs l x y.
Proof.
  exists tw_lw, tw_cut, [tw_w 5 5 5 5]. split; [intros; unfold tw_lw; lia|]. split; [repeat constructor; cbn; unfold straight; cbn; lia|]. split; [repeat constructor|]. split; [reflexivity|].
  exists 2, 10, 10. exists (tw_w 5 5 5 5). split; [now left|]. cbn. split; [reflexivity|]. unfold on_metal, in_box2. cbn. lia.
Qed.
(* At a crossing of two wires the file may have a break of one wire only: the other is written through. *)
Theorem C132_both_split_refuted :
  exists lw vcut figs a c c', Forall fig_straight figs /\ Forall fig_proper figs /\ Forall (fig_default lw) figs /\
    In (FSeg a) figs /\ In (FSeg c) figs /\ crossing a c /\ In (FSeg c') (merge_split lw vcut figs) /\ wb c' = wb c /\ we c' = we c.
Proof.
  exists tw_lw, tw_cut, [tw_w 50 20 50 40; tw_w 0 30 10 30; tw_w 20 30 100 30],
    (mkW 2 (mkPt 50 20) (mkPt 50 40) tw_sty), (mkW 2 (mkPt 20 30) (mkPt 100 30) tw_sty), (mkW 2 (mkPt 20 30) (mkPt 100 30) (mkSt StExtend 10 StExtend 10 0)).
  split; [repeat constructor; cbn; unfold straight; cbn; lia|]. split; [repeat constructor; cbn; unfold proper; cbn; lia|]. split; [repeat constructor|].
  split; [now left|]. split; [right; right; now left|]. split; [unfold crossing; cbn; lia|]. split; [vm_compute; tauto|]. split; reflexivity.
Qed.
