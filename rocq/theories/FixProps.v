(* Fixed shapes in track assignment. *)
From Verif Require Import Base Stl GeomModel TaModel TaProofs FixModel FixSpec.

Lemma box_set_ends x1 y1 x2 y2 : let b := box_set x1 y1 x2 y2 in bleft b = Z.min x1 x2 /\ bright b = Z.max x1 x2 /\ bbottom b = Z.min y1 y2 /\ btop b = Z.max y1 y2.
Proof. cbv zeta. unfold box_set, bleft, bright, bbottom, btop. cbn [ll ur px py]. rewrite !Z.gtb_ltb. destruct (Z.ltb_spec x2 x1), (Z.ltb_spec y2 y1); lia. Qed.
Lemma sum_ok pin net b cs : proper_box b -> (forall c, In c cs -> proper_box (ch_box c) /\ meet b (ch_box c) = true) ->
  exists r, overlaps_sum pin net b cs = Some r /\ 0 <= r /\ (r = 0 <-> forall c, In c cs -> foreign pin net (ch_own c) = false).
Proof.
  intros P. induction cs as [|c cs IH]; intros M; cbn [overlaps_sum].
  - exists 0. split; [reflexivity|]. split; [lia|]. split; [intros _ c []|reflexivity].
  - destruct IH as (r & E & R & Z0); [intros; apply M; right; assumption|].
    assert (O : 0 < overlap b (ch_box c)).
    { destruct (M c (or_introl eq_refl)) as [[P1 P2] M']. destruct P as [Q1 Q2]. unfold meet in M'. rewrite !andb_true_iff, !Z.leb_le in M'. unfold overlap. lia. }
    replace (overlap b (ch_box c) <=? 0) with false by lia. rewrite E. destruct (foreign pin net (ch_own c)) eqn:F; eexists; (split; [reflexivity|]).
    + split; [lia|]. split; [lia|]. intros H. specialize (H c (or_introl eq_refl)). congruence.
    + split; [exact R|]. rewrite Z0. split; [intros H c' [<-|H']; [exact F|apply H, H']|intros H c' H'; apply H; right; exact H'].
Qed.
(* the cost of a box: zero exactly if no foreign charge meets it *)
Lemma helper_ok pitch pin net cut b cs : 0 < pitch -> proper_box b -> (forall c, In c cs -> proper_box (ch_box c)) ->
  exists r, drc_helper pitch pin net cut b cs = Some r /\ (r = 0 \/ 2 * pitch <= r) /\ (r = 0 <-> forall c, In c cs -> meet b (ch_box c) = true -> foreign pin net (ch_own c) = false).
Proof.
  intros Pp P Pc. unfold drc_helper. destruct (sum_ok pin net b (filter (fun c => meet b (ch_box c)) cs) P) as (r & E & R & Z0).
  { intros c H. apply filter_In in H as [H1 H2]. auto. }
  rewrite E. eexists. split; [reflexivity|].
  assert (Q : r = 0 <-> forall c, In c cs -> meet b (ch_box c) = true -> foreign pin net (ch_own c) = false).
  { rewrite Z0. split; [intros H c H1 H2; apply H, filter_In; auto|intros H c Hc; apply filter_In in Hc as [H1 H2]; auto]. }
  rewrite <- Q. destruct (Z.eqb_spec r 0) as [->|N]; [split; [left; reflexivity|tauto]|]. destruct cut; (split; [right; lia|]); split; intros; lia.
Qed.

Section Fix.
Variable isH : bool.
Variable tracks : list Z.
Variable width : Z.
Variable spc : option (Z -> Z -> Z).
Variable minobs : bool.
Hypothesis sorted : sorted_lt tracks.
Hypothesis wpos : 0 < width.
Notation charges := (fixed_shape isH tracks width spc minobs).
(* shapes of at least two units *)
Definition real_shape (f : fshape) : Prop := bleft (fs_box f) + 2 <= bright (fs_box f) /\ bbottom (fs_box f) + 2 <= btop (fs_box f).
Lemma helper_in b dist own c : 1 <= dist -> proper_box b ->
  In c (fixed_helper isH tracks b dist own) <-> exists t, In t tracks /\ ch_own c = own /\
    (if isH then bbottom b - dist <= t <= btop b + dist /\ ch_box c = box_set (bleft b - dist) t (bright b + dist) t
     else bleft b - dist <= t <= bright b + dist /\ ch_box c = box_set t (bbottom b - dist) t (btop b + dist)).
Proof.
  intros D [P1 P2]. unfold fixed_helper. rewrite in_map_iff.
  destruct (box_set_ends (bleft b - dist) (bbottom b - dist) (bright b + dist) (btop b + dist)) as (B1 & B2 & B3 & B4). fold (box_bloat b dist) in B1, B2, B3, B4.
  rewrite B1, B2, B3, B4. rewrite !Z.min_l, !Z.max_r by lia. split.
  - intros (t & <- & Ht). exists t. destruct isH; apply tracks_between_In in Ht as [Ht R]; try exact sorted; cbn [ch_own ch_box]; auto.
  - intros (t & Ht & O & H). exists t. destruct c as [cb co]. cbn [ch_own ch_box] in *. subst co. destruct isH; destruct H as [R ->]; (split; [reflexivity|]); apply tracks_between_In; auto.
Qed.
Lemma shrink f : real_shape f -> let b := box_bloat (fs_box f) (-1) in bleft b = bleft (fs_box f) + 1 /\ bright b = bright (fs_box f) - 1 /\ bbottom b = bbottom (fs_box f) + 1 /\ btop b = btop (fs_box f) - 1 /\ proper_box b.
Proof.
  intros [R1 R2]. cbv zeta. destruct (box_set_ends (bleft (fs_box f) - -1) (bbottom (fs_box f) - -1) (bright (fs_box f) + -1) (btop (fs_box f) + -1)) as (B1 & B2 & B3 & B4). fold (box_bloat (fs_box f) (-1)) in B1, B2, B3, B4.
  unfold proper_box. rewrite B1, B2, B3, B4. lia.
Qed.
(* a charge of the shape meets the wire on track [t] exactly if shape and wire are closer than dist - hw *)
Lemma charge_meets f dist own b e t hw : real_shape f -> 1 <= dist -> b <= e -> In t tracks ->
  (exists c, In c (fixed_helper isH tracks (box_bloat (fs_box f) (-1)) dist own) /\ meet (if isH then box_set b t e t else box_set t b t e) (ch_box c) = true) <->
  closer (dist - hw) (wire_metal isH hw b e t) (fs_box f).
Proof.
  intros R D L Ht. pose proof (shrink f R) as (S1 & S2 & S3 & S4 & P). unfold closer, gap_x, gap_y, wire_metal.
  destruct (box_set_ends b t e t) as (W1 & W2 & W3 & W4). destruct (box_set_ends t b t e) as (V1 & V2 & V3 & V4).
  destruct R as [R1 R2]. split.
  - intros (c & Hc & M). apply helper_in in Hc as (t' & Ht' & O & H); [|exact D|exact P]. unfold meet in M. rewrite !andb_true_iff, !Z.leb_le in M. destruct isH; destruct H as [I E]; rewrite E in M; unfold bleft, bright, bbottom, btop in *; cbn [ll ur px py] in *.
    + destruct (box_set_ends (bleft (box_bloat (fs_box f) (-1)) - dist) t' (bright (box_bloat (fs_box f) (-1)) + dist) t') as (X1 & X2 & X3 & X4). unfold bleft, bright, bbottom, btop in *. lia.
    + destruct (box_set_ends t' (bbottom (box_bloat (fs_box f) (-1)) - dist) t' (btop (box_bloat (fs_box f) (-1)) + dist)) as (X1 & X2 & X3 & X4). unfold bleft, bright, bbottom, btop in *. lia.
  - intros C. pose proof (fun c => helper_in (box_bloat (fs_box f) (-1)) dist own c D P) as HI. destruct isH.
    + exists (mkCh (box_set (bleft (box_bloat (fs_box f) (-1)) - dist) t (bright (box_bloat (fs_box f) (-1)) + dist) t) own). unfold bleft, bright, bbottom, btop in *. cbn [ll ur px py] in C. split.
      * apply (proj2 (HI _)). exists t. cbn [ch_own ch_box]. unfold bleft, bright, bbottom, btop. repeat split; auto; lia.
      * cbn [ch_box]. unfold meet. destruct (box_set_ends (px (ll (box_bloat (fs_box f) (-1))) - dist) t (px (ur (box_bloat (fs_box f) (-1))) + dist) t) as (X1 & X2 & X3 & X4). unfold bleft, bright, bbottom, btop in *. rewrite !andb_true_iff, !Z.leb_le. lia.
    + exists (mkCh (box_set t (bbottom (box_bloat (fs_box f) (-1)) - dist) t (btop (box_bloat (fs_box f) (-1)) + dist)) own). unfold bleft, bright, bbottom, btop in *. cbn [ll ur px py] in C. split.
      * apply (proj2 (HI _)). exists t. cbn [ch_own ch_box]. unfold bleft, bright, bbottom, btop. repeat split; auto; lia.
      * cbn [ch_box]. unfold meet. destruct (box_set_ends t (py (ll (box_bloat (fs_box f) (-1))) - dist) t (py (ur (box_bloat (fs_box f) (-1))) + dist)) as (X1 & X2 & X3 & X4). unfold bleft, bright, bbottom, btop in *. rewrite !andb_true_iff, !Z.leb_le. lia.
Qed.

Lemma charges_spec f own : own = match fs_kind f with FBlock => ONone | _ => own_of (fs_net f) end ->
  charges f = fixed_helper isH tracks (box_bloat (fs_box f) (-1)) (match fs_kind f with FPin => Z.quot (3 * width) 2 | _ => req_spacing isH width spc minobs f + Z.quot width 2 end) own.
Proof.
  intros ->. unfold fixed_shape, bloat_dist, req_spacing, box_width. destruct (fs_kind f); try reflexivity. all: destruct spc; try reflexivity.
Qed.
Lemma charges_own f c : In c (charges f) -> ch_own c = match fs_kind f with FBlock => ONone | _ => own_of (fs_net f) end.
Proof. rewrite (charges_spec f _ eq_refl). unfold fixed_helper. rewrite in_map_iff. intros (t & <- & _). reflexivity. Qed.
Lemma charges_proper f c : In c (charges f) -> proper_box (ch_box c).
Proof.
  rewrite (charges_spec f _ eq_refl). unfold fixed_helper. rewrite in_map_iff. intros (t & <- & _). cbn [ch_box]. unfold proper_box. destruct isH.
  - match goal with |- context [box_set ?a ?b ?c ?d] => destruct (box_set_ends a b c d) as (-> & -> & -> & ->) end. lia.
  - match goal with |- context [box_set ?a ?b ?c ?d] => destruct (box_set_ends a b c d) as (-> & -> & -> & ->) end. lia.
Qed.
Lemma foreign_other pin net f : foreign pin net (match fs_kind f with FBlock => ONone | _ => own_of (fs_net f) end) = true <-> other_net net f.
Proof.
  unfold other_net. destruct (fs_kind f); cbn [foreign]; [| |split; [left; reflexivity|reflexivity]]; destruct (fs_net f) as [n|]; cbn [own_of foreign]; try (split; [right; congruence|reflexivity]).
  all: rewrite negb_true_iff, Z.eqb_neq; split; [intros H; right; congruence|intros [H|H]; congruence].
Qed.

(* the distance kept from a fixed shape *)
Definition kept (f : fshape) : Z := match fs_kind f with FPin => Z.quot (3 * width) 2 - Z.quot width 2 | _ => req_spacing isH width spc minobs f end.

(* C138: a wire on a track costs nothing exactly if it keeps its distance from each fixed shape of another net; otherwise at
   least two pitches; the cost never ends the program *)
Theorem C138_cost_exact : forall shapes pitch pin net b e t, 0 < pitch -> b <= e -> In t tracks ->
  (forall f, In f shapes -> real_shape f /\ 1 <= kept f + Z.quot width 2) ->
  exists r, wire_cost isH pitch pin net b e t (flat_map charges shapes) = Some r /\ (r = 0 \/ 2 * pitch <= r) /\
    (r = 0 <-> forall f, In f shapes -> other_net net f -> ~ closer (kept f) (wire_metal isH (Z.quot width 2) b e t) (fs_box f)).
Proof.
  intros shapes pitch pin net b e t Pp L Ht Hs. unfold wire_cost. set (wb := if isH then box_set b t e t else box_set t b t e).
  assert (PW : proper_box wb). { unfold wb, proper_box. destruct isH; [destruct (box_set_ends b t e t) as (-> & -> & -> & ->)|destruct (box_set_ends t b t e) as (-> & -> & -> & ->)]; lia. }
  destruct (helper_ok pitch pin net false wb (flat_map charges shapes) Pp PW) as (r & E & R & Z0).
  { intros c H. apply in_flat_map in H as (f & _ & H). apply (charges_proper f c H). }
  exists r. split; [exact E|]. split; [exact R|]. rewrite Z0. clear Z0 R E.
  assert (K : forall f, In f shapes -> (exists c, In c (charges f) /\ meet wb (ch_box c) = true) <-> closer (kept f) (wire_metal isH (Z.quot width 2) b e t) (fs_box f)).
  { intros f Hf. destruct (Hs f Hf) as [Rf Kf]. rewrite (charges_spec f _ eq_refl).
    assert (D : match fs_kind f with FPin => Z.quot (3 * width) 2 | _ => req_spacing isH width spc minobs f + Z.quot width 2 end = kept f + Z.quot width 2) by (unfold kept; destruct (fs_kind f); lia).
    rewrite D. unfold wb. rewrite (charge_meets f (kept f + Z.quot width 2) _ b e t (Z.quot width 2) Rf Kf L Ht).
    replace (kept f + Z.quot width 2 - Z.quot width 2) with (kept f) by lia. reflexivity. }
  split.
  - intros H f Hf O C. apply (K f Hf) in C as (c & Hc & M). specialize (H c). rewrite (charges_own f c Hc) in H. apply (foreign_other pin) in O. rewrite O in H.
    discriminate H; [apply in_flat_map; eauto|exact M].
  - intros H c Hc M. apply in_flat_map in Hc as (f & Hf & Hc). rewrite (charges_own f c Hc). destruct (foreign _ _ _) eqn:F; [|reflexivity].
    apply foreign_other in F. destruct (H f Hf F). apply (K f Hf). exists c. split; assumption.
Qed.

(* with the wires of other guides among the charges: a wire costs nothing exactly if each charge that meets it is of its
   net or its own *)
Theorem C138_owners : forall cs pitch pin net b e t, 0 < pitch -> b <= e -> (forall c, In c cs -> proper_box (ch_box c)) ->
  exists r, wire_cost isH pitch pin net b e t cs = Some r /\ (r = 0 \/ 2 * pitch <= r) /\
    (r = 0 <-> forall c, In c cs -> ~ (gap_x (if isH then mkBox (mkPt b t) (mkPt e t) else mkBox (mkPt t b) (mkPt t e)) (ch_box c) > 0 \/ gap_y (if isH then mkBox (mkPt b t) (mkPt e t) else mkBox (mkPt t b) (mkPt t e)) (ch_box c) > 0) ->
       match ch_own c with ONone => False | ONet n => n = net | OGuide p n => p = pin \/ n = net end).
Proof.
  intros cs pitch pin net b e t Pp L Pc. unfold wire_cost. set (wb := if isH then box_set b t e t else box_set t b t e).
  assert (WB : wb = if isH then mkBox (mkPt b t) (mkPt e t) else mkBox (mkPt t b) (mkPt t e)) by (unfold wb, box_set; destruct isH; zcases; f_equal; f_equal; lia).
  assert (PW : proper_box wb) by (rewrite WB; unfold proper_box, bleft, bright, bbottom, btop; destruct isH; cbn; lia).
  destruct (helper_ok pitch pin net false wb cs Pp PW Pc) as (r & E & R & Z0). exists r. split; [exact E|]. split; [exact R|]. rewrite Z0, <- WB. clear Z0 R E.
  assert (M : forall c, meet wb (ch_box c) = true <-> ~ (gap_x wb (ch_box c) > 0 \/ gap_y wb (ch_box c) > 0)) by (intros c; unfold meet, gap_x, gap_y; rewrite !andb_true_iff, !Z.leb_le; lia).
  assert (O : forall c, foreign pin net (ch_own c) = false <-> match ch_own c with ONone => False | ONet n => n = net | OGuide p n => p = pin \/ n = net end).
  { intros c. destruct (ch_own c) as [|n|p n]; cbn [foreign]; [split; [discriminate|intros []]| |].
    - rewrite negb_false_iff, Z.eqb_eq. split; congruence.
    - rewrite andb_false_iff, !negb_false_iff, !Z.eqb_eq. intuition congruence. }
  split; intros H c Hc K; [apply O, H; [exact Hc|apply M, K]|apply O, H; [exact Hc|apply M, K]].
Qed.

(* a shape further than its distance from the region of the worker is never too close to a wire in it; the region is the
   route box grown by half a gcell *)
Theorem C138_far_shapes : forall f region b e t, bleft region <= bleft (wire_metal isH (Z.quot width 2) b e t) - kept f /\ bright (wire_metal isH (Z.quot width 2) b e t) + kept f <= bright region /\
     bbottom region <= bbottom (wire_metal isH (Z.quot width 2) b e t) - kept f /\ btop (wire_metal isH (Z.quot width 2) b e t) + kept f <= btop region ->
  meet region (fs_box f) = false -> ~ closer (kept f) (wire_metal isH (Z.quot width 2) b e t) (fs_box f).
Proof.
  intros f region b e t (A1 & A2 & A3 & A4) M C. unfold closer, gap_x, gap_y in C. unfold meet in M. rewrite !andb_false_iff, !Z.leb_gt in M. lia.
Qed.
End Fix.

(* Pins are only given the distance of (about) one width, whatever spacing they need *)
Theorem C138_pins_spacing_refuted : exists isH tracks width spc f b e t, sorted_lt tracks /\ In t tracks /\ real_shape f /\ fs_kind f = FPin /\ fs_net f = None /\ b <= e /\
  closer (req_spacing isH width spc false f) (wire_metal isH (Z.quot width 2) b e t) (fs_box f) /\ wire_cost isH 200 0 1 b e t (fixed_shape isH tracks width spc false f) = Some 0.
Proof.
  exists true, [0; 200; 400], 100, (Some (fun w prl => if w <? 300 then 100 else 400)), (mkFS FPin None (mkBox (mkPt 0 0) (mkPt 1000 500))), 1200, 1500, 200.
  split; [intros i j Hij Hj; cbn [length] in Hj; destruct i as [|[|i]], j as [|[|[|j]]]; cbn; lia|]. split; [cbn; auto|]. split; [unfold real_shape; cbn; lia|]. do 2 (split; [reflexivity|]). split; [lia|]. split; [unfold closer, gap_x, gap_y; cbn; lia|]. vm_compute. reflexivity.
Qed.

Print Assumptions C138_cost_exact.
Print Assumptions C138_owners.
Print Assumptions C138_far_shapes.
Print Assumptions C138_pins_spacing_refuted.

(* two tracks clear of a blockage, one too close to it *)
Example C138_ex : map (fun t => wire_cost true 200 0 1 0 1000 t (flat_map (fixed_shape true [0; 200; 400] 100 (Some (fun w prl => if w <? 300 then 100 else 200)) false)
    [mkFS FBlock None (mkBox (mkPt 400 620) (mkPt 900 1000)); mkFS FMetal (Some 1) (mkBox (mkPt 0 (-50)) (mkPt 1000 50))])) [0; 200; 400] = [Some 0; Some 0; Some 850].
Proof. vm_compute. reflexivity. Qed.
