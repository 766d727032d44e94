(* C07, C08, C53: the global-cell grid. *)
From Verif Require Import Base GeomModel GeomSpec GCellModel GCellSpec GCellProofs.

(* C07: every point of the die lies in the box of the cell it is mapped to; the boxes stay inside
   the die; two different cells share no interior point. *)
Theorem C07_point_in_its_cell die xg yg p :
  grid_ok die xg yg -> in_box p die ->
  idx_ok xg yg (gcell_idx xg yg p) /\ in_box p (gcell_box die xg yg (gcell_idx xg yg p)).
Proof. exact (fun H Hp => conj (gcell_idx_ok die xg yg p H) (gcell_box_contains die xg yg p H Hp)). Qed.
Print Assumptions C07_point_in_its_cell.

Theorem C07_cells_inside_die die xg yg i p :
  grid_ok die xg yg -> idx_ok xg yg i -> in_box p (gcell_box die xg yg i) -> in_box p die.
Proof. exact (gcell_box_in_die die xg yg i p). Qed.
Print Assumptions C07_cells_inside_die.

Theorem C07_cells_disjoint die xg yg i j :
  grid_ok die xg yg -> idx_ok xg yg i -> idx_ok xg yg j -> i <> j ->
  forall x2 y2, in_interior2 x2 y2 (gcell_box die xg yg i) ->
  in_interior2 x2 y2 (gcell_box die xg yg j) -> False.
Proof. exact (gcell_boxes_disjoint die xg yg i j). Qed.
Print Assumptions C07_cells_disjoint.

(* C08 *)
Theorem C08_center_to_index die xg yg i :
  grid_ok die xg yg ->
  0 <= bleft die < gstart xg + gspacing xg -> 0 <= bbottom die < gstart yg + gspacing yg ->
  idx_ok xg yg i -> gcell_idx xg yg (gcell_center die xg yg i) = i.
Proof. exact (idx_of_center die xg yg i). Qed.
Print Assumptions C08_center_to_index.

Theorem C08_center_to_index_any_sign die xg yg i :
  grid_ok die xg yg -> 2 <= gspacing xg -> 2 <= gspacing yg ->
  bleft die + 2 <= gstart xg + gspacing xg -> bbottom die + 2 <= gstart yg + gspacing yg ->
  idx_ok xg yg i -> gcell_idx xg yg (gcell_center die xg yg i) = i.
Proof. exact (idx_of_center_neg die xg yg i). Qed.
Print Assumptions C08_center_to_index_any_sign.

(* without either side condition the law fails: pitch 1 left of the origin, where C++ division
   rounds the midpoint up into the next cell *)
Theorem C08_center_to_index_refuted :
  exists die xg yg i, grid_ok die xg yg /\ idx_ok xg yg i /\
    gcell_idx xg yg (gcell_center die xg yg i) <> i.
Proof.
  exists (mkBox (mkPt (-4) 0) (mkPt 0 4)), (mkGP (-4) 1 4), (mkGP 0 1 4), (mkPt 1 1).
  split; [|split].
  - unfold grid_ok, axis_ok; cbn; lia.
  - unfold idx_ok; cbn; lia.
  - vm_compute. discriminate.
Qed.
Print Assumptions C08_center_to_index_refuted.

(* C53: the grid inferred from the guides.  The pitch is a most frequent guide width, the offset a
   most frequent guide offset; the grid then satisfies the preconditions of C07 and C08, starts at
   most one pitch left of the die, and its lines are congruent to a guide edge. *)
Theorem C53_inferred_grid ws es lo hi G off g :
  infer_pitch ws = Some G -> infer_offset G es = Some off ->
  0 < G -> (forall e, In e es -> 0 <= e) -> 0 <= lo -> lo + G <= hi ->
  build_pattern lo hi G off = Some g ->
  (In G ws /\ forall w, occ w ws <= occ G ws) /\
  (exists e, In e es /\ Z.modulo (gstart g) G = Z.modulo e G) /\
  (forall r, occ r (map (fun e => Z.modulo e G) es) <= occ (Z.modulo (gstart g) G) (map (fun e => Z.modulo e G) es)) /\
  axis_ok g lo hi /\ gspacing g = G /\ lo < gstart g + gspacing g /\ gstart g <= lo.
Proof.
  intros HG Ho HGp He Hlo Hhi Hb.
  assert (Em : map (guide_offset G) es = map (fun e => Z.modulo e G) es).
  { apply map_ext_in. intros e Hin. apply guide_offset_mod; auto. }
  unfold infer_offset in Ho. rewrite Em in Ho. apply pick_mode_spec in Ho as [Hi Hm].
  apply in_map_iff in Hi as (e & E & Hin).
  assert (Hr : 0 <= off < G) by (subst off; apply Z.mod_pos_bound; assumption).
  destruct (build_pattern_ok lo hi G off g HGp Hlo Hr Hhi Hb) as (HA & HB & HC & HD).
  split; [exact (pick_mode_spec ws G HG)|]. rewrite HD.
  split; [exists e; auto|]. split; [exact Hm|]. repeat split; try apply HA; lia.
Qed.
Print Assumptions C53_inferred_grid.

(* inference itself succeeds whenever there is a guide, and the grid exists if the die is wide enough *)
Theorem C53_inference_succeeds es lo hi G :
  0 < G -> es <> [] -> (forall e, In e es -> 0 <= e) -> 2 * G <= hi ->
  exists off g, infer_offset G es = Some off /\ build_pattern lo hi G off = Some g.
Proof.
  intros HG He Hnn Hhi.
  destruct (pick_mode_some (map (guide_offset G) es)) as [off Ho].
  - destruct es; [congruence|discriminate].
  - intros v Hv. apply in_map_iff in Hv as (e & <- & Hin).
    rewrite guide_offset_mod by auto. apply Z.mod_pos_bound; assumption.
  - pose proof (pick_mode_spec _ _ Ho) as [Hin _]. apply in_map_iff in Hin as (e & <- & Hin).
    rewrite guide_offset_mod in * by auto.
    pose proof (Z.mod_pos_bound e G HG).
    destruct (build_pattern_some lo hi G (e mod G) HG ltac:(lia) ltac:(lia)) as [g Hg].
    exists (e mod G), g. split; assumption.
Qed.
Print Assumptions C53_inference_succeeds.

(* With guides left of the origin the offset has the wrong sign and the grid lines miss the guides. *)
Theorem C53_negative_guides_refuted :
  exists ws es lo hi G off g,
    infer_pitch ws = Some G /\ infer_offset G es = Some off /\ 0 < G /\ lo + G <= hi /\
    build_pattern lo hi G off = Some g /\
    forall e, In e es -> Z.modulo (gstart g) G <> Z.modulo e G.
Proof.
  exists [50; 50], [-90; -40], (-90), 410, 50, 90, (mkGP (-10) 50 8).
  repeat split; try reflexivity; try lia.
  intros e [<-|[<-|[]]]; vm_compute; discriminate.
Qed.
Print Assumptions C53_negative_guides_refuted.

(* The "gcell cnt < 1" test compares with the offset, not the start: a die narrower than one pitch
   away from the origin passes it and gets an empty grid. *)
Theorem C53_empty_grid_refuted :
  exists lo hi G off g, 0 < G /\ 0 <= off < G /\ 0 <= lo <= hi /\
    build_pattern lo hi G off = Some g /\ gcount g = 0.
Proof. exists 100, 120, 50, 0, (mkGP 100 50 0). repeat split; try lia; reflexivity. Qed.
Print Assumptions C53_empty_grid_refuted.

Example gcell_case :
  let die := mkBox (mkPt 3 0) (mkPt 1000 700) in
  let xg := mkGP (-40) 100 10 in let yg := mkGP 0 100 7 in
  build_pattern 3 1000 100 60 = Some xg /\ build_pattern 0 700 100 0 = Some yg /\
  grid_ok die xg yg /\ 0 <= bleft die < gstart xg + gspacing xg /\
  0 <= bbottom die < gstart yg + gspacing yg /\ idx_ok xg yg (mkPt 9 3) /\
  gcell_box die xg yg (mkPt 9 3) = mkBox (mkPt 860 300) (mkPt 1000 400) /\
  gcell_idx xg yg (mkPt 999 399) = mkPt 9 3.
Proof. vm_compute. repeat split; discriminate. Qed.
Example infer_case : infer_pitch [100; 50; 100] = Some 100 /\ infer_offset 100 [60; 160; 20] = Some 60.
Proof. split; reflexivity. Qed.
