(* C32-C36, C75: loading routing into a clip and writing it back. *)
From Coq Require Import Permutation.
From Verif Require Import Base GeomModel GeomSpec ClipModel ClipSpec ClipProofs ClipProofs2 ClipProofs3
  ClipProofs4 ClipProofs5 ClipProofs6 ClipProofs7 ClipProofs8.

(* ------------------------------------------------------------------ C32 *)
(* the pieces are wires of the same layer and width; their centre lines together are exactly the wire's,
   and as their lengths add up to its length they overlap at end points only *)
Theorem C32_pieces_are_the_wire isInit b lw w : solid b -> proper w ->
  (forall s f, In (s, f) (load_fig isInit b lw (FSeg w)) ->
     exists c, f = FSeg c /\ wl c = wl w /\ sWid (ws c) = sWid (ws w) /\ proper c) /\
  (forall x y, on_line w x y <-> exists s c, In (s, FSeg c) (load_fig isInit b lw (FSeg w)) /\ on_line c x y) /\
  fold_right Z.add 0 (map (fun x => match snd x with FSeg c => wlen c | _ => 0 end) (load_fig isInit b lw (FSeg w))) = wlen w.
Proof.
  intros S P. split; [|split].
  - intros s f H. destruct (piece_cases isInit b lw S w P s f H) as (c & -> & _). exists c. split; [reflexivity|]. apply (piece_layer isInit b lw S w s c P H).
  - intros x y. split; [apply line_covered; assumption|]. intros (s & c & H & O). apply (piece_on isInit b lw S w s c P H _ _ O).
  - rewrite <- (load_length isInit b lw w S P). unfold total. induction (load_fig isInit b lw (FSeg w)) as [|[s f] r IH]; [reflexivity|]. cbn. rewrite IH. destruct f; reflexivity.
Qed.
Print Assumptions C32_pieces_are_the_wire.

(* routable pieces lie in the closed clip; a fixed piece has no point in the open clip and at most one
   point among those the clip is responsible for *)
Theorem C32_no_piece_crosses isInit b lw w : solid b -> proper w ->
  (forall c x y, In (Route, FSeg c) (load_fig isInit b lw (FSeg w)) -> on_line c x y -> in_box2 b x y) /\
  (forall c x y, In (Ext, FSeg c) (load_fig isInit b lw (FSeg w)) -> on_line c x y -> ~ in_interior2 x y b) /\
  (forall c x y x' y', In (Ext, FSeg c) (load_fig isInit b lw (FSeg w)) -> on_line c x y -> on_line c x' y' ->
     owned isInit b x y -> owned isInit b x' y' -> x = x' /\ y = y').
Proof.
  intros S P. split; [|split].
  - intros c x y H O. apply (route_inside isInit b lw S w c P H _ _ O).
  - intros c x y H O. apply (ext_outside isInit b lw S w c P H _ _ O).
  - intros c x y x' y' H. apply (ext_one_owned isInit b lw S w c P H).
Qed.
Print Assumptions C32_no_piece_crosses.

(* no metal is lost; and none is added if the metal reaches half a default width beyond the cut *)
Theorem C32_metal isInit b lw w : solid b -> (forall l, 0 <= lw l) -> proper w -> style_ok w ->
  (forall x y, on_metal w x y -> exists s c, In (s, FSeg c) (load_fig isInit b lw (FSeg w)) /\ on_metal c x y) /\
  (roomy b (Z.quot (lw (wl w)) 2) w ->
   forall s c x y, In (s, FSeg c) (load_fig isInit b lw (FSeg w)) -> on_metal c x y -> on_metal w x y).
Proof.
  intros S L P Sw. split.
  - intros x y M. apply (metal_covered isInit b lw w S L P Sw x y M).
  - intros R s c x y H M. apply (metal_not_added isInit b lw w S L P Sw R s c x y H M).
Qed.
Print Assumptions C32_metal.

(* vias and patches: routable exactly if the clip is responsible for their origin *)
Theorem C32_vias_patches isInit b lw f : not_wire f = true ->
  (owned_origin isInit b f -> load_fig isInit b lw f = [(Route, f)]) /\
  (~ owned_origin isInit b f -> load_fig isInit b lw f = [(Ext, f)]).
Proof.
  destruct f as [w|o l1 l2 d|o l off]; [discriminate| |]; intros _; cbn [owned_origin load_fig]; rewrite <- origin_in_ok; destruct (origin_in isInit b o); split; try congruence; tauto.
Qed.
Print Assumptions C32_vias_patches.

(* the full statement fails for wires of length zero: one on the lower edge of the clip is dropped *)
Theorem C32_zero_length_refuted : exists b lw w, solid b /\ straight w /\ in_box2 b (2 * px (wb w)) (2 * py (wb w)) /\
  forall isInit, load_fig isInit b lw (FSeg w) = [] /\ fst (remove_fig isInit b lw (FSeg w)) = [].
Proof.
  exists (mkBox (mkPt 0 0) (mkPt 100 100)), (fun _ => 10), (mkW 2 (mkPt 50 0) (mkPt 50 0) (mkSt StExtend 5 StExtend 5 10)).
  split; [split; cbn; lia|]. split; [left; cbn; lia|]. split; [unfold in_box2; cbn; lia|]. intros []; split; reflexivity.
Qed.
Print Assumptions C32_zero_length_refuted.
(* metal beyond the wire: a wire that leaves the clip by less than half the default width *)
Theorem C32_metal_added_refuted : exists b lw w s c x y, solid b /\ proper w /\ style_ok w /\ (forall l, 0 <= lw l) /\
  In (s, FSeg c) (load_fig false b lw (FSeg w)) /\ on_metal c x y /\ ~ on_metal w x y.
Proof.
  exists (mkBox (mkPt 0 0) (mkPt 1000 1000)), (fun _ => 100), (mkW 2 (mkPt 500 (-10)) (mkPt 500 300) (mkSt StTruncate 0 StExtend 50 100)).
  exists Route, (mkW 2 (mkPt 500 0) (mkPt 500 300) (mkSt StExtend 50 StExtend 50 100)), 1000, (-60).
  split; [split; cbn; lia|]. split; [left; cbn; lia|]. split; [unfold style_ok; cbn; lia|]. split; [lia|]. split; [vm_compute; auto|].
  split; [unfold on_metal, in_box2; vm_compute; intuition discriminate|]. unfold on_metal, in_box2. vm_compute. intuition.
Qed.
Print Assumptions C32_metal_added_refuted.

Example C32_example : let b := mkBox (mkPt 0 0) (mkPt 1000 1000) in
  let w := mkW 2 (mkPt 500 (-300)) (mkPt 500 1300) (mkSt StExtend 50 StTruncate 0 100) in
  solid b /\ proper w /\ style_ok w /\ roomy b 50 w /\
  load_fig false b (fun _ => 100) (FSeg w) =
    [(Ext, FSeg (mkW 2 (mkPt 500 (-300)) (mkPt 500 0) (mkSt StExtend 50 StExtend 50 100)));
     (Route, FSeg (mkW 2 (mkPt 500 0) (mkPt 500 1000) (mkSt StExtend 50 StExtend 50 100)));
     (Ext, FSeg (mkW 2 (mkPt 500 1000) (mkPt 500 1300) (mkSt StExtend 50 StTruncate 0 100)))].
Proof.
  cbv zeta. split; [split; cbn; lia|]. split; [left; cbn; lia|]. split; [unfold style_ok; cbn; lia|]. split; [|reflexivity].
  intros e. cbn. split; [intros _ [-> | ->]; lia|intros H; discriminate H].
Qed.

(* ------------------------------------------------------------------ C33 *)
(* one wire: what stays in the design *)
Theorem C33_wire_outside_kept isInit b lw w : solid b -> proper w ->
  (forall f, In f (fst (remove_fig isInit b lw (FSeg w))) ->
     exists c, f = FSeg c /\ wl c = wl w /\ sWid (ws c) = sWid (ws w) /\ proper c /\
       forall x y, on_line c x y -> on_line w x y /\ ~ in_interior2 x y b) /\
  (forall x y, on_line w x y -> ~ in_box2 b x y ->
     exists c, In (FSeg c) (fst (remove_fig isInit b lw (FSeg w))) /\ on_line c x y) /\
  (forall c x y x' y', In (FSeg c) (fst (remove_fig isInit b lw (FSeg w))) -> on_line c x y -> on_line c x' y' ->
     owned isInit b x y -> owned isInit b x' y' -> x = x' /\ y = y') /\
  ((forall x y, on_line w x y -> ~ owned isInit b x y) -> fst (remove_fig isInit b lw (FSeg w)) = [FSeg w]).
Proof.
  intros S P. rewrite (kept_is_ext_fig isInit b lw S (FSeg w) P). split; [|split; [|split]].
  - intros f H. apply on_side_in in H. destruct (piece_cases isInit b lw S w P Ext f H) as (c & -> & _). exists c. split; [reflexivity|].
    destruct (piece_layer isInit b lw S w Ext c P H) as (A & B & C). split; [exact A|]. split; [exact B|]. split; [exact C|]. intros x y O.
    split; [apply (piece_on isInit b lw S w Ext c P H _ _ O)|apply (ext_outside isInit b lw S w c P H _ _ O)].
  - intros x y O N. destruct (line_covered isInit b lw S w P x y O) as ([|] & c & H & Oc).
    + exfalso. apply N. apply (route_inside isInit b lw S w c P H _ _ Oc).
    + exists c. split; [apply on_side_in, H|exact Oc].
  - intros c x y x' y' H. apply on_side_in in H. apply (ext_one_owned isInit b lw S w c P H).
  - intros N. rewrite <- (kept_is_ext_fig isInit b lw S (FSeg w) P). apply unowned_seg; assumption.
Qed.
Print Assumptions C33_wire_outside_kept.
Theorem C33_vias_patches isInit b lw f : not_wire f = true ->
  (owned_origin isInit b f -> fst (remove_fig isInit b lw f) = []) /\
  (~ owned_origin isInit b f -> fst (remove_fig isInit b lw f) = [f]).
Proof.
  destruct f as [w|o l1 l2 d|o l off]; [discriminate| |]; intros _; cbn [owned_origin remove_fig fst]; rewrite <- origin_in_ok; destruct (origin_in isInit b o); split; try congruence; tauto.
Qed.
Print Assumptions C33_vias_patches.

Lemma not_modified subs n : mod_net subs n = false <-> ~ modified subs n.
Proof.
  rewrite <- Bool.not_true_iff_false. unfold mod_net, modified. rewrite existsb_exists. split; intros H (s & A & B); apply H; exists s; (split; [exact A|]).
  - destruct B as [-> ->]. cbn. apply Z.eqb_refl.
  - apply andb_true_iff in B as [B1 B2]. apply Z.eqb_eq in B2. auto.
Qed.

(* the whole write-back: a net none of whose sub-nets changed keeps its figures, in order *)
Theorem C33_other_nets_untouched isInit b lw pin_at manuGrid swap found subs d n :
  ~ modified subs n -> figs_of n (write_back isInit b lw pin_at manuGrid swap found subs d) = figs_of n d.
Proof. intros H. apply not_modified in H. rewrite figs_wback, H. reflexivity. Qed.
Print Assumptions C33_other_nets_untouched.

(* the whole write-back, any net, when the clip's own routing lies in the clip: centre lines outside the
   clip, and vias and patches with an origin outside what the clip is responsible for, do not change.
   Inside, exactly the clip's routing is there afterwards. *)
Theorem C33_frame isInit b lw pin_at manuGrid swap found subs d n :
  solid b -> (forall f, meets b f -> found f = true) ->
  Forall fig_proper (figs_of n d) -> Forall fig_straight (best_of n subs) ->
  (forall w x y, In (FSeg w) (best_of n subs) -> on_line w x y -> in_box2 b x y) ->
  (forall f, In f (best_of n subs) -> not_wire f = true -> owned_origin isInit b f) ->
  let out := figs_of n (write_back isInit b lw pin_at manuGrid swap found subs d) in
  (forall l x y, ~ in_box2 b x y -> lines out l x y <-> lines (figs_of n d) l x y) /\
  (forall f, not_wire f = true -> ~ owned_origin isInit b f -> In f out <-> In f (figs_of n d)) /\
  (modified subs n -> forall l x y, in_interior2 x y b -> lines out l x y <-> lines (best_of n subs) l x y) /\
  (modified subs n -> forall f, not_wire f = true -> owned_origin isInit b f -> In f out <-> In f (best_of n subs)).
Proof.
  intros S Fo P B1 B2 B3. cbv zeta. rewrite figs_wback. destruct (mod_net subs n) eqn:M.
  - assert (St : Forall fig_straight (flat_map (kept_of isInit b lw found) (figs_of n d) ++ best_of n subs)).
    { apply Forall_app. split; [|exact B1]. apply kept_straight; assumption. }
    destruct (merge_net_ok pin_at manuGrid swap n (bound_pts isInit b lw found subs d n) _ St) as (_ & Ln & Nw).
    assert (In1 : forall f, not_wire f = true -> In f (merge_net pin_at manuGrid swap n (flat_map (kept_of isInit b lw found) (figs_of n d) ++ best_of n subs) (bound_pts isInit b lw found subs d n)) <->
       In f (flat_map (kept_of isInit b lw found) (figs_of n d)) \/ In f (best_of n subs)).
    { intros f Nf. rewrite <- in_app_iff. assert (G : forall L, In f L <-> In f (filter not_wire L)) by (intros L; rewrite filter_In; tauto). rewrite G, Nw, <- G. reflexivity. }
    split; [|split; [|split]].
    + intros l x y N. rewrite Ln, lines_app, (lines_outside isInit b lw S found Fo) by assumption. split; [intros [H|(w & H & _ & O)]; [exact H|exfalso; apply N, (B2 w x y H O)]|auto].
    + intros f Nf N. rewrite In1, (kept_not_wire isInit b lw S found Fo) by assumption. split; [intros [[H _]|H]; [exact H|exfalso; apply N, B3; assumption]|auto].
    + intros _ l x y N. rewrite Ln, lines_app. split; [intros [H|H]; [exfalso; apply (lines_interior isInit b lw S found Fo _ _ _ _ P N H)|exact H]|auto].
    + intros _ f Nf N. rewrite In1, (kept_not_wire isInit b lw S found Fo) by assumption. split; [intros [[_ H]|H]; [contradiction|exact H]|auto].
  - apply not_modified in M. split; [reflexivity|]. split; [reflexivity|]. split; intros H; contradiction.
Qed.
Print Assumptions C33_frame.

(* every figure a clip loads as routable satisfies what C33_frame asks of the clip's routing *)
Example C33_routable_is_inside isInit b lw F : solid b -> Forall fig_proper F ->
  Forall fig_straight (loaded isInit b lw Route F) /\
  (forall w x y, In (FSeg w) (loaded isInit b lw Route F) -> on_line w x y -> in_box2 b x y) /\
  (forall f, In f (loaded isInit b lw Route F) -> not_wire f = true -> owned_origin isInit b f).
Proof.
  intros S P. rewrite Forall_forall in P. split; [|split].
  - apply Forall_forall. intros f H. apply on_side_in, in_flat_map in H as (g & Hg & H). apply (load_straight isInit b lw S Route g f (P g Hg) H).
  - intros w x y H O. apply on_side_in, in_flat_map in H as (g & Hg & H). destruct (piece_of_seg isInit b lw _ _ _ H) as (w' & ->). apply (route_inside isInit b lw S w' w (P _ Hg) H _ _ O).
  - intros f H N. apply on_side_in, in_flat_map in H as (g & Hg & H). destruct g as [w|o l1 l2 d|o l off].
    + destruct (piece_cases isInit b lw S w (P _ Hg) Route f H) as (c & -> & _). discriminate N.
    + cbn [load_fig] in H. destruct (origin_in isInit b o) eqn:E; destruct H as [H|[]]; [|discriminate H]. injection H as <-. cbn [owned_origin]. apply origin_in_ok, E.
    + cbn [load_fig] in H. destruct (origin_in isInit b o) eqn:E; destruct H as [H|[]]; [|discriminate H]. injection H as <-. cbn [owned_origin]. apply origin_in_ok, E.
Qed.
(* a clip re-routes net 1 (the inner part of a crossing wire moves to another track) and leaves net 2 *)
Example C33_example :
  let b := mkBox (mkPt 0 0) (mkPt 1000 1000) in
  let st := mkSt StExtend 50 StExtend 50 100 in
  let d := [(1, FSeg (mkW 2 (mkPt (-300) 500) (mkPt 700 500) st)); (1, FVia (mkPt 700 500) 2 4 7); (2, FSeg (mkW 2 (mkPt 0 800) (mkPt 900 800) st));
            (1, FVia (mkPt (-300) 500) 2 4 7)] in
  let best := [FSeg (mkW 2 (mkPt 0 500) (mkPt 400 500) st); FVia (mkPt 400 500) 2 4 7] in
  write_back false b (fun _ => 100) (fun _ _ _ => false) 5 (fun _ _ => false) (fun _ => true) [mkSub 1 true best; mkSub 2 false []] d =
    [(2, FSeg (mkW 2 (mkPt 0 800) (mkPt 900 800) st)); (1, FVia (mkPt (-300) 500) 2 4 7); (1, FVia (mkPt 400 500) 2 4 7);
     (1, FSeg (mkW 2 (mkPt (-300) 500) (mkPt 400 500) st))].
Proof. reflexivity. Qed.

(* ------------------------------------------------------------------ C34 *)
(* a net whose routing in the clip is what was loaded, written back: the centre lines of every layer and the
   vias and patches are what they were *)
Theorem C34_unchanged_clip_lines isInit b lw pin_at manuGrid swap found subs d n :
  solid b -> (forall f, meets b f -> found f = true) -> Forall fig_proper (figs_of n d) ->
  Permutation (best_of n subs) (loaded isInit b lw Route (figs_of n d)) ->
  let out := figs_of n (write_back isInit b lw pin_at manuGrid swap found subs d) in
  (forall l x y, lines out l x y <-> lines (figs_of n d) l x y) /\
  Permutation (filter not_wire out) (filter not_wire (figs_of n d)).
Proof.
  intros S Fo P B. cbv zeta. rewrite figs_wback. destruct (mod_net subs n); [|split; reflexivity].
  pose proof (base_perm isInit b lw S found Fo _ _ P B) as Pm.
  assert (St : Forall fig_straight (flat_map (kept_of isInit b lw found) (figs_of n d) ++ best_of n subs)).
  { apply Forall_app. split; [apply kept_straight; assumption|]. destruct (C33_routable_is_inside isInit b lw _ S P) as [R _]. rewrite Forall_forall in R |- *. intros f H. apply R. apply (Permutation_in _ B H). }
  destruct (merge_net_ok pin_at manuGrid swap n (bound_pts isInit b lw found subs d n) _ St) as (_ & Ln & Nw). split.
  - intros l x y. rewrite Ln, (lines_perm _ _ _ _ _ Pm). apply lines_load; assumption.
  - rewrite Nw, (filter_perm _ _ _ Pm), loads_not_wire by assumption. reflexivity.
Qed.
Print Assumptions C34_unchanged_clip_lines.

(* and the very same figures come back, wires with their end extensions, if at the clip's edge each wire
   is alone (in particular for one wire alone in a clip, away from pins) *)
Theorem C34_unchanged_clip_restored_partial isInit b lw pin_at manuGrid swap found subs d n :
  solid b -> (forall l, 0 <= lw l) -> (forall f, meets b f -> found f = true) -> Forall fig_proper (figs_of n d) ->
  (forall w, In (FSeg w) (figs_of n d) -> style_ok w) -> alone_at_edges b pin_at n (figs_of n d) ->
  Permutation (best_of n subs) (loaded isInit b lw Route (figs_of n d)) ->
  Permutation (figs_of n (write_back isInit b lw pin_at manuGrid swap found subs d)) (figs_of n d).
Proof.
  intros S L Fo P Sw Al B. rewrite figs_wback. destruct (mod_net subs n) eqn:M; [|reflexivity].
  apply (restored isInit b lw S L pin_at manuGrid swap n (figs_of n d) P Sw).
  - intros F1 w F2 p l E H. assert (Hw : In (FSeg w) (figs_of n d)) by (rewrite E; apply in_or_app; right; now left).
    assert (Pw : proper w) by (rewrite Forall_forall in P; apply (P _ Hw)).
    destruct (remove_pts isInit b lw w p l S Pw H) as (-> & O & _).
    assert (Edge : in_box2 b (2 * px p) (2 * py p) /\ ~ in_interior2 (2 * px p) (2 * py p) b).
    { clear - H S Pw. destruct S as [S1 S2]. assert (S3 : bleft b < bright b) by exact S1. assert (S4 : bbottom b < btop b) by exact S2.
      cbn [remove_fig snd] in H. unfold remove_seg in H. cbv zeta in H. unfold in_box2, in_interior2. fold (bleft b) (bright b) (bbottom b) (btop b).
      destruct Pw as [[Ex Ey]|[Ey Ex]].
      - destruct (px (wb w) =? px (we w)) eqn:E1; [|lia]. destruct ((bleft b <=? px (wb w)) && (if isInit then px (wb w) <? bright b else px (wb w) <=? bright b)) eqn:A; [|destruct H].
        cbn [andb] in H. destruct (negb ((py (wb w) >? btop b) || (py (we w) <? bbottom b))) eqn:B; [|destruct H]. cbn [snd] in H. apply in_app_or in H as [H|H].
        + destruct (py (wb w) <? bbottom b) eqn:E2; [|destruct H]. cbn [snd] in H. destruct (py (we w) >=? bbottom b) eqn:E3; [|destruct H]. destruct H as [H|[]]. injection H as <-. cbn [px py]. split; [destruct isInit; lia|lia].
        + destruct (py (we w) >? btop b) eqn:E2; [|destruct H]. cbn [snd] in H. destruct (py (wb w) <=? btop b) eqn:E3; [|destruct H]. destruct H as [H|[]]. injection H as <-. cbn [px py]. split; [destruct isInit; lia|lia].
      - destruct (px (wb w) =? px (we w)) eqn:E1; [lia|]. destruct (py (wb w) =? py (we w)) eqn:E0; [|lia]. destruct ((bbottom b <=? py (wb w)) && (if isInit then py (wb w) <? btop b else py (wb w) <=? btop b)) eqn:A; [|destruct H].
        cbn [andb] in H. destruct (negb ((px (wb w) >? bright b) || (px (we w) <? bleft b))) eqn:B; [|destruct H]. cbn [snd] in H. apply in_app_or in H as [H|H].
        + destruct (px (wb w) <? bleft b) eqn:E2; [|destruct H]. cbn [snd] in H. destruct (px (we w) >=? bleft b) eqn:E3; [|destruct H]. destruct H as [H|[]]. injection H as <-. cbn [px py]. split; [destruct isInit; lia|lia].
        + destruct (px (we w) >? bright b) eqn:E2; [|destruct H]. cbn [snd] in H. destruct (px (wb w) <=? bright b) eqn:E3; [|destruct H]. destruct H as [H|[]]. injection H as <-. cbn [px py]. split; [destruct isInit; lia|lia]. }
    destruct Edge as [Ed1 Ed2]. destruct (Al F1 w F2 p E O Ed1 Ed2) as (A1 & A2 & A3). split; [exact A1|]. split; [exact A2|].
    unfold skip_pt. rewrite A3. destruct (negb (Z.rem (px p) manuGrid =? 0) || negb (Z.rem (py p) manuGrid =? 0)); reflexivity.
  - intros q. rewrite (bound_in isInit b lw found n subs d q M). split.
    + intros (f & Hf & Ff & H). destruct f as [w| |]; [eauto| |]; destruct H.
    + intros (w & Hw & H). exists (FSeg w). split; [exact Hw|]. split; [|exact H]. destruct (found (FSeg w)) eqn:E; [reflexivity|exfalso].
      rewrite Forall_forall in P. destruct (not_found isInit b lw S found Fo (FSeg w) (P _ Hw) E) as [_ R]. rewrite R in H. destruct H.
  - apply base_perm; assumption.
Qed.
Print Assumptions C34_unchanged_clip_restored_partial.

(* the full statement (exactly the same metal) fails at a pin: the pieces of the wire are not joined there,
   and the inner piece has got an end extension that reaches beyond the wire *)
Theorem C34_metal_refuted : exists b lw pin_at w x y, solid b /\ proper w /\ style_ok w /\ (forall l, 0 <= lw l) /\
  let d := [(1, FSeg w)] in
  let subs := [mkSub 1 true (loaded false b lw Route [FSeg w])] in
  metals (figs_of 1 (write_back false b lw pin_at 5 (fun _ _ => false) (fun _ => true) subs d)) (wl w) x y /\ ~ metals [FSeg w] (wl w) x y.
Proof.
  exists (mkBox (mkPt 0 0) (mkPt 1000 1000)), (fun _ => 100), (fun _ _ _ => true), (mkW 2 (mkPt 500 (-10)) (mkPt 500 300) (mkSt StTruncate 0 StExtend 50 100)), 1000, (-60).
  split; [split; cbn; lia|]. split; [left; cbn; lia|]. split; [unfold style_ok; cbn; lia|]. split; [lia|]. cbv zeta. split.
  - exists (mkW 2 (mkPt 500 0) (mkPt 500 300) (mkSt StExtend 50 StExtend 50 100)). split; [vm_compute; auto|]. split; [reflexivity|]. unfold on_metal, in_box2. vm_compute. intuition discriminate.
  - intros (w & [E|[]] & _ & M). injection E as <-. unfold on_metal, in_box2 in M. vm_compute in M. intuition.
Qed.
Print Assumptions C34_metal_refuted.

Example C34_example : let b := mkBox (mkPt 0 0) (mkPt 1000 1000) in
  let w := mkW 2 (mkPt 500 (-300)) (mkPt 500 1300) (mkSt StTruncate 0 StVariable 70 100) in
  let d := [(1, FSeg w); (1, FVia (mkPt 500 400) 2 4 7)] in
  alone_at_edges b (fun _ _ _ => false) 1 (figs_of 1 d) /\
  write_back false b (fun _ => 100) (fun _ _ _ => false) 5 (fun _ _ => true) (fun _ => true)
    [mkSub 1 true (loaded false b (fun _ => 100) Route (figs_of 1 d))] d = [(1, FVia (mkPt 500 400) 2 4 7); (1, FSeg w)].
Proof.
  cbv zeta. split; [|reflexivity]. intros F1 w F2 p E. cbn in E. destruct F1 as [|f [|g r]].
  - injection E as <- <-. intros _ _ _. split; [intros w' [H|[]]; discriminate H|]. split; [intros o off [H|[H|[]]]; discriminate H|reflexivity].
  - discriminate E.
  - destruct r; discriminate E.
Qed.

(* ------------------------------------------------------------------ C35 *)
Lemma ripup0_late i : nth_error main_ripup i = Some 0 -> (2 < i)%nat.
Proof. do 3 (destruct i as [|i]; [discriminate|]). intros _. lia. Qed.
(* In every pass of FlexDR::main that is in conservative mode, a clip is written back only with at most as
   many violations as it had *)
Theorem C35_never_worse i real recheck best : nth_error main_ripup i = Some 0 ->
  clip_written true (Z.of_nat i) 0 real recheck best = true -> best <= real.
Proof.
  intros H. apply ripup0_late in H. unfold clip_written, init_num_markers, skip_routing, writes. cbv zeta.
  destruct (Z.of_nat i <=? 1) eqn:E; [lia|]. destruct (Z.of_nat i =? 0) eqn:E0; [lia|]. cbn [andb negb]. zcases; try discriminate; lia.
Qed.
Print Assumptions C35_never_worse.
(* which clips are routed and written: all in the first two passes, later those with violations or asked to be checked
   again; then written unless the result is worse (conservative) or five times worse (aggressive, not in the first pass),
   a clean clip counting as one violation in the first two passes *)
Theorem C35_routed_exactly : forall drIter real recheck, 0 <= drIter -> 0 <= real ->
  (skip_routing true drIter (init_num_markers drIter real) recheck = false <-> drIter <= 1 \/ 0 < real \/ recheck = true).
Proof.
  intros drIter real recheck D R. unfold skip_routing, init_num_markers. destruct recheck, (drIter <=? 1) eqn:E1, (real =? 0) eqn:E2, (drIter =? 0) eqn:E3; cbn; lia.
Qed.
Print Assumptions C35_routed_exactly.
Theorem C35_written_exactly : forall drIter ripup real recheck best, 0 <= drIter -> 0 <= real ->
  let before := if drIter <=? 1 then Z.max 1 real else real in
  (clip_written true drIter ripup real recheck best = true <->
   (drIter <= 1 \/ 0 < real \/ recheck = true) /\ (ripup = 0 -> best <= before) /\
   (ripup = 1 -> 0 < drIter -> best <= 5 * before)).
Proof.
  intros drIter ripup real recheck best D R. cbv zeta. unfold clip_written, writes, skip_routing, init_num_markers. cbv zeta.
  destruct recheck, (drIter <=? 1) eqn:E1, (real =? 0) eqn:E2, (drIter =? 0) eqn:E3; cbn [negb andb]; zcases; lia.
Qed.
Print Assumptions C35_written_exactly.
(* route(): among the states after all rounds the one kept has the fewest violations (the first such) *)
Theorem C35_best_kept St (markers quick : St -> Z) step bloat mazeEndIter ripup initNum s :
  bloat <= 0 -> (forall t, 0 <= markers t) -> (0 < mazeEndIter)%nat -> ~ (ripup = 0 /\ initNum = 0) ->
  exists k, (k < mazeEndIter)%nat /\
    route St markers quick true bloat step mazeEndIter ripup initNum s = Some (after step s k) /\
    (forall j, (j < mazeEndIter)%nat -> markers (after step s k) <= markers (after step s j)) /\
    (forall j, (j < k)%nat -> markers (after step s k) < markers (after step s j)).
Proof.
  intros B P N R. unfold route. destruct (true && (ripup =? 0) && (initNum =? 0)) eqn:E; [exfalso; lia|]. apply route_best; assumption.
Qed.
Print Assumptions C35_best_kept.
(* The queue-driven router, which FlexDR::main uses, keeps the last routing, not the best *)
Theorem C35_queue_best_refuted : exists (states : list Z) k s, nth_error states k = Some s /\
  exists r, route_queue_best states = Some r /\ s < r.
Proof. exists [0; 3], 0%nat, 0. split; [reflexivity|]. exists 3. split; [reflexivity|lia]. Qed.
Print Assumptions C35_queue_best_refuted.
(* In the aggressive passes more violations than before can be written: up to five times as many, and any
   number in the first pass *)
Theorem C35_aggressive_partial : forall i real recheck best, nth_error main_ripup i = Some 1 -> (1 < i)%nat ->
  clip_written true (Z.of_nat i) 1 real recheck best = true -> best <= 5 * real.
Proof.
  intros i real recheck best _ H. unfold clip_written, init_num_markers, skip_routing, writes. cbv zeta.
  destruct (Z.of_nat i <=? 1) eqn:E; [lia|]. destruct (Z.of_nat i =? 0) eqn:E0; [lia|]. cbn [andb negb]. zcases; try discriminate; lia.
Qed.
Print Assumptions C35_aggressive_partial.
Theorem C35_aggressive_refuted : (exists i real best, nth_error main_ripup i = Some 1 /\ (1 < i)%nat /\
    clip_written true (Z.of_nat i) 1 real false best = true /\ real < best) /\
  forall best, 0 <= best -> nth_error main_ripup 0 = Some 1 /\ clip_written true 0 1 0 false best = true.
Proof.
  split; [exists 2%nat, 1, 5; split; [reflexivity|]; split; [lia|]; split; [reflexivity|lia]|]. intros best H. split; [reflexivity|]. reflexivity.
Qed.
Print Assumptions C35_aggressive_refuted.
Example C35_example : nth_error main_ripup 3 = Some 0 /\ clip_written true 3 0 4 false 2 = true /\ clip_written true 3 0 4 false 5 = false /\
  route Z Z.abs Z.abs true 0 (fun i s => s + Z.of_nat i - 2) 4%nat 0 5 3 = Some 0.
Proof. repeat split. Qed.

(* ------------------------------------------------------------------ C36 *)
(* exactly two wires, in line and end to end, of one width; no patch there, no pin of the net *)
Theorem C36_joined_partial pin_at manuGrid swap n figs a c p rest :
  Permutation figs (FSeg a :: FSeg c :: rest) -> end_to_end a c p -> sWid (ws a) = sWid (ws c) -> style_ok a -> style_ok c ->
  (forall w, In (FSeg w) rest -> wl w = wl a -> wb w <> p /\ we w <> p) ->
  (forall o off, In (FPatch o (wl a) off) rest -> o <> p) -> pin_at n p (wl a) = false ->
  Permutation (merge_pt pin_at manuGrid swap n figs (p, wl a)) (FSeg (joined a c) :: rest) /\
  (forall x y, on_line (joined a c) x y <-> on_line a x y \/ on_line c x y) /\
  (forall x y, on_metal (joined a c) x y -> on_metal a x y \/ on_metal c x y) /\
  (eExt (ws a) <= wlen c + eExt (ws c) -> bExt (ws c) <= wlen a + bExt (ws a) ->
   forall x y, on_metal a x y \/ on_metal c x y -> on_metal (joined a c) x y).
Proof.
  intros Pm E W Sa Sc Nr Np Sk. split; [|split; [|split]].
  - apply merge_two; try assumption; try reflexivity.
    + intros f Hf. destruct (ends_at p (wl a) f) eqn:X; [|reflexivity]. destruct f as [w| |]; [|discriminate X..]. apply ends_at_only in X as [L X]. destruct (Nr w Hf L). tauto.
    + intros f Hf. destruct (patch_at p (wl a) f) eqn:X; [|reflexivity]. destruct f as [| |o l off]; [discriminate X..|]. unfold patch_at in X. rewrite !andb_true_iff in X. destruct X as [[X1 _] X2]. apply Z.eqb_eq in X1. subst l. apply pt_eq_ok in X2. destruct (Np o off Hf X2).
    + unfold skip_pt. rewrite Sk. destruct (negb (Z.rem (px p) manuGrid =? 0) || negb (Z.rem (py p) manuGrid =? 0)); reflexivity.
  - intros x y. destruct E as (E1 & E2 & El & Pa & Pc & D). assert (Ex : px (we a) = px (wb c)) by congruence. assert (Ey : py (we a) = py (wb c)) by congruence. clear E1 E2.
    unfold proper, on_line, joined in *. cbn [wb we]. lia.
  - intros x y. apply (joined_metal_iff a c p E W Sa Sc x y).
  - intros H1 H2 x y. apply (joined_metal_iff a c p E W Sa Sc x y); assumption.
Qed.
Print Assumptions C36_joined_partial.

(* whatever is joined, the net's centre lines, vias and patches stay the same *)
Theorem C36_lines_preserved pin_at manuGrid swap n figs pts : Forall fig_straight figs ->
  let out := merge_net pin_at manuGrid swap n figs pts in
  Forall fig_straight out /\ (forall l x y, lines out l x y <-> lines figs l x y) /\ filter not_wire out = filter not_wire figs.
Proof. intros F. cbv zeta. apply merge_net_ok, F. Qed.
Print Assumptions C36_lines_preserved.

(* and nothing changes unless exactly two wires of the layer, both vertical or both not, begin or end at the
   point, there is no patch, and no pin (or the point is off the manufacturing grid) *)
Theorem C36_otherwise_unchanged pin_at manuGrid swap n figs p l :
  (forall w, In (FSeg w) figs -> straight w /\ style_ok w) ->
  merge_pt pin_at manuGrid swap n figs (p, l) <> figs ->
  exists a c j rest, Permutation figs (FSeg a :: FSeg c :: rest) /\
    Permutation (merge_pt pin_at manuGrid swap n figs (p, l)) (FSeg j :: rest) /\
    wl a = l /\ wl c = l /\ (wb a = p \/ we a = p) /\ (wb c = p \/ we c = p) /\
    (px (wb a) = px (we a) <-> px (wb c) = px (we c)) /\
    (forall w, In (FSeg w) rest -> wl w = l -> wb w <> p /\ we w <> p) /\
    (forall off, In (FPatch p l off) figs -> box_contains_pt off (mkPt 0 0) true = false) /\
    (pin_at n p l = true -> Z.rem (px p) manuGrid <> 0 \/ Z.rem (py p) manuGrid <> 0) /\
    forall x y, on_line j x y <-> on_line a x y \/ on_line c x y.
Proof.
  intros Sf N. destruct (merge_pt_cases pin_at manuGrid swap n figs p l) as [E|(a & c & j & rest & Pm & E & Hr & Ea & Ec & Sk & Pa & K)]; [contradiction|].
  exists a, c, j, rest. split; [exact Pm|]. rewrite E. split; [symmetry; apply Permutation_cons_append|].
  apply ends_at_only in Ea as [La Ea]. apply ends_at_only in Ec as [Lc Ec].
  assert (Ia : In (FSeg a) figs) by (symmetry in Pm; apply (Permutation_in _ Pm); now left).
  assert (Ic : In (FSeg c) figs) by (symmetry in Pm; apply (Permutation_in _ Pm); right; now left).
  split; [exact La|]. split; [exact Lc|]. split; [exact Ea|]. split; [exact Ec|]. split; [cbn in K; lia|]. split; [|split; [|split]].
  - intros w Hw Lw. rewrite Hr in Hw. apply filter_In in Hw as [Hw Nw]. destruct (Sf w Hw) as [S1 S2]. apply negb_true_iff in Nw.
    split; intros X; rewrite (proj2 (ends_at_ok w p l S1 S2)) in Nw; try discriminate Nw; auto.
  - intros off Ho. destruct (box_contains_pt off (mkPt 0 0) true) eqn:X; [|reflexivity]. exfalso. rewrite <- Bool.not_true_iff_false in Pa. apply Pa. apply existsb_exists. exists (FPatch p l off). split; [exact Ho|].
    unfold patch_at. rewrite Z.eqb_refl, X, (proj2 (pt_eq_ok p p) eq_refl). reflexivity.
  - intros Pn. unfold skip_pt in Sk. rewrite Pn in Sk. destruct (negb (Z.rem (px p) manuGrid =? 0) || negb (Z.rem (py p) manuGrid =? 0)) eqn:X; [lia|discriminate Sk].
  - destruct K as [(V0 & V1 & ->)|(V0 & V1 & ->)].
    + apply (join_h_ok pin_at swap a c p); try assumption; [apply (Sf a Ia)|apply (Sf c Ic)].
    + apply (join_v_ok pin_at swap a c p); try assumption; [apply (Sf a Ia)|apply (Sf c Ic)].
Qed.
Print Assumptions C36_otherwise_unchanged.

(* "covering exactly both" fails for metal: an end extension longer than the other wire is lost *)
Theorem C36_metal_lost_refuted : exists a c p x y, end_to_end a c p /\ sWid (ws a) = sWid (ws c) /\ style_ok a /\ style_ok c /\
  let out := merge_pt (fun _ _ _ => false) 5 (fun _ _ => false) 1 [FSeg a; FSeg c] (p, wl a) in
  metals [FSeg a; FSeg c] (wl a) x y /\ ~ metals out (wl a) x y.
Proof.
  exists (mkW 2 (mkPt 0 0) (mkPt 100 0) (mkSt StExtend 50 StVariable 90 100)), (mkW 2 (mkPt 100 0) (mkPt 120 0) (mkSt StExtend 50 StTruncate 0 100)), (mkPt 100 0), 380, 0.
  split; [unfold end_to_end, proper; cbn; intuition lia|]. split; [reflexivity|]. split; [unfold style_ok; cbn; lia|]. split; [unfold style_ok; cbn; lia|]. cbv zeta. split.
  - exists (mkW 2 (mkPt 0 0) (mkPt 100 0) (mkSt StExtend 50 StVariable 90 100)). split; [now left|]. split; [reflexivity|]. unfold on_metal, in_box2. vm_compute. intuition discriminate.
  - intros (w & [E|[]] & _ & M). injection E as <-. unfold on_metal, in_box2 in M. vm_compute in M. intuition.
Qed.
Print Assumptions C36_metal_lost_refuted.
(* and wires of different widths are joined into one of the width of the one found first *)
Theorem C36_width_refuted : exists a c p, end_to_end a c p /\ style_ok a /\ style_ok c /\
  exists j j', merge_pt (fun _ _ _ => false) 5 (fun _ _ => false) 1 [FSeg a; FSeg c] (p, wl a) = [FSeg j] /\
    merge_pt (fun _ _ _ => false) 5 (fun _ _ => true) 1 [FSeg a; FSeg c] (p, wl a) = [FSeg j'] /\ sWid (ws j) <> sWid (ws j').
Proof.
  exists (mkW 2 (mkPt 0 0) (mkPt 100 0) (mkSt StExtend 50 StExtend 50 100)), (mkW 2 (mkPt 100 0) (mkPt 200 0) (mkSt StExtend 50 StExtend 50 200)), (mkPt 100 0).
  split; [unfold end_to_end, proper; cbn; intuition lia|]. split; [unfold style_ok; cbn; lia|]. split; [unfold style_ok; cbn; lia|].
  eexists _, _. split; [reflexivity|]. split; [reflexivity|]. cbn. lia.
Qed.
Print Assumptions C36_width_refuted.
Example C36_example : let a := mkW 2 (mkPt 0 0) (mkPt 100 0) (mkSt StTruncate 0 StExtend 50 100) in
  let c := mkW 2 (mkPt 100 0) (mkPt 300 0) (mkSt StExtend 50 StVariable 70 100) in
  end_to_end a c (mkPt 100 0) /\ style_ok a /\ style_ok c /\ eExt (ws a) <= wlen c + eExt (ws c) /\ bExt (ws c) <= wlen a + bExt (ws a) /\
  merge_pt (fun _ _ _ => false) 5 (fun _ _ => true) 1 [FSeg c; FVia (mkPt 0 0) 2 4 7; FSeg a] (mkPt 100 0, 2) =
    [FVia (mkPt 0 0) 2 4 7; FSeg (mkW 2 (mkPt 0 0) (mkPt 300 0) (mkSt StTruncate 0 StVariable 70 100))].
Proof. cbv zeta. split; [unfold end_to_end, proper; cbn; intuition lia|]. split; [unfold style_ok; cbn; lia|]. split; [unfold style_ok; cbn; lia|]. split; [cbn; lia|]. split; [cbn; lia|]. reflexivity. Qed.

(* ------------------------------------------------------------------ C75 *)
(* one changed sub-net is enough for all sub-nets of its net to be written *)
Theorem C75_all_subnets_written isInit b lw pin_at manuGrid swap found subs d n s f :
  solid b -> (forall g, meets b g -> found g = true) ->
  Forall fig_proper (figs_of n d) -> Forall fig_straight (best_of n subs) ->
  modified subs n -> In s subs -> sn_net s = n -> In f (sn_best s) ->
  let out := figs_of n (write_back isInit b lw pin_at manuGrid swap found subs d) in
  match f with FSeg w => forall x y, on_line w x y -> lines out (wl w) x y | _ => In f out end.
Proof.
  intros S Fo P B M Hs En Hf. cbv zeta.
  assert (Mb : mod_net subs n = true) by (destruct (mod_net subs n) eqn:X; [reflexivity|apply not_modified in X; contradiction]). rewrite figs_wback, Mb.
  assert (Ib : In f (best_of n subs)).
  { unfold best_of. apply in_flat_map. exists s. split; [|exact Hf]. apply filter_In. split; [exact Hs|]. apply Z.eqb_eq, En. }
  assert (St : Forall fig_straight (flat_map (kept_of isInit b lw found) (figs_of n d) ++ best_of n subs)).
  { apply Forall_app. split; [apply kept_straight; assumption|exact B]. }
  destruct (merge_net_ok pin_at manuGrid swap n (bound_pts isInit b lw found subs d n) _ St) as (_ & Ln & Nw).
  assert (G : not_wire f = true -> In f (merge_net pin_at manuGrid swap n (flat_map (kept_of isInit b lw found) (figs_of n d) ++ best_of n subs) (bound_pts isInit b lw found subs d n))).
  { intros Nf. assert (H : forall L, In f L <-> In f (filter not_wire L)) by (intros L; rewrite filter_In; tauto). rewrite H, Nw, <- H. apply in_or_app. now right. }
  destruct f as [w|o l1 l2 dd|o l off]; [|apply G; reflexivity..].
  intros x y O. apply Ln. apply lines_app. right. exists w. auto.
Qed.
Print Assumptions C75_all_subnets_written.
Example C75_example :
  let b := mkBox (mkPt 0 0) (mkPt 1000 1000) in
  let st := mkSt StExtend 50 StExtend 50 100 in
  let w1 := mkW 2 (mkPt 0 500) (mkPt 400 500) st in let w2 := mkW 2 (mkPt 0 800) (mkPt 400 800) st in
  let subs := [mkSub 1 true [FSeg w1]; mkSub 1 false [FSeg w2]] in
  modified subs 1 /\ write_back false b (fun _ => 100) (fun _ _ _ => false) 5 (fun _ _ => false) (fun _ => true) subs [(1, FSeg w1); (1, FSeg w2)] =
    [(1, FSeg w1); (1, FSeg w2)].
Proof. cbv zeta. split; [eexists; split; [now left|split; reflexivity]|reflexivity]. Qed.
