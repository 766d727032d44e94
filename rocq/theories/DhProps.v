(* C153: the head of a DEF file. *)
From Coq Require Import QArith.
From Verif Require Import Base Stl GeomModel GeomSpec GeomProofs GridSpec GraphModel GraphSpec GraphProps DhModel DhSpec DhProofs.
Local Open Scope Z_scope.

(* C153: the units are those of the last UNITS statement *)
Theorem C153_units N2L nl ss h n : read_header N2L nl ss = Some h -> last_of units_of ss n -> h_units h = n.
Proof. apply units_last. Qed.
Print Assumptions C153_units.

(* a die area given by two points: the smallest box around them.  Missing: areas given by more points *)
Theorem C153_die_partial N2L nl ss h p q : read_header N2L nl ss = Some h -> last_of die_of ss [p; q] -> spans (die_box h) [p; q].
Proof.
  intros H D. rewrite (die_box_two N2L h _ _ _ _ (die_last _ _ _ _ _ _ _ H D)). unfold spans, in_box, bleft, bright, bbottom, btop. cbn [ll ur px py].
  split; [intros x [<-|[<-|[]]]; lia|].
  repeat split; [destruct (Z.min_spec (px p) (px q)) as [(_ & ->)|(_ & ->)]|destruct (Z.max_spec (px p) (px q)) as [(_ & ->)|(_ & ->)]
               |destruct (Z.min_spec (py p) (py q)) as [(_ & ->)|(_ & ->)]|destruct (Z.max_spec (py p) (py q)) as [(_ & ->)|(_ & ->)]]; eexists; (split; [|reflexivity]); cbn; auto.
Qed.
Print Assumptions C153_die_partial.
(* of an area given by more points, the first two count alone *)
Theorem C153_die_first_two N2L nl ss h p q r : read_header N2L nl ss = Some h -> last_of die_of ss (p :: q :: r) -> spans (die_box h) [p; q].
Proof.
  intros H D. rewrite (die_box_two N2L h _ _ _ _ (die_last _ _ _ _ _ _ _ H D)). unfold spans, in_box, bleft, bright, bbottom, btop. cbn [ll ur px py].
  split; [intros x [<-|[<-|[]]]; lia|].
  repeat split; [destruct (Z.min_spec (px p) (px q)) as [(_ & ->)|(_ & ->)]|destruct (Z.max_spec (px p) (px q)) as [(_ & ->)|(_ & ->)]
               |destruct (Z.min_spec (py p) (py q)) as [(_ & ->)|(_ & ->)]|destruct (Z.max_spec (py p) (py q)) as [(_ & ->)|(_ & ->)]]; eexists; (split; [|reflexivity]); cbn; auto.
Qed.
Print Assumptions C153_die_first_two.
(* the boundary that is stored: the four corners of that box, one after the other *)
Theorem C153_die_outline N2L nl ss h p q r : read_header N2L nl ss = Some h -> last_of die_of ss (p :: q :: r) ->
  h_bounds h = [[p; mkPt (px q) (py p); q; mkPt (px p) (py q)]].
Proof. intros H D. rewrite (die_last _ _ _ _ _ _ _ H D). destruct p, q. reflexivity. Qed.
Print Assumptions C153_die_outline.
(* Refuted: a die of 1000 by 1000 given by its four corners has no width *)
Theorem C153_die_refuted :
  exists N2L nl h pts, read_header N2L nl [HDie pts] = Some h /\ pts = [mkPt 0 0; mkPt 0 1000; mkPt 1000 1000; mkPt 1000 0] /\
    bleft (die_box h) = 0 /\ bright (die_box h) = 0 /\ ~ spans (die_box h) pts.
Proof.
  exists (fun _ => None), 3%nat. eexists. eexists. split; [lazy; reflexivity|]. split; [reflexivity|]. split; [reflexivity|]. split; [reflexivity|].
  intros (H & _). assert (X : In (mkPt 1000 1000) [mkPt 0 0; mkPt 0 1000; mkPt 1000 1000; mkPt 1000 0]) by (cbn; auto). apply H in X. vm_compute in X. intuition congruence.
Qed.
Print Assumptions C153_die_refuted.

(* tracks: known layers, whole steps, one layer to a statement: reading succeeds, and the patterns of the
   design have exactly the tracks of the statements.  Missing: statements with several layers *)
Theorem C153_tracks_partial N2L nl ss :
  Forall (good_tracks N2L nl) ss -> Forall one_layer ss ->
  exists h, read_header N2L nl ss = Some h /\
    forall isx l c, (exists tp, In tp (all_tracks h) /\ tp_isX tp = isx /\ tp_layer tp = l /\ on_pattern tp c) <-> exists s, In s ss /\ track_of N2L s isx l c.
Proof.
  intros G O. destruct (good_all N2L nl ss (hdr0 nl) G (repeat_length _ _)) as (h & H). exists h. split; [exact H|].
  intros isx l c. rewrite (proj2 (all_tracks_iff N2L nl ss h G H)). rewrite Forall_forall in O. split; intros (s & I & T); exists s; (split; [exact I|]); apply (first_same N2L s isx l c (O s I)); exact T.
Qed.
Print Assumptions C153_tracks_partial.
(* and so the tracks of a region that track assignment and routing use are those of the file *)
Theorem C153_region_tracks_partial N2L nl ss layer horz low high :
  Forall (good_tracks N2L nl) ss -> Forall one_layer ss ->
  exists h t d, read_header N2L nl ss = Some h /\
    ta_tracks (all_tracks h) layer horz low high [] = Some t /\ dr_track_locs (all_tracks h) layer horz low high [] = Some d /\
    sorted_lt t /\ sorted_lt d /\
    (forall c, In c t <-> low <= c < high /\ exists s, In s ss /\ track_of N2L s (negb horz) layer c) /\
    (forall c, In c d <-> low <= c <= high /\ exists s, In s ss /\ track_of N2L s (negb horz) layer c).
Proof.
  intros G O. destruct (C153_tracks_partial N2L nl ss G O) as (h & H & T). exists h.
  assert (SP : steps_positive (all_tracks h)) by (intros tp I; apply (proj1 (all_tracks_iff N2L nl ss h G H)), I).
  destruct (C40_region_tracks (all_tracks h) layer horz low high SP) as (t & E1 & S1 & I1), (C40_track_locations (all_tracks h) layer horz low high SP) as (d & E2 & S2 & I2).
  exists t, d. do 5 (split; [assumption|]). split; intros c; rewrite ?I1, ?I2; rewrite <- T; unfold along; split.
  - intros (tp & A & B & C & D & E). split; [exact E|]. exists tp. auto.
  - intros (E & tp & A & C & B & D). exists tp. auto.
  - intros (tp & A & B & C & D & E). split; [exact E|]. exists tp. auto.
  - intros (E & tp & A & C & B & D). exists tp. auto.
Qed.
Print Assumptions C153_region_tracks_partial.
(* in general the first layer of each statement counts, alone *)
Theorem C153_tracks_first_layer N2L nl ss h :
  Forall (good_tracks N2L nl) ss -> read_header N2L nl ss = Some h ->
  forall isx l c, (exists tp, In tp (all_tracks h) /\ tp_isX tp = isx /\ tp_layer tp = l /\ on_pattern tp c) <-> exists s, In s ss /\ track_of N2L (first_layer s) isx l c.
Proof. intros G H. apply (all_tracks_iff N2L nl ss h G H). Qed.
Print Assumptions C153_tracks_first_layer.
(* Refuted: of "TRACKS X 0 DO 10 STEP 100 LAYER m1 m3" nothing reaches m3 *)
Theorem C153_tracks_refuted :
  exists N2L nl s h l c, Forall (good_tracks N2L nl) [s] /\ read_header N2L nl [s] = Some h /\ track_of N2L s true l c /\
    (forall tp, In tp (all_tracks h) -> tp_layer tp <> l).
Proof.
  set (N2L := fun n => if n =? 1 then Some 2 else if n =? 3 then Some 6 else None).
  exists N2L, 7%nat, (HTracks true 0 10 (inject_Z 100) [1; 3]). eexists. exists 6, 300. split; [|split; [lazy; reflexivity|split]].
  - constructor; [|constructor]. cbn. split; [lia|]. split; [exists 100; split; [lia|reflexivity]|]. split; [discriminate|]. intros n [<-|[<-|[]]]; [exists 2|exists 6]; split; try reflexivity; lia.
  - cbn. split; [reflexivity|]. split; [exists 3; auto|]. exists 3. split; [lia|reflexivity].
  - intros tp. cbn. intros [<-|[]]. discriminate.
Qed.
Print Assumptions C153_tracks_refuted.
(* Refuted: a step that is not whole is cut: every track but the first moves *)
Theorem C153_step_refuted :
  exists N2L nl s h, read_header N2L nl [s] = Some h /\ (exists l, track_of N2L s true l 201) /\
    (forall tp, In tp (all_tracks h) -> ~ on_pattern tp 201).
Proof.
  exists (fun _ => Some 2), 3%nat, (HTracks true 0 10 (201 # 2) [1]). eexists. split; [lazy; reflexivity|]. split.
  - exists 2. cbn. split; [reflexivity|]. split; [exists 1; auto|]. exists 2. split; [lia|reflexivity].
  - intros tp. cbn. intros [<-|[]] (k & K & E). cbn in *. lia.
Qed.
Print Assumptions C153_step_refuted.
(* a first layer that is not known stops the run, as does a statement without a layer *)
Theorem C153_unknown_layer N2L nl ss x a b s names :
  In (HTracks x a b s names) ss -> match names with n :: _ => N2L n = None | [] => True end -> read_header N2L nl ss = None.
Proof.
  intros I K. unfold read_header. generalize (hdr0 nl). induction ss as [|t r IH]; intros h; [destruct I|]. cbn. destruct I as [->|I].
  - cbn. unfold tracks_cbk. destruct names as [|n rest]; [reflexivity|]. rewrite K. reflexivity.
  - destruct (hstep N2L t h) as [h'|]; [|reflexivity]. apply IH, I.
Qed.
Print Assumptions C153_unknown_layer.
(* the global cells of a design are laid out iff the number of layers is odd, that is, iff the topmost layer
   is a routing layer: with a cut layer on top the run ends in an exception *)
Theorem C153_top_layer_partial n x y : 0 <= n -> 0 < x -> 0 < y -> (gcell_check n x y = Some tt <-> Z.odd n = true).
Proof. intros Hn Hx Hy. unfold gcell_check. replace ((0 <? x) && (0 <? y)) with true by lia. apply gcell_layers_spec; [lia|lia|reflexivity]. Qed.
Print Assumptions C153_top_layer_partial.
Theorem C153_top_layer_refuted : exists n x y, 0 < n /\ 0 < x /\ 0 < y /\ gcell_check n x y = None.
Proof. exists 8, 10, 10. repeat split; lia. Qed.
Print Assumptions C153_top_layer_refuted.

Example C153_ex :
  let N2L := fun n => if n =? 1 then Some 2 else if n =? 2 then Some 4 else None in
  let ss := [HUnits 2000; HDie [mkPt 500 700; mkPt (-100) 20]; HTracks true 100 20 (inject_Z 200) [1]; HTracks false 50 10 (inject_Z 400) [2]; HTracks true 3 5 (inject_Z 7) [1]] in
  Forall (good_tracks N2L 5) ss /\ Forall one_layer ss /\
  exists h, read_header N2L 5 ss = Some h /\ h_units h = 2000 /\ die_box h = mkBox (mkPt (-100) 20) (mkPt 500 700) /\
    ta_tracks (all_tracks h) 2 false 0 320 [] = Some [3; 10; 17; 24; 31; 100; 300] /\ ta_tracks (all_tracks h) 4 true 0 1000 [] = Some [50; 450; 850].
Proof.
  cbv zeta. split; [repeat constructor; cbn; try lia; try discriminate|split; [repeat constructor|]].
  - exists 200. split; [lia|reflexivity].
  - intros n [<-|[]]. exists 2. split; [reflexivity|lia].
  - exists 400. split; [lia|reflexivity].
  - intros n [<-|[]]. exists 4. split; [reflexivity|lia].
  - exists 7. split; [lia|reflexivity].
  - intros n [<-|[]]. exists 2. split; [reflexivity|lia].
  - eexists. split; [lazy; reflexivity|]. repeat split; vm_compute; reflexivity.
Qed.
(* a file without UNITS, or without DIEAREA: no units, and a die that is the origin alone *)
Lemma hsteps_pres N2L (P : hdr -> Prop) : forall ss h h', (forall s h h', In s ss -> P h -> hstep N2L s h = Some h' -> P h') -> P h -> hsteps N2L ss h = Some h' -> P h'.
Proof.
  induction ss as [|s r IH]; intros h h' K I H; cbn in H; [injection H as <-; exact I|]. destruct (hstep N2L s h) as [h1|] eqn:E; [|discriminate].
  apply (IH h1 h'); [intros s' a b Q; apply K; right; exact Q|apply (K s h h1); [left; reflexivity|exact I|exact E]|exact H].
Qed.
Lemma tracks_keep N2L isx st num step ls h h' : tracks_cbk N2L isx st num step ls h = Some h' -> h_units h' = h_units h /\ h_bounds h' = h_bounds h.
Proof.
  unfold tracks_cbk. destruct ls as [|n ls]; [discriminate|]. destruct (N2L n) as [l|]; [|discriminate]. destruct (to_uint step); [|discriminate]. destruct (_ || _); [discriminate|].
  destruct (push_at _ _ _); [|discriminate]. intros H. injection H as <-. split; reflexivity.
Qed.
Theorem C153_no_units N2L nl ss h : read_header N2L nl ss = Some h -> (forall s, In s ss -> units_of s = None) -> h_units h = 0.
Proof.
  intros H N. unfold read_header in H. refine (hsteps_pres N2L (fun h => h_units h = 0) ss (hdr0 nl) h _ eq_refl H). intros s a b I E X. specialize (N s I). destruct s as [n|pts|isx st num step ls]; [discriminate N| |]; cbn [hstep] in X.
  - injection X as <-. exact E.
  - apply tracks_keep in X. destruct X as [-> _]. exact E.
Qed.
Print Assumptions C153_no_units.
Theorem C153_no_die N2L nl ss h : read_header N2L nl ss = Some h -> (forall s, In s ss -> die_of s = None) -> spans (die_box h) [mkPt 0 0].
Proof.
  intros H N. assert (B : h_bounds h = []).
  { unfold read_header in H. refine (hsteps_pres N2L (fun h => h_bounds h = []) ss (hdr0 nl) h _ eq_refl H). intros s a b I E X. specialize (N s I). destruct s as [n|pts|isx st num step ls]; [|discriminate N|]; cbn [hstep] in X.
    - injection X as <-. exact E.
    - apply tracks_keep in X. destruct X as [_ ->]. exact E. }
  unfold die_box. rewrite B. split; [intros p [<-|[]]; cbn; unfold in_box; cbn; lia|]. cbn. repeat split; exists (mkPt 0 0); split; auto.
Qed.
Print Assumptions C153_no_die.
Example c153_no_units : exists h, read_header (fun _ => Some 2) 5 [HTracks true 100 20 (inject_Z 200) [1]] = Some h /\ h_units h = 0 /\ die_box h = mkBox (mkPt 0 0) (mkPt 0 0).
Proof. eexists. split; [lazy; reflexivity|]. split; vm_compute; reflexivity. Qed.
