(* C51, C52, C63-C69: metal spacing and short checks. *)
From Verif Require Import Base Stl GeomModel GeomSpec GeomProofs TechModel TechSpec TechProofs
  GcModel GcSpec GcProofs GcProofs2 GcProofs3.

(* --- C52 --------------------------------------------------------------------------------- *)
Theorem C52_symmetric a b : normalised a -> normalised b -> pair_geom a b = pair_geom b a.
Proof. exact (pair_geom_sym a b). Qed.
Print Assumptions C52_symmetric.

Theorem C52_short_iff_touching a b : normalised a -> normalised b ->
  ((g_dx (pair_geom a b) = 0 /\ g_dy (pair_geom a b) = 0) <-> touching a b).
Proof.
  intros Na Nb. destruct (pair_geom_spec a b Na Nb) as (_ & -> & -> & _).
  symmetry. apply touching_iff; assumption.
Qed.
Print Assumptions C52_short_iff_touching.

Theorem C52_distance_exact a b : normalised a -> normalised b ->
  is_min_dist2 (fun p => in_box p a) (fun q => in_box q b)
    (g_dx (pair_geom a b) * g_dx (pair_geom a b) + g_dy (pair_geom a b) * g_dy (pair_geom a b)).
Proof.
  intros Na Nb. destruct (pair_geom_spec a b Na Nb) as (_ & -> & -> & _). exact (box2box_spec a b Na Nb).
Qed.
Print Assumptions C52_distance_exact.

Theorem C52_run_length_exact a b : normalised a -> normalised b ->
  g_marker (pair_geom a b) = between a b /\
  (~ touching a b -> g_prl (pair_geom a b) = run_length a b).
Proof.
  intros Na Nb. destruct (pair_geom_spec a b Na Nb) as (M & X & Y & P). split; [exact M|].
  intros NT. apply P. rewrite X, Y. rewrite <- touching_iff by assumption. exact NT.
Qed.
Print Assumptions C52_run_length_exact.

(* two wires side by side, overlapping lengthwise by 60 *)
Example ex_geom :
  pair_geom (mkBox (mkPt 0 0) (mkPt 100 10)) (mkBox (mkPt 40 25) (mkPt 200 35)) =
  mkPG (mkBox (mkPt 40 10) (mkPt 100 25)) 0 15 60.
Proof. reflexivity. Qed.

(* --- C51 --------------------------------------------------------------------------------- *)
Theorem C51_window_far_enough E r1 r2 v :
  normalised (gbox r1) -> normalised (gbox r2) -> gnet r1 <> gnet r2 ->
  In r1 (e_rects E) -> In r2 (e_rects E) ->
  required E r1 r2 v -> closer_than (gbox r1) (gbox r2) v ->
  exists d, max_spc E = Some d /\
    In r2 (query_rects E (my_bloat (gbox r1) d)) /\ In r1 (query_rects E (my_bloat (gbox r2) d)).
Proof.
  intros N1 N2 Hn I1 I2 RQ C.
  destruct (req_spc_required E r1 r2 v N1 N2 Hn RQ) as [_ (d & MD & B)].
  exists d. split; [exact MD|]. split.
  - exact (window_complete E r1 r2 v d N1 N2 I2 B C).
  - exact (window_complete E r2 r1 v d N2 N1 I1 B (closer_sym _ _ _ C)).
Qed.
Print Assumptions C51_window_far_enough.

(* --- C64 every close pair of separate wires is reported ----------------------------------- *)
Theorem C64_close_pair_reported E r1 r2 v rs ms ms' :
  In r1 rs -> In r2 (e_rects E) -> gid r1 <> gid r2 -> gnet r1 <> gnet r2 ->
  isolated E r1 -> isolated E r2 -> ~ touching (gbox r1) (gbox r2) ->
  routed E r1 \/ routed E r2 ->
  required E r1 r2 v -> closer_than (gbox r1) (gbox r2) v ->
  check_spacing E rs ms = Some ms' ->
  reports ms' (mkMk (between (gbox r1) (gbox r2)) (e_lnum E) 0 (gnet r1) (gnet r2)).
Proof.
  intros Ir I2 Hid Hn S1 S2 NT R RQ C CS.
  pose proof (solid_normalised _ (proj1 S1)) as N1. pose proof (solid_normalised _ (proj1 S2)) as N2.
  destruct (req_spc_required E r1 r2 v N1 N2 Hn RQ) as [RV (d & MD & B)].
  destruct (check_spacing_spec E d rs MD _ _ CS) as (_ & H & _).
  apply (H r1 r2); [exact Ir| |].
  - exact (window_complete E r1 r2 v d N1 N2 I2 B C).
  - exact (check_pair_report E r1 r2 v S1 S2 Hid NT R RV C).
Qed.
Print Assumptions C64_close_pair_reported.

(* a LEF SPACING rule demands its value for every width and run length *)
Theorem C64_plain_spacing E r1 r2 s : e_rule E = rule_of_spacing s -> 0 <= s -> required E r1 r2 s.
Proof.
  intros ER Hs. exists [0], [0], [[s]]. split; [exact ER|]. split.
  - unfold prl_table_ok, sorted_le, table_shape, table_monotone.
    split; [discriminate|]. split; [discriminate|].
    split; [intros i j Hi Hj; cbn [length] in Hj; assert (i = O) by lia; assert (j = O) by lia; subst; lia|].
    split; [intros i j Hi Hj; cbn [length] in Hj; assert (i = O) by lia; assert (j = O) by lia; subst; lia|].
    split; [split; [reflexivity|intros r [<- |[]]; reflexivity]|].
    split; [|exact Hs].
    intros i i' j j' Hi Hj. cbn [length] in Hi, Hj.
    assert (i = O) by lia. assert (i' = O) by lia. assert (j = O) by lia. assert (j' = O) by lia. subst. lia.
  - exists O, O. split; [|split; [|reflexivity]].
    + split; [cbn; lia|]. split; [left; reflexivity|]. intros j H1 H2. cbn [length] in H2. lia.
    + split; [cbn; lia|]. split; [left; reflexivity|]. intros j H1 H2. cbn [length] in H2. lia.
Qed.
Print Assumptions C64_plain_spacing.

Theorem C64_check_defined E rs ms :
  match e_rule E with PrlTable rows cols vals => prl_table_ok rows cols vals | _ => True end ->
  (forall r, In r rs -> e_kind E (gnet r) <> KFloating) \/ (forall v, e_same E <> Some (v, true)) ->
  exists ms', check_spacing E rs ms = Some ms'.
Proof. intros OK F. exact (check_spacing_defined E rs OK F ms). Qed.
Print Assumptions C64_check_defined.

(* a table, two separate routed wires of nets 1 and 2, and a third of net 1 *)
Definition ex_a : grect := mkGR 1 (mkBox (mkPt 0 0) (mkPt 300 10)) 1 false.
Definition ex_b : grect := mkGR 2 (mkBox (mkPt 100 25) (mkPt 400 35)) 2 false.
Definition ex_c : grect := mkGR 3 (mkBox (mkPt 0 70) (mkPt 300 80)) 1 false.
Definition ex_env (rl : rule) (same : option (Z * bool)) (rs : list grect) : genv :=
  mkEnv 2 rl 10 10 same false (fun _ => KSignal false) (fun _ => [])
    (fun n => map gbox (filter (fun r => gnet r =? n) rs)) (fun _ => []) rs
    (flat_map (fun r => outline (gnet r) (gbox r)) rs).
Definition ex_table : rule := PrlTable [0; 100] [0; 50] [[10; 20]; [20; 40]].
Lemma ex_table_ok : prl_table_ok [0; 100] [0; 50] [[10; 20]; [20; 40]].
Proof.
  unfold prl_table_ok, sorted_le, table_shape, table_monotone.
  split; [discriminate|]. split; [discriminate|].
  split; [intros i j Hi Hj; cbn [length] in Hj; destruct i as [|[|i]]; destruct j as [|[|j]]; cbn [nth]; lia|].
  split; [intros i j Hi Hj; cbn [length] in Hj; destruct i as [|[|i]]; destruct j as [|[|j]]; cbn [nth]; lia|].
  split; [split; [reflexivity|intros r [<- |[<- |[]]]; reflexivity]|].
  split; [|cbn; lia].
  intros i i' j j' Hi Hj. cbn [length] in Hi, Hj.
  destruct i as [|[|i]]; destruct i' as [|[|i']]; destruct j as [|[|j]]; destruct j' as [|[|j']];
    unfold cell; cbn [nth]; lia.
Qed.
Example ex_close : check_spacing (ex_env ex_table None [ex_a; ex_b; ex_c]) [ex_a; ex_b; ex_c] [] =
  Some [mkMk (mkBox (mkPt 100 10) (mkPt 300 25)) 2 0 1 2].
Proof. vm_compute. reflexivity. Qed.
Example ex_close_hyps : let E := ex_env ex_table None [ex_a; ex_b; ex_c] in
  isolated E ex_a /\ isolated E ex_b /\ ~ touching (gbox ex_a) (gbox ex_b) /\ routed E ex_a /\
  required E ex_a ex_b 20 /\ closer_than (gbox ex_a) (gbox ex_b) 20.
Proof.
  cbn zeta. split; [|split; [|split; [|split; [|split]]]].
  - split; [split; cbn; lia|]. intros e H. cbn in *. intuition.
  - split; [split; cbn; lia|]. intros e H. cbn in *. intuition.
  - intros ([x y] & [_ A] & [_ B]). cbn in A, B. lia.
  - split; [reflexivity|]. intros b [].
  - exists [0; 100], [0; 50], [[10; 20]; [20; 40]]. split; [reflexivity|]. split; [exact ex_table_ok|].
    exists O, 1%nat. split; [|split; [|reflexivity]].
    + split; [cbn; lia|]. split; [left; reflexivity|]. intros [|[|j]] H1 H2; cbn in *; lia.
    + split; [cbn; lia|]. split; [right; cbn; lia|]. intros [|[|j]] H1 H2; cbn in *; lia.
  - exists (mkPt 100 10), (mkPt 100 25). split; [split; cbn; lia|]. split; [split; cbn; lia|]. cbn. lia.
Qed.

(* --- C63 same-net spacing ----------------------------------------------------------------- *)
(* with a same-net rule larger than every entry of the table, a close pair is never looked at *)
Theorem C63_same_net_reported_refuted :
  exists E r1 r2 s, e_same E = Some (s, false) /\ e_rule E = ex_table /\
    In r1 (e_rects E) /\ In r2 (e_rects E) /\ gid r1 <> gid r2 /\ gnet r1 = gnet r2 /\
    isolated E r1 /\ isolated E r2 /\ ~ touching (gbox r1) (gbox r2) /\ routed E r1 /\ routed E r2 /\
    closer_than (gbox r1) (gbox r2) s /\ check_spacing E (e_rects E) [] = Some [].
Proof.
  exists (ex_env ex_table (Some (100, false)) [ex_a; ex_c]), ex_a, ex_c, 100.
  split; [reflexivity|]. split; [reflexivity|]. split; [left; reflexivity|]. split; [right; left; reflexivity|].
  split; [discriminate|]. split; [reflexivity|].
  split; [split; [split; cbn; lia|intros e H; cbn in *; intuition]|].
  split; [split; [split; cbn; lia|intros e H; cbn in *; intuition]|].
  split; [intros ([x y] & [_ A] & [_ B]); cbn in A, B; lia|].
  split; [split; [reflexivity|intros b []]|]. split; [split; [reflexivity|intros b []]|].
  split; [|vm_compute; reflexivity].
  exists (mkPt 0 10), (mkPt 0 70). split; [split; cbn; lia|]. split; [split; cbn; lia|]. cbn. lia.
Qed.
Print Assumptions C63_same_net_reported_refuted.

(* it is when the rule does not exceed the largest entry of the table; missing: the case above *)
Theorem C63_same_net_reported_partial E r1 r2 s pg rows cols vals rs ms ms' :
  In r1 rs -> In r2 (e_rects E) -> gid r1 <> gid r2 -> gnet r1 = gnet r2 ->
  e_kind E (gnet r1) = KSignal pg -> e_same E = Some (s, false) \/ (e_same E = Some (s, true) /\ pg = true) ->
  e_rule E = PrlTable rows cols vals -> prl_table_ok rows cols vals ->
  s <= cell vals (length rows - 1) (length cols - 1) ->
  isolated E r1 -> isolated E r2 -> ~ touching (gbox r1) (gbox r2) ->
  routed E r1 \/ routed E r2 ->
  closer_than (gbox r1) (gbox r2) (Z.max s (cell vals 0 0)) ->
  check_spacing E rs ms = Some ms' ->
  reports ms' (mkMk (between (gbox r1) (gbox r2)) (e_lnum E) 0 (gnet r1) (gnet r2)).
Proof.
  intros Ir I2 Hid Hn K ES ER OK Hs S1 S2 NT R C CS.
  pose proof (solid_normalised _ (proj1 S1)) as N1. pose proof (solid_normalised _ (proj1 S2)) as N2.
  pose proof OK as (HR & HC & SR & SC & T & M & N).
  destruct (find2_max_spec rows cols vals HR HC T) as [Emax Emin].
  assert (MD : max_spc E = Some (cell vals (length rows - 1) (length cols - 1))) by (unfold max_spc; rewrite ER; exact Emax).
  assert (B : 0 <= Z.max s (cell vals 0 0) <= cell vals (length rows - 1) (length cols - 1)).
  { split; [lia|]. apply Z.max_lub; [exact Hs|]. apply M; destruct rows, cols; cbn in *; try congruence; lia. }
  assert (RV : req_spc E r1 r2 (run_length (gbox r1) (gbox r2)) = Some (Z.max s (cell vals 0 0))).
  { unfold req_spc. rewrite ER.
    match goal with |- context [find2 rows cols vals ?w ?p] =>
      destruct (find2_spec rows cols vals w p HR HC SR SC T) as (i & j & _ & _ & ->) end.
    unfold is_obs. rewrite <- Hn, K, Z.eqb_refl. cbn [orb negb andb]. rewrite Emin.
    destruct ES as [-> |[-> ->]]; reflexivity. }
  destruct (check_spacing_spec E _ rs MD _ _ CS) as (_ & H & _).
  apply (H r1 r2); [exact Ir| |].
  - exact (window_complete E r1 r2 _ _ N1 N2 I2 B C).
  - exact (check_pair_report E r1 r2 _ S1 S2 Hid NT R RV C).
Qed.
Print Assumptions C63_same_net_reported_partial.
(* a same-net rule of 30 below the largest entry 40; the wires are 25 apart *)
Definition ex_d : grect := mkGR 4 (mkBox (mkPt 0 35) (mkPt 300 45)) 1 false.
Example ex_same : check_spacing (ex_env ex_table (Some (30, false)) [ex_a; ex_d]) [ex_a; ex_d] [] =
  Some [mkMk (mkBox (mkPt 0 10) (mkPt 300 35)) 2 0 1 1].
Proof. vm_compute. reflexivity. Qed.

(* --- C65 no false alarm ------------------------------------------------------------------- *)
Theorem C65_no_false_alarm E rs ms m :
  (forall r, In r rs \/ In r (e_rects E) -> normalised (gbox r)) ->
  check_spacing E rs [] = Some ms -> In m ms ->
  exists r1 r2, In r1 rs /\ In r2 (e_rects E) /\ gid r1 <> gid r2 /\
    mbox m = between (gbox r1) (gbox r2) /\ mlayer m = e_lnum E /\
    msrc1 m = gnet r1 /\ msrc2 m = gnet r2 /\ ~ (gfixed r1 = true /\ gfixed r2 = true) /\
    ((mcon m = 1 /\ touching (gbox r1) (gbox r2) /\ gnet r1 <> gnet r2) \/
     (mcon m = 2 /\ touching (gbox r1) (gbox r2) /\ gnet r1 = gnet r2) \/
     (mcon m = 0 /\ ~ touching (gbox r1) (gbox r2) /\
        forall v, gnet r1 <> gnet r2 -> required E r1 r2 v -> closer_than (gbox r1) (gbox r2) v)).
Proof.
  intros NN CS I.
  assert (rs <> []) as NE by (destruct rs; [cbn in CS; injection CS as <-; contradiction|discriminate]).
  destruct (check_spacing_max _ _ _ _ CS NE) as (d & MD).
  destruct (check_spacing_spec E d rs MD _ _ CS) as (_ & _ & H & _).
  destruct (H m I) as [[]|(r1 & r2 & I1 & I2 & P)]. exists r1, r2.
  pose proof (NN r1 (or_introl I1)) as N1. pose proof (NN r2 (or_intror I2)) as N2.
  destruct (check_pair_sound E r1 r2 m N1 N2 P) as (Hid & Hb & Hl & Hs1 & Hs2 & NF & K).
  split; [exact I1|]. split; [exact I2|]. split; [exact Hid|]. split; [exact Hb|]. split; [exact Hl|].
  split; [exact Hs1|]. split; [exact Hs2|]. split; [exact NF|].
  destruct K as [(C0 & NT & v & RV & C)|[K|K]]; [right; right|left; exact K|right; left; exact K].
  split; [exact C0|]. split; [exact NT|]. intros v' Hn RQ.
  destruct (req_spc_required E r1 r2 v' N1 N2 Hn RQ) as [RV' _]. rewrite RV in RV'. injection RV' as <-. exact C.
Qed.
Print Assumptions C65_no_false_alarm.

(* --- C66 shorts --------------------------------------------------------------------------- *)
Theorem C66_short_reported E r1 r2 rs ms ms' :
  In r1 rs -> In r2 (e_rects E) -> gid r1 <> gid r2 -> gnet r1 <> gnet r2 ->
  solid (gbox r1) -> solid (gbox r2) -> touching (gbox r1) (gbox r2) ->
  (exists d, max_spc E = Some d /\ 0 <= d) ->
  (* one of the two is routed metal *)
  (gfixed r1 = false /\ In (gbox r1) (e_route E (gnet r1))) \/
  (gfixed r2 = false /\ In (gbox r2) (e_route E (gnet r2))) ->
  (* not an obstruction under a pin *)
  ((is_obs E (gnet r1) = is_obs E (gnet r2)) \/
   forall n b, n = gnet r1 \/ n = gnet r2 -> In b (e_fixedmax E n) ->
     box_contains_box b (between (gbox r1) (gbox r2)) true = false) ->
  check_spacing E rs ms = Some ms' ->
  reports ms' (mkMk (between (gbox r1) (gbox r2)) (e_lnum E) 1 (gnet r1) (gnet r2)).
Proof.
  intros Ir I2 Hid Hn S1 S2 T (d & MD & Hd) R O CS.
  destruct (check_spacing_spec E d rs MD _ _ CS) as (_ & H & _).
  apply (H r1 r2); [exact Ir| |exact (check_pair_short E r1 r2 S1 S2 Hid Hn T R O)].
  apply query_In. split; [exact I2|].
  destruct T as (p & Pa & Pb). unfold box_overlaps, my_bloat. unfold in_box in *.
  destruct r1 as [i1 b1 n1 f1], r2 as [i2 b2 n2 f2]. cbn [gbox] in *. bx b1; bx b2; bxs. lia.
Qed.
Print Assumptions C66_short_reported.
Definition ex_e : grect := mkGR 5 (mkBox (mkPt 290 0) (mkPt 310 200)) 2 false.
Example ex_short : check_spacing (ex_env ex_table None [ex_a; ex_e]) [ex_a; ex_e] [] =
  Some [mkMk (mkBox (mkPt 290 0) (mkPt 300 10)) 2 1 1 2].
Proof. vm_compute. reflexivity. Qed.

(* --- C67 each violation once -------------------------------------------------------------- *)
Theorem C67_reported_once E rs ms i j m m' :
  check_spacing E rs [] = Some ms -> i <> j ->
  nth_error ms i = Some m -> nth_error ms j = Some m' -> ~ same_violation m m'.
Proof.
  intros CS Hij Hi Hj V.
  assert (rs <> []) as NE.
  { destruct rs; [cbn in CS; injection CS as <-; destruct i; discriminate|discriminate]. }
  destruct (check_spacing_max _ _ _ _ CS NE) as (d & MD).
  destruct (check_spacing_spec E d rs MD _ _ CS) as (_ & _ & _ & O).
  assert (once []) as O0 by (intros a b x y _ H; destruct a; discriminate).
  specialize (O O0). destruct (Nat.lt_ge_cases i j) as [L|L].
  - exact (O i j m m' L Hi Hj V).
  - apply (O j i m' m ltac:(lia) Hj Hi). destruct V as (A & B & C & D). repeat split; auto.
    destruct D as [[D1 D2]|[D1 D2]]; [left|right]; auto.
Qed.
Print Assumptions C67_reported_once.

(* and nothing is lost by it: a violation is withheld only when its like is already listed *)
Theorem C67_nothing_lost ms m :
  incl ms (add_marker ms m) /\ reports (add_marker ms m) m /\
  (add_marker ms m = ms \/ add_marker ms m = ms ++ [m]).
Proof.
  split; [apply add_marker_incl|]. split; [apply add_marker_reports|].
  rewrite add_marker_dup. destruct (dup ms m); auto.
Qed.
Print Assumptions C67_nothing_lost.

(* --- C68 two-width tables ----------------------------------------------------------------- *)
(* a narrow wire with a long run is given the row of the wide wires *)
Theorem C68_two_width_row_refuted :
  exists hdr w p i, tw_sorted hdr /\ tw_row hdr w p i /\ tw_idx hdr (w, p) <> i.
Proof.
  exists [(0, -10); (100, 200)], 50, 300, O. split; [|split].
  - intros [|[|i]] [|[|j]] H; cbn in *; lia.
  - split; [cbn; lia|]. split; [left; reflexivity|]. intros [|[|j]] H1 H2; cbn in *; lia.
  - vm_compute. discriminate.
Qed.
Print Assumptions C68_two_width_row_refuted.

(* The row used is never an earlier one, so the spacing is never smaller than prescribed; it is the
   prescribed row whenever width and run length select the same row.  Missing: equality otherwise. *)
Theorem C68_two_width_safe_partial hdr vals w1 w2 p i j :
  hdr <> [] -> tw_sorted hdr -> length vals = length hdr ->
  (forall r, In r vals -> length r = length hdr) ->
  table_monotone vals (length hdr) (length hdr) ->
  tw_row hdr w1 p i -> tw_row hdr w2 p j ->
  exists v, find_tw hdr vals w1 w2 p = Some v /\ cell vals i j <= v /\
    ((forall k, (k < length hdr)%nat ->
        (fst (nth k hdr (0, 0)) < w1 <-> snd (nth k hdr (0, 0)) < p) /\
        (fst (nth k hdr (0, 0)) < w2 <-> snd (nth k hdr (0, 0)) < p)) -> v = cell vals i j).
Proof.
  intros NE S L1 L2 M Ri Rj.
  pose proof (tw_row_le _ _ _ _ S NE Ri) as Li. pose proof (tw_row_le _ _ _ _ S NE Rj) as Lj.
  destruct (tw_idx_spec hdr w1 p S NE) as (B1 & A1 & C1). destruct (tw_idx_spec hdr w2 p S NE) as (B2 & A2 & C2).
  cbn zeta in *.
  exists (cell vals (tw_idx hdr (w1, p)) (tw_idx hdr (w2, p))). split; [|split].
  - unfold find_tw, cell. rewrite (nth_error_nth' vals []) by lia.
    apply nth_error_nth'. rewrite L2; [exact B2|]. apply nth_In. lia.
  - apply M; lia.
  - intros Q. destruct Ri as (Ri1 & Ri2 & Ri3), Rj as (Rj1 & Rj2 & Rj3).
    assert (tw_idx hdr (w1, p) = i) as ->.
    { destruct (Nat.eq_dec (tw_idx hdr (w1, p)) i) as [e|n]; [exact e|]. exfalso.
      destruct (Q _ B1) as [Q1 _]. apply (Ri3 (tw_idx hdr (w1, p))); lia. }
    assert (tw_idx hdr (w2, p) = j) as ->.
    { destruct (Nat.eq_dec (tw_idx hdr (w2, p)) j) as [e|n]; [exact e|]. exfalso.
      destruct (Q _ B2) as [_ Q2]. apply (Rj3 (tw_idx hdr (w2, p))); lia. }
    reflexivity.
Qed.
Print Assumptions C68_two_width_safe_partial.
(* a wide and a narrow wire with a long run: 20 prescribed, 40 used; with a short run both agree on 10 *)
Example ex_tw : find_tw [(0, -10); (100, 200)] [[10; 20]; [20; 40]] 150 50 300 = Some 40 /\
  find_tw [(0, -10); (100, 200)] [[10; 20]; [20; 40]] 50 60 30 = Some 10.
Proof. split; reflexivity. Qed.

(* --- C69 ---------------------------------------------------------------------------------- *)
(* on a layer whose spacing rule is a two-width table no spacing violation is ever reported *)
Theorem C69_two_width_checked_refuted E rs ms m hdr vals :
  e_rule E = TwTable hdr vals ->
  (forall r, In r rs \/ In r (e_rects E) -> normalised (gbox r)) ->
  check_spacing E rs [] = Some ms -> In m ms -> mcon m <> 0.
Proof.
  intros ER NN CS I C0.
  assert (MD : max_spc E = Some 0) by (unfold max_spc; rewrite ER; reflexivity).
  destruct (check_spacing_spec E 0 rs MD _ _ CS) as (_ & _ & H & _).
  destruct (H m I) as [[]|(r1 & r2 & I1 & I2 & P)].
  destruct (check_pair_sound E r1 r2 m (NN r1 (or_introl I1)) (NN r2 (or_intror I2)) P)
    as (_ & _ & _ & _ & _ & _ & [(_ & _ & v & RV & p & q & _ & _ & L)|[(K & _)|(K & _)]]); [|lia|lia].
  unfold req_spc in RV. rewrite ER in RV. injection RV as <-. unfold dist2 in L.
  pose proof (Z.square_nonneg (px p - px q)). pose proof (Z.square_nonneg (py p - py q)). lia.
Qed.
Print Assumptions C69_two_width_checked_refuted.
Example ex_tw_close : check_spacing (ex_env (TwTable [(0, -10); (100, 200)] [[20; 20]; [20; 40]]) None [ex_a; ex_b])
  [ex_a; ex_b] [] = Some [].
Proof. vm_compute. reflexivity. Qed.

(* metal of one net is reported where it touches only if the common part is smaller than the minimum width on the diagonal and
   neither rectangle is itself below the minimum width *)
Theorem C65_same_net_thin E rs ms m :
  (forall r, In r rs \/ In r (e_rects E) -> normalised (gbox r)) ->
  check_spacing E rs [] = Some ms -> In m ms -> mcon m = 2 ->
  exists r1 r2, In r1 rs /\ In r2 (e_rects E) /\ gnet r1 = msrc1 m /\ gnet r2 = msrc1 m /\ mbox m = between (gbox r1) (gbox r2) /\
    (bright (mbox m) - bleft (mbox m)) * (bright (mbox m) - bleft (mbox m)) + (btop (mbox m) - bbottom (mbox m)) * (btop (mbox m) - bbottom (mbox m)) < e_minwidth E * e_minwidth E /\
    (forall r, r = r1 \/ r = r2 -> e_minwidth E <= bright (gbox r) - bleft (gbox r) /\ e_minwidth E <= btop (gbox r) - bbottom (gbox r)).
Proof.
  intros NN CS I C2.
  assert (rs <> []) as NE by (destruct rs; [cbn in CS; injection CS as <-; contradiction|discriminate]).
  destruct (check_spacing_max _ _ _ _ CS NE) as (d & MD).
  destruct (check_spacing_spec E d rs MD _ _ CS) as (_ & _ & H & _).
  destruct (H m I) as [[]|(r1 & r2 & I1 & I2 & P)]. exists r1, r2.
  pose proof (NN r1 (or_introl I1)) as N1. pose proof (NN r2 (or_intror I2)) as N2.
  destruct (check_pair_sound E r1 r2 m N1 N2 P) as (Hid & Hb & _ & Hs1 & Hs2 & _ & K).
  destruct K as [(K & _)|[(K & _)|(_ & T & Hn)]]; [congruence|congruence|].
  split; [exact I1|]. split; [exact I2|]. split; [symmetry; exact Hs1|]. split; [congruence|]. split; [exact Hb|].
  destruct (pair_geom_spec _ _ N1 N2) as (Gm & Gx & Gy & _). unfold check_pair in P. destruct (gid r1 =? gid r2); [discriminate|]. cbv zeta in P.
  destruct ((g_dx (pair_geom (gbox r1) (gbox r2)) =? 0) && (g_dy (pair_geom (gbox r1) (gbox r2)) =? 0)) eqn:EZ.
  - rewrite Gm in P. injection P as P. unfold check_short in P. destruct (gfixed r1 && gfixed r2); [discriminate|]. destruct (skip_obs_pin _ _ _ _); [discriminate|]. destruct (negb _ && negb _); [discriminate|].
    rewrite Hn, Z.eqb_refl in P. cbn [andb] in P. destruct (enough_metal _ _ _ _) eqn:EM; [discriminate|]. rewrite Hb. unfold enough_metal in EM. cbv zeta in EM. rewrite !orb_false_iff in EM. destruct EM as ((D & ((A1 & A2) & A3) & A4) & _).
    unfold diag2, deltaX, deltaY in *. split; [lia|]. intros r [-> | ->]; lia.
  - exfalso. rewrite Gx, Gy in EZ. apply touching_iff in T; [|assumption|assumption]. lia.
Qed.
Print Assumptions C65_same_net_thin.
(* two crossing wires of one net that share a corner of 3 by 4 below the minimum width of 10 *)
Definition ex_f : grect := mkGR 6 (mkBox (mkPt 297 6) (mkPt 400 80)) 1 false.
Example ex_thin : check_spacing (ex_env ex_table None [ex_a; ex_f]) [ex_a; ex_f] [] = Some [mkMk (mkBox (mkPt 297 6) (mkPt 300 10)) 2 2 1 1].
Proof. vm_compute. reflexivity. Qed.
