(* C146, C147: LEF 5.8 rules of layers are read as written.  Where the readers differ from the rules is refuted. *)
From Verif Require Import Base L58Model L58Spec L58Proofs L58Proofs2 L58Proofs3 L58Proofs4.
From Coq Require Import List String.
Open Scope list_scope.

(* C146: spacing tables.  Tables of other kinds first, then those by parallel run length *)
Theorem C146_spacing_tables_partial : forall (T : Type) (dbu : T -> Z) (os : list (list (word T))) (rs : list (prl_rule T)),
  Forall (plain T) os ->
  Forall (fun r => t_wrong T r = false /\ t_eol T r = None /\ Forall (fun row => snd row <> []) (t_rows T r)) rs ->
  spacing_table T dbu (flat_map (other_table T) os ++ flat_map (prl_words T) rs) = Some (map (prl_mean T dbu) rs).
Proof.
  intros T dbu os rs P G. unfold spacing_table. destruct (table_others T dbu os P (flat_map (prl_words T) rs) []) as (ss & ->). apply (table_prls T dbu dbu). exact G.
Qed.
Print Assumptions C146_spacing_tables_partial.

(* C146: end-of-line rules among spacing rules of other kinds *)
Theorem C146_end_of_line_partial : forall (T : Type) (dbu : T -> Z) (rs : list (spc_rule T)),
  Forall (fun r => match r with
    | SEol _ r => l_wrong T r = None /\ l_cut T r = None /\ (forall e x, l_ete T r = Some e -> xr_ext T e = Some (x, None) -> xr_other T e = None)
    | SOther _ ws => forall k, In (K k) ws -> k <> SPACING /\ k <> SEMI /\ k <> ENDOFLINE /\ k <> TOCONCAVECORNER /\ k <> TONOTCHLENGTH
    end) rs ->
  spacing T dbu (flat_map (spc_words T) rs) = Some (flat_map (spc_mean T dbu) rs).
Proof.
  intros T dbu rs G. unfold spacing. apply spacing_rules. eapply Forall_impl; [|exact G]. intros [r|ws] H; [|exact H]. destruct H as (A & B & C). split; [exact A|]. split; [exact B|].
  intros e E. unfold ete_good. specialize (C e). destruct (xr_ext T e) as [[x [y|]]|]; try exact I. rewrite (C x E eq_refl). exact I.
Qed.
Print Assumptions C146_end_of_line_partial.

(* a table for the wrong direction becomes one for every direction; the width of its end-of-line exception is lost *)
Theorem C146_wrong_direction_refuted : exists (r : prl_rule Z), t_wrong Z r = true /\ Forall (fun row => snd row <> []) (t_rows Z r) /\
  exists c, spacing_table Z (fun x => x) (prl_words Z r) = Some [c] /\ p_wrong c = false /\ c <> prl_mean Z (fun x => x) r.
Proof.
  exists (mkT Z true false None [0] [(0, None, [10])]). split; [lazy; reflexivity|]. split; [constructor; [discriminate|constructor]|]. eexists. split; [lazy; reflexivity|]. split; [lazy; reflexivity|]. discriminate.
Qed.
Print Assumptions C146_wrong_direction_refuted.
Theorem C146_except_eol_refuted : exists (r : prl_rule Z), t_eol Z r = Some 5 /\ exists c, spacing_table Z (fun x => x) (prl_words Z r) = Some [c] /\ p_exceptEol c = None.
Proof. exists (mkT Z false false (Some 5) [0] [(0, None, [10])]). split; [lazy; reflexivity|]. eexists. split; lazy; reflexivity. Qed.
Print Assumptions C146_except_eol_refuted.
(* a table of another kind after one by parallel run length ends the program with an exception *)
Theorem C146_later_table_refuted : exists (r : prl_rule Z) ws, prl_good Z r /\ plain Z ws /\ spacing_table Z (fun x => x) (prl_words Z r ++ other_table Z ws) = None.
Proof.
  exists (mkT Z false false None [0] [(0, None, [10])]), [Other "TWOWIDTHS"; K WIDTH; Num 0; Num 10]. split; [|split].
  - split; [lazy; reflexivity|]. split; [lazy; reflexivity|]. constructor; [discriminate|constructor].
  - intros k [H|[H|[H|[H|[]]]]]; try discriminate H. injection H as <-. repeat split; discriminate.
  - lazy; reflexivity.
Qed.
Print Assumptions C146_later_table_refuted.
(* the spacing in the wrong direction is read as 1 *)
Theorem C146_wrong_spacing_refuted : exists (r : eol_rule Z) c, l_wrong Z r = Some 90 /\ spacing Z (fun x => x) (eol_words Z r) = Some [c] /\ k_wrongSpace c = Some 1.
Proof. exists (mkL Z 70 50 false (Some 90) None 20 None false None None None None None None false None None). eexists. split; [lazy; reflexivity|]. split; lazy; reflexivity. Qed.
Print Assumptions C146_wrong_spacing_refuted.
(* one extension and the width of the other end: an exception *)
Theorem C146_extension_refuted : exists (r : eol_rule Z), l_ete Z r = Some (mkER Z 80 None (Some (5, None)) (Some 60)) /\ spacing Z (fun x => x) (eol_words Z r) = None.
Proof. exists (mkL Z 70 50 false None None 20 None false None None None None (Some (mkER Z 80 None (Some (5, None)) (Some 60))) None false None None). split; lazy; reflexivity. Qed.
Print Assumptions C146_extension_refuted.
(* the end-of-line rules after one to a concave corner are lost *)
Theorem C146_after_concave_refuted : exists (a : eol_rule Z) ws, spacing Z (fun x => x) (eol_words Z a) = Some [mkEol 70 50 false None None 20 20 false None None None] /\
  spacing Z (fun x => x) ([K SPACING; Num 70; K ENDOFLINE; Num 50; K TOCONCAVECORNER] ++ ws ++ [K SEMI] ++ eol_words Z a) = Some [].
Proof.
  exists (mkL Z 70 50 false None None 20 None false None None None None None None false None None), []. split; lazy; reflexivity.
Qed.
Print Assumptions C146_after_concave_refuted.
(* a rule for lines with a cut becomes one for all lines *)
Theorem C146_with_cut_refuted : exists (r r' : eol_rule Z), l_cut Z r = Some 30 /\ l_cut Z r' = None /\ exists c, spacing Z (fun x => x) (eol_words Z r) = Some [c] /\ spacing Z (fun x => x) (eol_words Z r') = Some [c].
Proof.
  exists (mkL Z 70 50 false None None 20 None false None None (Some 30) None None None false None None), (mkL Z 70 50 false None None 20 None false None None None None None None false None None).
  split; [lazy; reflexivity|]. split; [lazy; reflexivity|]. eexists. split; lazy; reflexivity.
Qed.
Print Assumptions C146_with_cut_refuted.

(* a table with two rows and an exception, an area rule, an end-of-line rule with an opposite edge and a parallel edge *)
Definition ex_t : prl_rule Z := mkT Z false true None [0; 100] [(0, None, [10; 20]); (50, Some (1, 2), [30; 40])].
Definition ex_l : eol_rule Z := mkL Z 70 50 true None (Some 40) 20 (Some 25) true None None None None (Some (mkER Z 80 (Some (81, 82)) (Some (5, Some 6)) (Some 60))) (Some (false, 11, true)) false
  (Some (mkPR Z true 33 34 (Some 35) (Some 36) true false true false)) None.
Example C146_ex : spacing_table Z (fun x => x) (other_table Z [Other "TWOWIDTHS"; Num 3] ++ prl_words Z ex_t) = Some [mkPrl [0; 50] [0; 100] [[10; 20]; [30; 40]] [(1, (1, 2))] false true None] /\
  spacing Z (fun x => x) ([K SPACING; Num 9; K AREA; Num 4; K SEMI] ++ eol_words Z ex_l) =
    Some [mkEol 70 50 true None (Some 40) 20 25 true (Some (mkEte 80 (Some (81, 82)) (Some (5, 6)) (Some 60))) (Some (mkPar true 33 34 (Some 35) (Some 36) true false true false)) (Some (false, 11, true))] /\
  prl_good Z ex_t /\ eol_good Z ex_l.
Proof.
  split; [lazy; reflexivity|]. split; [lazy; reflexivity|]. split.
  - split; [lazy; reflexivity|]. split; [lazy; reflexivity|]. constructor; [discriminate|]. constructor; [discriminate|constructor].
  - split; [lazy; reflexivity|]. split; [lazy; reflexivity|]. intros e E. injection E as <-. exact I.
Qed.

(* C147: minimum step: each rule gives what the ones before it gave *)
Theorem C147_min_step_partial : forall (T : Type) (dbu int_of : T -> Z) (rs : list (ms_rule T)),
  (forall i j a b, (i < j)%nat -> nth_error rs i = Some a -> nth_error rs j = Some b -> gives_as T a b) ->
  minstep T dbu int_of (flat_map (ms_words T) rs) = flat_map (ms_mean T dbu int_of) rs.
Proof. intros T dbu int_of rs G. unfold minstep. apply minstep_rules; [exact G|]. repeat split; left; reflexivity. Qed.
Print Assumptions C147_min_step_partial.
(* cut classes *)
Theorem C147_cut_classes : forall (T : Type) (dbu int_of : T -> Z) (rs : list (cc_rule T)), cutclass T dbu int_of (flat_map (cc_words T) rs) = map (cc_mean T dbu int_of) rs.
Proof. intros. unfold cutclass. apply cutclass_rules. Qed.
Print Assumptions C147_cut_classes.
(* corner spacing: one rule; rows with one spacing each, or at least two rows with two each; no jog length *)
Theorem C147_corner_partial : forall (T : Type) (dbu : T -> Z) (r : co_rule T),
  (forall m o w j, or_kind T r <> RConvex T m o (Some (w, Some j))) ->
  Forall (fun row => snd row = None) (or_rows T r) \/ Forall (fun row => snd row <> None) (or_rows T r) /\ (2 <= List.length (or_rows T r))%nat ->
  corner T dbu (co_words T r) = Some (Some (co_mean T dbu r)).
Proof.
  intros T dbu r J R. apply corner_read; [|exact R]. unfold no_jog. destruct (or_kind T r) as [m o [[w [j|]]|]|] eqn:E; try exact I. exact (J m o w j eq_refl).
Qed.
Print Assumptions C147_corner_partial.
(* the most edges of an earlier rule are taken for a later one that has none *)
Theorem C147_min_step_refuted : exists (a b : ms_rule Z) c1 c2, mr_edges Z b = None /\ minstep Z (fun x => x) (fun x => x) (ms_words Z a ++ ms_words Z b) = [c1; c2] /\ m_edges c2 = 2 /\
  minstep Z (fun x => x) (fun x => x) (ms_words Z b) = [mkMs 20 (-1) (-1) (-1)].
Proof. exists (mkM Z 10 (Some (2, None)) None []), (mkM Z 20 None None []). do 2 eexists. split; [lazy; reflexivity|]. split; [lazy; reflexivity|]. split; lazy; reflexivity. Qed.
Print Assumptions C147_min_step_refuted.
(* one row with two spacings: the second is lost *)
Theorem C147_corner_row_refuted : exists (r : co_rule Z) c, or_rows Z r = [(0, 10, Some 30)] /\ corner Z (fun x => x) (co_words Z r) = Some (Some c) /\ o_tbl c = [(0, (10, 10))].
Proof. exists (mkR Z (RConvex Z false None None) ExNone [(0, 10, Some 30)]). eexists. split; [lazy; reflexivity|]. split; lazy; reflexivity. Qed.
Print Assumptions C147_corner_row_refuted.
(* the length of a jog is not read: the exception then holds for every one *)
Theorem C147_corner_jog_refuted : exists (r : co_rule Z) c, or_kind Z r = RConvex Z false None (Some (50, Some (40, true, false))) /\ corner Z (fun x => x) (co_words Z r) = Some (Some c) /\ o_kind c = Convex false None (Some 50) None.
Proof. exists (mkR Z (RConvex Z false None (Some (50, Some (40, true, false)))) ExNone [(0, 10, None)]). eexists. split; [lazy; reflexivity|]. split; lazy; reflexivity. Qed.
Print Assumptions C147_corner_jog_refuted.
(* two rules of one property become one *)
Theorem C147_two_corners_refuted : exists (a b : co_rule Z) c, or_rows Z a = [(0, 10, None)] /\ or_rows Z b = [(0, 30, None)] /\ corner Z (fun x => x) (co_words Z a ++ co_words Z b) = Some (Some c) /\
  o_kind c = Convex false None None None /\ o_tbl c = [(0, (10, 10)); (0, (30, 30))] /\ or_kind Z b = RConcave Z None.
Proof.
  exists (mkR Z (RConvex Z false None None) ExNone [(0, 10, None)]), (mkR Z (RConcave Z None) ExNone [(0, 30, None)]). eexists. do 2 (split; [lazy; reflexivity|]). split; [lazy; reflexivity|]. do 2 (split; [lazy; reflexivity|]). reflexivity.
Qed.
Print Assumptions C147_two_corners_refuted.
(* two minimum steps, the second with more; two classes; a concave corner with a notch and two rows *)
Example C147_ex :
  minstep Z (fun x => x) (fun x => x) (ms_words Z (mkM Z 10 (Some (1, None)) None []) ++ ms_words Z (mkM Z 20 (Some (2, Some 7)) (Some 9) [])) = [mkMs 10 1 (-1) (-1); mkMs 20 2 7 9] /\
  gives_as Z (mkM Z 10 (Some (1, None)) None []) (mkM Z 20 (Some (2, Some 7)) (Some 9) []) /\
  cutclass Z (fun x => x) (fun x => x) (cc_words Z (mkQ Z (Other "VA") 10 None None) ++ cc_words Z (mkQ Z (Other "VB") 10 (Some 20) (Some 2))) = [mkCc Z (Some (Other "VA"%string)) 10 10 1; mkCc Z (Some (Other "VB"%string)) 10 20 2] /\
  corner Z (fun x => x) (co_words Z (mkR Z (RConcave Z (Some (5, Some (Some 6)))) ExNet [(0, 10, Some 11); (50, 20, Some 21)])) = Some (Some (mkCo (Concave (Some 5) true (Some 6)) true false false [(0, (10, 11)); (50, (20, 21))])).
Proof. split; [lazy; reflexivity|]. split; [|split; reflexivity]. repeat split; cbn; congruence. Qed.
(* C147: the flags *)
Theorem C147_right_way_only : forall (T : Type) (ws : list (word T)), rightway T ws = true <-> In (K CHECKMASK) ws.
Proof.
  intros T ws. unfold rightway. rewrite existsb_exists. split.
  - intros (w & I & H). destruct w as [k| |]; try discriminate H. destruct k; try discriminate H. exact I.
  - intros I. exists (K CHECKMASK). split; [exact I|reflexivity].
Qed.
Print Assumptions C147_right_way_only.
Theorem C147_rect_only : forall (T : Type) (ws : list (word T)), rectonly T ws = true <-> In (K EXCEPTNONCOREPINS) ws.
Proof.
  intros T ws. unfold rectonly. rewrite existsb_exists. split.
  - intros (w & I & H). destruct w as [k| |]; try discriminate H. destruct k; try discriminate H. exact I.
  - intros I. exists (K EXCEPTNONCOREPINS). split; [exact I|reflexivity].
Qed.
Print Assumptions C147_rect_only.
Example c147_flags : rightway Z [Other "RIGHTWAYONGRIDONLY"%string; K CHECKMASK; K SEMI] = true /\ rightway Z [Other "RIGHTWAYONGRIDONLY"%string; K SEMI] = false /\
  rectonly Z [Other "RECTONLY"%string; K EXCEPTNONCOREPINS; K SEMI] = true /\ rectonly Z [Other "RECTONLY"%string; K CHECKMASK; K SEMI] = false.
Proof. repeat split. Qed.
(* C146: whatever the spacing in the wrong direction, 1 is stored, or 0 if it is 0 *)
Theorem C146_wrong_spacing_any_refuted : forall z, exists r c, l_wrong Z r = Some z /\ spacing Z (fun x => x) (eol_words Z r) = Some [c] /\ k_wrongSpace c = Some (if z =? 0 then 0 else 1).
Proof. intros z. exists (mkL Z 70 50 false (Some z) None 20 None false None None None None None None false None None). eexists. split; [reflexivity|]. split; [cbv -[Z.eqb]; reflexivity|reflexivity]. Qed.
Print Assumptions C146_wrong_spacing_any_refuted.
