(* What the copies of the vias and blockages in the routed DEF file say. *)
From Coq Require Import String.
From Verif Require Import Base DwModel DwSpec DwProofs SnModel SnProofs DpProofs DvModel DvSpec DvProofs.
Local Open Scope string_scope.
Local Open Scope Z_scope.
Local Open Scope list_scope.

(* C166: a via of rectangles or of a via rule is read back as it was *)
Theorem C166_via_kept : forall v rest, via_wf v -> v_polys v = [] -> v_cut v = None -> read_via (print_via v ++ rest) = Some (v, rest).
Proof. intros v rest Wf P C. rewrite via_read by assumption. rewrite C. destruct v. cbn in *. unfold with_cut. cbn. rewrite C. reflexivity. Qed.
Print Assumptions C166_via_kept.
(* its cut pattern comes back in quotation marks *)
Theorem C166_cut_pattern_refuted : forall v s rest, via_wf v -> v_polys v = [] -> v_cut v = Some s ->
  read_via (print_via v ++ rest) = Some (with_cut (Some ("'" ++ s ++ "'")%string) v, rest) /\ ("'" ++ s ++ "'")%string <> s.
Proof.
  intros v s rest Wf P C. split; [rewrite via_read by assumption; rewrite C; reflexivity|]. intros E. apply (f_equal String.length) in E. cbn [append String.length] in E.
  assert (L : forall a b, String.length (a ++ b)%string = (String.length a + String.length b)%nat) by (induction a as [|c a IH]; intros b; cbn [append String.length Nat.add]; [reflexivity|rewrite IH; reflexivity]). rewrite L in E. cbn [String.length] in E. lia.
Qed.
Print Assumptions C166_cut_pattern_refuted.
(* a via with a polygon cannot be read *)
Theorem C166_polygon_refuted : forall v rest, via_wf v -> v_polys v <> [] -> read_via (print_via v ++ rest) = None.
Proof. exact via_broken. Qed.
Print Assumptions C166_polygon_refuted.
Lemma via_dash v : exists r, print_via v = W "-" :: r. Proof. eexists. reflexivity. Qed.
Definition plain_via (v : via) : Prop := via_wf v /\ v_polys v = [] /\ v_cut v = None.
Lemma plain_back v : plain_via v -> reads_back print_via read_via v. Proof. intros (A & B & C) rest. apply C166_via_kept; assumption. Qed.
(* the section is read back as it was exactly if its count is the number of its vias, and there is one *)
Theorem C166_section_kept : forall n l rest, (forall v, In v l -> via_wf v /\ v_polys v = [] /\ v_cut v = None) -> eat "-" rest = None -> eat "END" rest = None ->
  (read_sec "VIAS" read_via (print_sec "VIAS" print_via n l ++ rest) = Some (n, l, rest) <-> Z.of_nat (length l) = Z.max 1 n).
Proof. intros n l rest H. apply sec_kept; [exact via_dash|]. intros v V. apply plain_back, H, V. Qed.
Print Assumptions C166_section_kept.
Theorem C166_small_count_drops : forall n l rest, (forall v, In v l -> via_wf v /\ v_polys v = [] /\ v_cut v = None) -> 1 <= n < Z.of_nat (length l) ->
  exists r, read_sec "VIAS" read_via (print_sec "VIAS" print_via n l ++ rest) = Some (n, firstn (Z.to_nat n) l, r).
Proof. intros n l rest H. apply sec_small; [exact via_dash|]. intros v V. apply plain_back, H, V. Qed.
Print Assumptions C166_small_count_drops.
(* no via, a count that is too large or a polygon: the section is lost *)
Theorem C166_section_refuted : forall n l m rest, (forall v, In v l -> via_wf v /\ v_polys v = [] /\ v_cut v = None) -> l = [] \/ Z.of_nat (length l) < n ->
  (m = [] /\ eat "-" rest = None /\ eat "END" rest = None) \/ (exists v m', m = v :: m' /\ via_wf v /\ v_polys v <> []) ->
  read_sec "VIAS" read_via (print_sec "VIAS" print_via n (l ++ m) ++ rest) = None.
Proof.
  intros n l m rest H N [(-> & E1 & E2)|(v & m' & -> & Wf & P)].
  - rewrite app_nil_r. apply sec_open; try assumption; [exact via_dash|]. intros v V. apply plain_back, H, V.
  - apply sec_broken; [exact via_dash| | |exact N]. + intros x V. apply plain_back, H, V. + intros r. apply via_broken; assumption.
Qed.
Print Assumptions C166_section_refuted.

(* C167: a blockage of rectangles is read back as it was *)
Theorem C167_blockage_kept : forall b rest, blk_wf b -> b_polys b = [] -> six_digits (b_part b) -> read_blk (print_blk b ++ rest) = Some (b, rest).
Proof.
  intros b rest Wf P D. rewrite blk_read by assumption. assert (E : density (b_part b) = b_part b). { unfold density. destruct (Z.eqb_spec (b_part b) (-1)); [congruence|]. apply g6_exact. exact D. }
  rewrite E. destruct b. reflexivity.
Qed.
Print Assumptions C167_blockage_kept.
(* a blockage with a polygon cannot be read *)
Theorem C167_polygon_refuted : forall b rest, blk_wf b -> b_polys b <> [] -> read_blk (print_blk b ++ rest) = None.
Proof. exact blk_broken. Qed.
Print Assumptions C167_polygon_refuted.
Lemma blk_dash b : exists r, print_blk b = W "-" :: r. Proof. rewrite print_blk_eq. eexists. reflexivity. Qed.
Theorem C167_section_kept : forall n l rest, (forall b, In b l -> blk_wf b /\ b_polys b = [] /\ six_digits (b_part b)) -> eat "-" rest = None -> eat "END" rest = None ->
  (read_sec "BLOCKAGES" read_blk (print_sec "BLOCKAGES" print_blk n l ++ rest) = Some (n, l, rest) <-> Z.of_nat (length l) = Z.max 1 n).
Proof. intros n l rest H. apply sec_kept; [exact blk_dash|]. intros b B r. destruct (H b B) as (X & Y & U). apply C167_blockage_kept; assumption. Qed.
Print Assumptions C167_section_kept.
Theorem C167_small_count_drops : forall n l rest, (forall b, In b l -> blk_wf b /\ b_polys b = [] /\ six_digits (b_part b)) -> 1 <= n < Z.of_nat (length l) ->
  exists r, read_sec "BLOCKAGES" read_blk (print_sec "BLOCKAGES" print_blk n l ++ rest) = Some (n, firstn (Z.to_nat n) l, r).
Proof. intros n l rest H. apply sec_small; [exact blk_dash|]. intros b B r. destruct (H b B) as (X & Y & U). apply C167_blockage_kept; assumption. Qed.
Print Assumptions C167_small_count_drops.
Theorem C167_section_refuted : forall n l m rest, (forall b, In b l -> blk_wf b /\ b_polys b = [] /\ six_digits (b_part b)) -> l = [] \/ Z.of_nat (length l) < n ->
  (m = [] /\ eat "-" rest = None /\ eat "END" rest = None) \/ (exists b m', m = b :: m' /\ blk_wf b /\ b_polys b <> []) ->
  read_sec "BLOCKAGES" read_blk (print_sec "BLOCKAGES" print_blk n (l ++ m) ++ rest) = None.
Proof.
  intros n l m rest H N C. assert (G : forall b, In b l -> reads_back print_blk read_blk b) by (intros b B r; destruct (H b B) as (X & Y & U); apply C167_blockage_kept; assumption). destruct C as [(-> & E1 & E2)|(b & m' & -> & Wf & P)].
  - rewrite app_nil_r. apply sec_open; try assumption. exact blk_dash.
  - apply sec_broken; [exact blk_dash|exact G| |exact N]. intros r. apply blk_broken; assumption.
Qed.
Print Assumptions C167_section_refuted.


Definition v1 : via := mkVia "V12" [("M1", 0, (-50, -50, 50, 50)); ("CUT1", 2, (-20, -20, 20, 20))] [] None (0, 0) (0, 0) (0, 0, 0, 0) None.
Definition v2 : via := mkVia "V12_2x1" [] [] (Some (mkVr "VR12" (40, 40) "M1" "CUT1" "M2" (60, 60) (5, 10, 10, 5))) (2, 0) (0, -7) (0, 0, 3, 0) None.
Definition v3 : via := with_cut (Some "2_F0_1") v2.
Definition v4 : via := mkVia "VP" [] [("M1", 1, [(0, 0); (10, 0); (10, 10)])] None (0, 0) (0, 0) (0, 0, 0, 0) None.
Example c166_wf : via_wf v1 /\ via_wf v2 /\ via_wf v3 /\ via_wf v4.
Proof.
  repeat split; cbn [v1 v2 v3 v4 with_cut v_name v_rects v_polys v_rule vr_name vr_bot vr_cut vr_top]; try (apply sign_name; reflexivity); intros; repeat match goal with H : In _ _ |- _ => cbn in H end;
  repeat match goal with H : _ \/ _ |- _ => destruct H as [H|H] | H : False |- _ => contradiction | H : (_, _, _) = (_, _, _) |- _ => injection H as <- <- <- end; try (apply sign_name; reflexivity); cbn; lia.
Qed.
Example c166_kept : read_sec "VIAS" read_via (print_sec "VIAS" print_via 2 [v1; v2] ++ [W "PINS"]) = Some (2, [v1; v2], [W "PINS"]). Proof. vm_compute. reflexivity. Qed.
Example c166_lost : read_sec "VIAS" read_via (print_sec "VIAS" print_via 2 [v1; v4] ++ [W "PINS"]) = None /\ read_sec "VIAS" read_via (print_sec "VIAS" print_via 1 [v3] ++ [W "PINS"]) = Some (1, [with_cut (Some "'2_F0_1'") v2], [W "PINS"]).
Proof. vm_compute. auto. Qed.
Definition b1 : blk := mkBlk (Some "M3") (Some "u1") true false true true false 2 50 (-1) (-1) [(0, 0, 100, 200); (50, 50, 70, 400)] [].
Definition b2 : blk := mkBlk None None false false true false false 0 (-1) (-1) 75 [(1, 2, 3, 4)] [].
Definition b3 : blk := mkBlk (Some "M3") None false false false false false 0 (-1) 30 (-1) [] [[(0, 0); (10, 0); (10, 10)]].
Example c167_wf : blk_wf b1 /\ blk_wf b2 /\ blk_wf b3 /\ six_digits (b_part b1) /\ six_digits (b_part b2).
Proof.
  repeat split; cbn [b1 b2 b3 b_comp b_layer b_rects b_polys b_soft b_part b_slots b_fills b_spc b_drw b_mask b_pg]; intros; try discriminate; try (apply sign_name; reflexivity); try (left; discriminate); try (right; discriminate); try tauto; try lia; try (apply g6_exact; reflexivity);
  repeat match goal with H : _ = Some _ |- _ => cbn in H; injection H as <- | H : In _ _ |- _ => cbn in H | H : _ \/ _ |- _ => destruct H as [<-|H] | H : False |- _ => contradiction | H : _ /\ _ |- _ => destruct H; discriminate end; try (apply sign_name; reflexivity); try (cbn; lia).
Qed.
Example c167_kept : read_sec "BLOCKAGES" read_blk (print_sec "BLOCKAGES" print_blk 2 [b1; b2] ++ [W "NETS"]) = Some (2, [b1; b2], [W "NETS"]). Proof. vm_compute. reflexivity. Qed.
Example c167_lost : read_sec "BLOCKAGES" read_blk (print_sec "BLOCKAGES" print_blk 2 [b1; b3] ++ [W "NETS"]) = None /\ read_sec "BLOCKAGES" read_blk (print_sec "BLOCKAGES" print_blk 0 [] ++ [W "NETS"]) = None.
Proof. vm_compute. auto. Qed.
