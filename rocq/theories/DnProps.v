(* What the copies of the regions, the nondefault rules and the die area in the routed DEF file say. *)
From Coq Require Import String.
From Verif Require Import Base DwModel DwSpec DwProofs SnModel SnProofs DpProofs DvModel DvSpec DvProofs DnModel DnSpec DnProofs.
From Verif Require GeomModel DhModel.
Local Open Scope string_scope.
Local Open Scope Z_scope.
Local Open Scope list_scope.

(* C168: a region without properties is read back as it was, whatever the types of properties *)
Theorem C168_region_kept : forall ty g rest, region_wf g -> rg_props g = [] -> read_region ty (print_region g ++ rest) = Some (g, rest).
Proof. exact region_read. Qed.
Print Assumptions C168_region_kept.
(* a region with a property cannot be read *)
Theorem C168_property_refuted : forall ty g rest, region_wf g -> rg_props g <> [] -> read_region ty (print_region g ++ rest) = None.
Proof. exact region_broken. Qed.
Print Assumptions C168_property_refuted.
Lemma region_dash g : exists r, print_region g = W "-" :: r. Proof. eexists. reflexivity. Qed.
(* the section is read back as it was exactly if its count is the number of its regions, and there is one *)
Theorem C168_section_kept : forall ty n l rest, (forall g, In g l -> region_wf g /\ rg_props g = []) -> eat "-" rest = None -> eat "END" rest = None ->
  (read_sec "REGIONS" (read_region ty) (print_sec "REGIONS" print_region n l ++ rest) = Some (n, l, rest) <-> Z.of_nat (length l) = Z.max 1 n).
Proof. intros ty n l rest H. apply sec_kept; [exact region_dash|]. intros g G r. destruct (H g G). apply region_read; assumption. Qed.
Print Assumptions C168_section_kept.
Theorem C168_small_count_drops : forall ty n l rest, (forall g, In g l -> region_wf g /\ rg_props g = []) -> 1 <= n < Z.of_nat (length l) ->
  exists r, read_sec "REGIONS" (read_region ty) (print_sec "REGIONS" print_region n l ++ rest) = Some (n, firstn (Z.to_nat n) l, r).
Proof. intros ty n l rest H. apply sec_small; [exact region_dash|]. intros g G r. destruct (H g G). apply region_read; assumption. Qed.
Print Assumptions C168_small_count_drops.
(* no region, a count that is too large or a property: the section is lost *)
Theorem C168_section_refuted : forall ty n l m rest, (forall g, In g l -> region_wf g /\ rg_props g = []) -> l = [] \/ Z.of_nat (length l) < n ->
  (m = [] /\ eat "-" rest = None /\ eat "END" rest = None) \/ (exists g m', m = g :: m' /\ region_wf g /\ rg_props g <> []) ->
  read_sec "REGIONS" (read_region ty) (print_sec "REGIONS" print_region n (l ++ m) ++ rest) = None.
Proof.
  intros ty n l m rest H N C. assert (G : forall g, In g l -> reads_back print_region (read_region ty) g) by (intros g I r; destruct (H g I); apply region_read; assumption). destruct C as [(-> & E1 & E2)|(g & m' & -> & Wf & P)].
  - rewrite app_nil_r. apply sec_open; try assumption. exact region_dash.
  - apply sec_broken; [exact region_dash|exact G| |exact N]. intros r. apply region_broken; assumption.
Qed.
Print Assumptions C168_section_refuted.

(* C169: a nondefault rule without properties is read back as it was: hard spacing, widths, spacings, wire extensions, vias, via rules, cuts *)
Theorem C169_rule_kept : forall ty d rest, ndr_wf d -> nd_props d = [] -> read_ndr ty (print_ndr d ++ rest) = Some (d, rest).
Proof. exact ndr_read. Qed.
Print Assumptions C169_rule_kept.
(* a rule with a property cannot be read *)
Theorem C169_property_refuted : forall ty d rest, ndr_wf d -> nd_props d <> [] -> read_ndr ty (print_ndr d ++ rest) = None.
Proof. exact ndr_broken. Qed.
Print Assumptions C169_property_refuted.
Lemma ndr_dash d : exists r, print_ndr d = W "-" :: r. Proof. eexists. reflexivity. Qed.
Theorem C169_section_kept : forall ty n l rest, (forall d, In d l -> ndr_wf d /\ nd_props d = []) -> eat "-" rest = None -> eat "END" rest = None ->
  (read_sec "NONDEFAULTRULES" (read_ndr ty) (print_sec "NONDEFAULTRULES" print_ndr n l ++ rest) = Some (n, l, rest) <-> Z.of_nat (length l) = Z.max 1 n).
Proof. intros ty n l rest H. apply sec_kept; [exact ndr_dash|]. intros d D r. destruct (H d D). apply ndr_read; assumption. Qed.
Print Assumptions C169_section_kept.
Theorem C169_small_count_drops : forall ty n l rest, (forall d, In d l -> ndr_wf d /\ nd_props d = []) -> 1 <= n < Z.of_nat (length l) ->
  exists r, read_sec "NONDEFAULTRULES" (read_ndr ty) (print_sec "NONDEFAULTRULES" print_ndr n l ++ rest) = Some (n, firstn (Z.to_nat n) l, r).
Proof. intros ty n l rest H. apply sec_small; [exact ndr_dash|]. intros d D r. destruct (H d D). apply ndr_read; assumption. Qed.
Print Assumptions C169_small_count_drops.
Theorem C169_section_refuted : forall ty n l m rest, (forall d, In d l -> ndr_wf d /\ nd_props d = []) -> l = [] \/ Z.of_nat (length l) < n ->
  (m = [] /\ eat "-" rest = None /\ eat "END" rest = None) \/ (exists d m', m = d :: m' /\ ndr_wf d /\ nd_props d <> []) ->
  read_sec "NONDEFAULTRULES" (read_ndr ty) (print_sec "NONDEFAULTRULES" print_ndr n (l ++ m) ++ rest) = None.
Proof.
  intros ty n l m rest H N C. assert (G : forall d, In d l -> reads_back print_ndr (read_ndr ty) d) by (intros d I r; destruct (H d I); apply ndr_read; assumption). destruct C as [(-> & E1 & E2)|(d & m' & -> & Wf & P)].
  - rewrite app_nil_r. apply sec_open; try assumption. exact ndr_dash.
  - apply sec_broken; [exact ndr_dash|exact G| |exact N]. intros r. apply ndr_broken; assumption.
Qed.
Print Assumptions C169_section_refuted.

(* C170: the die area of the routed DEF is the first two points of the outline, whatever was read before *)
Theorem C170_die_two_points : forall b p q l rest, read_die (print_die b (p :: q :: l) ++ rest) = Some ([p; q], rest).
Proof.
  intros b [px py] [qx qy] l rest. unfold print_die, read_die. cbn [app]. rewrite eat_same. change (pt (W "(" :: Nu ?x :: Nu ?y :: W ")" :: ?r)) with (Some (x, y, r)). cbv iota beta. change (pt (W "(" :: Nu ?x :: Nu ?y :: W ")" :: ?r)) with (Some (x, y, r)). cbv iota beta.
  assert (K : forall m i d, DhModel.add_points (S (S i)) m d = d) by (induction m as [|x m IH]; intros i d; [reflexivity|cbn [DhModel.add_points]; apply IH]).
  cbn [DhModel.add_points]. rewrite K. cbn [GeomModel.px GeomModel.py DhModel.d_xl DhModel.d_yl DhModel.d_xh DhModel.d_yh]. cbn [length read_pts]. rewrite eat_other by discriminate. rewrite eat_same. reflexivity.
Qed.
Print Assumptions C170_die_two_points.
(* so it is the outline exactly if the outline was given by two points *)
Theorem C170_die_kept : forall b pts rest, (2 <= length pts)%nat -> (read_die (print_die b pts ++ rest) = Some (pts, rest) <-> length pts = 2%nat).
Proof.
  intros b [|p [|q l]] rest L; cbn [length] in L; [lia|lia|]. rewrite C170_die_two_points. split; intros H; [injection H as H; rewrite <- H; reflexivity|]. cbn [length] in H. destruct l; [reflexivity|cbn [length] in H; lia].
Qed.
Print Assumptions C170_die_kept.
(* the router, given the routed DEF, sees the die it saw in the input *)
Theorem C170_die_same_box : forall b b' p q l, exists pts, read_die (print_die b (p :: q :: l)) = Some (pts, []) /\ DhModel.add_points 0 pts b' = DhModel.add_points 0 (p :: q :: l) b'.
Proof.
  intros b b' p q l. exists [p; q]. split; [rewrite <- (app_nil_r (print_die _ _)); apply C170_die_two_points|].
  assert (K : forall m i d, DhModel.add_points (S (S i)) m d = d) by (induction m as [|x m IH]; intros i d; [reflexivity|cbn [DhModel.add_points]; apply IH]).
  cbn [DhModel.add_points]. rewrite K. reflexivity.
Qed.
Print Assumptions C170_die_same_box.

Definition g1 : region := mkRg "core" [(0, 0, 100, 200); (50, -60, 70, 400)] (Some "FENCE") [].
Definition g2 : region := mkRg "io" [(1, 2, 3, 4)] None [].
Definition g3 : region := mkRg "p" [(1, 2, 3, 4)] None [("speed", "fast", PString)].
Example c168_wf : region_wf g1 /\ region_wf g2 /\ region_wf g3.
Proof.
  repeat split; cbn [g1 g2 g3 rg_name rg_rects rg_type rg_props]; try discriminate; try (apply sign_name; reflexivity); intros; repeat match goal with H : In _ _ |- _ => cbn in H end;
  repeat match goal with H : _ \/ _ |- _ => destruct H as [H|H] | H : False |- _ => contradiction | H : Some _ = Some _ |- _ => injection H as <- | H : (_, _, _) = _ |- _ => subst end; try discriminate; auto; try (apply sign_name; reflexivity).
Qed.
Example c168_kept : read_sec "REGIONS" (read_region (fun _ => PReal)) (print_sec "REGIONS" print_region 2 [g1; g2] ++ [W "NETS"]) = Some (2, [g1; g2], [W "NETS"]). Proof. vm_compute. reflexivity. Qed.
Example c168_lost : read_sec "REGIONS" (read_region (fun _ => PString)) (print_sec "REGIONS" print_region 2 [g1; g3] ++ [W "NETS"]) = None. Proof. vm_compute. reflexivity. Qed.
Definition d1 : ndr := mkNd "wide" true [mkNl "M2" 400 None (Some 300) None; mkNl "M3" 500 (Some 600) (Some 300) (Some 20)] ["V23_2x2"] ["VR23"] [("CUT2", 2)] [].
Definition d2 : ndr := mkNd "thin" false [] [] [] [] [].
Definition d3 : ndr := mkNd "prop" false [mkNl "M2" 400 None None None] [] [] [] [("kind", "clock", PString)].
Example c169_wf : ndr_wf d1 /\ ndr_wf d2 /\ ndr_wf d3.
Proof.
  repeat split; cbn [d1 d2 d3 nd_name]; try (apply sign_name; reflexivity); intros; repeat match goal with H : In _ _ |- _ => cbn in H end;
  repeat match goal with H : _ \/ _ |- _ => destruct H as [H|H] | H : False |- _ => contradiction | H : (_, _) = (_, _) |- _ => injection H as <- <- | H : _ = _ |- _ => subst end; try (apply sign_name; reflexivity).
Qed.
Example c169_kept : read_sec "NONDEFAULTRULES" (read_ndr (fun _ => PReal)) (print_sec "NONDEFAULTRULES" print_ndr 2 [d1; d2] ++ [W "NETS"]) = Some (2, [d1; d2], [W "NETS"]). Proof. vm_compute. reflexivity. Qed.
Example c169_lost : read_sec "NONDEFAULTRULES" (read_ndr (fun _ => PString)) (print_sec "NONDEFAULTRULES" print_ndr 2 [d1; d3] ++ [W "NETS"]) = None. Proof. vm_compute. reflexivity. Qed.
(* a die of four corners comes back as a line *)
Example c170_corners : read_die (print_die (DhModel.mkDB 0 0 0 0) [GeomModel.mkPt 0 0; GeomModel.mkPt 0 1000; GeomModel.mkPt 1000 1000; GeomModel.mkPt 1000 0]) = Some ([GeomModel.mkPt 0 0; GeomModel.mkPt 0 1000], []).
Proof. vm_compute. reflexivity. Qed.
