(* The DRC report. *)
From Verif Require Import Base GeomModel GfModel GfSpec GfProofs RptModel RptSpec RptProofs.
From Coq Require Import String Ascii.
From Coq Require Import List.
Open Scope list_scope.

Section C157.
Variable layer_type : Z -> ltype.
Variable layer_name : Z -> string.
Variable dbu : Z.
Variable up : Z -> bool.
Notation rep := (report layer_type layer_name dbu up).
(* three lines for a violation *)
Definition type_said (m : vmarker) (l : rline) : Prop :=
  forall c t, vm_con m = Some c -> appears c (layer_type (vm_layer m)) t -> l = Text ("  violation type: " ++ t).
Definition srcs_said (m : vmarker) (l : rline) : Prop :=
  forall ns, Forall2 (fun s n => exists o, s = Some o /\ named o n) (vm_srcs m) ns -> Forall word ns ->
  exists t, l = Text t /\ tokens t = "srcs:"%string :: ns.
Definition box_said (m : vmarker) (l : rline) : Prop :=
  exists x1 y1 x2 y2 n, l = BoxLine x1 y1 x2 y2 n /\
    (forall v d, In (v, d) [(bleft (vm_box m), x1); (bbottom (vm_box m), y1); (bright (vm_box m), x2); (btop (vm_box m), y2)] ->
       near dbu v d /\ (v <> 0 -> six_digits dbu v d) /\ (short_number dbu v -> equals dbu v d)) /\
    (layer_type (vm_layer m) <> LCut -> n = layer_name (vm_layer m)) /\
    (layer_type (vm_layer m) = LCut -> 1 <= vm_layer m -> n = layer_name (vm_layer m - 1)).
Inductive lists_all : list vmarker -> list rline -> Prop :=
| la_nil : lists_all [] []
| la_cons m ms a b c r : type_said m a -> srcs_said m b -> box_said m c -> lists_all ms r -> lists_all (m :: ms) (a :: b :: c :: r).

Lemma said_type m : type_said m (Text (type_line layer_type m)).
Proof. intros c t E A. unfold type_line. rewrite E. f_equal. f_equal. unfold kind_text. destruct A; reflexivity. Qed.
Lemma said_srcs m : srcs_said m (Text (src_line m)).
Proof.
  intros ns F W. eexists. split; [reflexivity|]. unfold src_line.
  change ("    srcs: " ++ fold_right (fun s r => src_text s ++ r) "" (vm_srcs m))%string with ("    " ++ ("srcs:" ++ " " ++ fold_right (fun s r => src_text s ++ r) "" (vm_srcs m)))%string.
  rewrite tokens_blanks by (cbn; unfold blank_char; cbn; tauto). rewrite tokens_sp_word by (split; [discriminate|cbn; repeat split; unfold blank_char; cbn; intuition discriminate]).
  f_equal. revert W. induction F as [|s n ss ns (o & -> & N) F IH]; intros W; [reflexivity|]. inversion W; subst. cbn [fold_right].
  replace (src_text (Some o)) with (n ++ " ")%string by (destruct N; cbn [src_text]; rewrite ?append_assoc; reflexivity).
  rewrite append_assoc, tokens_sp_word by assumption. f_equal. apply IH. assumption.
Qed.
Lemma said_box m : 0 < dbu -> box_said m (box_line layer_type layer_name dbu up m).
Proof.
  intros D. unfold box_line. do 5 eexists. split; [reflexivity|]. split; [|split].
  - intros v d H. assert (E : d = print dbu up v) by (destruct H as [H|[H|[H|[H|[]]]]]; injection H as <- <-; reflexivity). subst d.
    destruct (print_near dbu up D v). split; [assumption|]. split; [assumption|apply print_exact; assumption].
  - intros N. destruct (layer_type (vm_layer m)); [contradiction|reflexivity|reflexivity].
  - intros E L. rewrite E. destruct (Z.leb_spec 0 (vm_layer m - 1)); [reflexivity|lia].
Qed.

(* C157 *)
(* The report lists every violation, in order: its kind by name, what it lies between, where it is to six digits, and its layer; for cuts the
   layer below. *)
Theorem C157_every_violation_listed file ms : 0 < dbu -> file <> EmptyString -> exists lines, rep file ms = Some lines /\ lists_all ms lines.
Proof.
  intros D N. unfold report. destruct (String.eqb_spec file ""); [contradiction|]. eexists. split; [reflexivity|].
  induction ms as [|m ms IH]; [constructor|]. cbn [flat_map entry app]. constructor; [apply said_type|apply said_srcs|apply said_box, D|exact IH].
Qed.
(* Without a file name there is no report. *)
Theorem C157_no_name_no_report ms : rep EmptyString ms = None.
Proof. reflexivity. Qed.
(* A kind of violation that appears under a name is never called "unknown"; all the others are. *)
Theorem C157_other_kinds_unknown m c : vm_con m = Some c -> (forall l t, ~ appears c l t) -> type_line layer_type m = "  violation type: unknown"%string.
Proof.
  intros E N. unfold type_line. rewrite E. destruct c; try reflexivity; exfalso;
    first [eapply (N LRouting); constructor|eapply (N LCut); constructor].
Qed.
End C157.
Print Assumptions C157_every_violation_listed.
Print Assumptions C157_no_name_no_report.
Print Assumptions C157_other_kinds_unknown.

(* a violation between a net and an obstruction *)
Definition rp_lt (l : Z) : ltype := if l =? 0 then LOther else if Z.even l then LRouting else LCut.
Definition rp_ln (l : Z) : string := if l =? 2 then "M1" else if l =? 4 then "M2" else "V1".
Definition rp_m (c : ctype) (l x : Z) := mkVM (Some c) l [Some (SNet "clk"); Some (SInstBlk "u1")] (mkBox (mkPt x 4000) (mkPt (x + 140) 4140)).
Example C157_applies : forall up,
  report rp_lt rp_ln 2000 up "drc.rpt" [rp_m KTablePrl 4 123456; rp_m KCutSpacing 3 (-700)] =
  Some [Text "  violation type: MetSpc"; Text "    srcs: clk u1/OBS "; BoxLine (617280, -4) (200000, -5) (617980, -4) (207000, -5) "M2";
        Text "  violation type: CutSpc"; Text "    srcs: clk u1/OBS "; BoxLine (-350000, -6) (200000, -5) (-280000, -6) (207000, -5) "M1"] /\
  short_number 2000 123456 /\ appears KTablePrl (rp_lt 4) "MetSpc" /\ named (SInstBlk "u1") "u1/OBS" /\ word "u1/OBS".
Proof.
  intros up. split; [vm_compute; reflexivity|]. split; [exists 61728, (-3); split; [lia|reflexivity]|]. split; [constructor|]. split; [apply (nm_inst_obs "u1")|].
  split; [discriminate|cbn; repeat split; unfold blank_char; cbn; intuition discriminate].
Qed.
(* Six digits do not tell the place: violations some steps apart have the same entry. *)
Theorem C157_place_lost_refuted : exists ma mb, vm_box ma <> vm_box mb /\ forall up, entry rp_lt rp_ln 2000 up ma = entry rp_lt rp_ln 2000 up mb.
Proof.
  exists (rp_m KTablePrl 4 2468001), (rp_m KTablePrl 4 2468005). split; [discriminate|]. intros up. vm_compute. reflexivity.
Qed.
(* Spacing violations of layers with a two-width table, and the marks for rechecking, are called "unknown". *)
Theorem C157_spacing_unknown_refuted : forall lt l ss b, type_line lt (mkVM (Some KTableTw) l ss b) = "  violation type: unknown"%string /\
  type_line lt (mkVM (Some KRecheck) l ss b) = "  violation type: unknown"%string.
Proof. split; reflexivity. Qed.
(* Shapes of floating power, whose net has no owner, are not among the sources. *)
Theorem C157_floating_source_refuted : forall c l b, src_line (mkVM c l [None] b) = "    srcs: "%string.
Proof. reflexivity. Qed.
Print Assumptions C157_place_lost_refuted.
