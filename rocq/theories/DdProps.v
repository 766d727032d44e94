(* What the copy of the property definitions in the routed DEF file says. *)
From Coq Require Import String.
From Verif Require Import Base DwModel DwSpec DwProofs SnModel SnProofs DdModel DdSpec DdProofs.
Local Open Scope string_scope.
Local Open Scope Z_scope.
Local Open Scope list_scope.

Lemma print_starts d : exists n r, print_pdef d = W (df_obj d) :: W n :: r. Proof. do 2 eexists. reflexivity. Qed.
Lemma def_starts d : exists n r, def_pdef d = W (df_obj d) :: W n :: r. Proof. do 2 eexists. reflexivity. Qed.
(* C174: the parser reads the section as a DEF file gives it *)
Theorem C174_input_read : forall l rest, (forall d, In d l -> pdef_wf d) ->
  read_pdefs (W "PROPERTYDEFINITIONS" :: flat_map def_pdef l ++ W "END" :: W "PROPERTYDEFINITIONS" :: rest) = Some (l, rest).
Proof.
  intros l rest H. destruct (pdefs_all def_pdef (fun d => d) def_starts l (W "END" :: W "PROPERTYDEFINITIONS" :: rest)) as (g & ->).
  - intros d D. split; [apply obj_ok; apply H; exact D|]. intros r. apply pdef_input. apply H. exact D.
  - cbn [read_more_pdefs]. do 2 rewrite eat_same. rewrite map_id, app_nil_r. reflexivity.
Qed.
Print Assumptions C174_input_read.
(* a section without name maps, of any length, is read back with numbers rounded to six digits and empty strings forgotten *)
Theorem C174_section_copied : forall l rest, (forall d, In d l -> pdef_wf d /\ no_map d) -> read_pdefs (print_pdefs l ++ rest) = Some (map copied l, rest).
Proof.
  intros l rest H. unfold print_pdefs. cbn [app]. rewrite <- app_assoc. cbn [app]. destruct (pdefs_all print_pdef copied print_starts l (W "END" :: W "PROPERTYDEFINITIONS" :: rest)) as (g & ->).
  - intros d D. destruct (H d D) as (Wf & M). split; [apply obj_ok; exact Wf|]. intros r. apply pdef_copy; assumption.
  - cbn [read_more_pdefs]. do 2 rewrite eat_same. rewrite app_nil_r. reflexivity.
Qed.
Print Assumptions C174_section_copied.
(* so it is as it was exactly if no number has more than six digits and no default is the empty string *)
Theorem C174_section_kept : forall l rest, (forall d, In d l -> pdef_wf d /\ no_map d) -> (read_pdefs (print_pdefs l ++ rest) = Some (l, rest) <-> forall d, In d l -> pdef_short d).
Proof.
  intros l rest H. rewrite C174_section_copied by exact H. split.
  - intros E. injection E as E. clear rest. induction l as [|d l IH]; intros x [].
    + subst x. cbn [map] in E. injection E as E _. apply copied_same; [apply H; left; reflexivity|exact E].
    + cbn [map] in E. injection E as _ E. apply IH; [intros; apply H; right; assumption|exact E|assumption].
  - intros S. do 2 f_equal. transitivity (map (fun d : pdef => d) l); [|apply map_id]. apply map_ext_in. intros d D. apply copied_same; [apply H; exact D|apply S; exact D].
Qed.
Print Assumptions C174_section_kept.
(* no number is off by more than one part in 200000, and no object, name or kind of number is changed *)
Theorem C174_error : forall d, df_obj (copied d) = df_obj d /\ df_name (copied d) = df_name d /\ (df_kind d <> KQuoted "" -> df_kind (copied d) = df_kind d) /\
  (forall n, df_num d = Some n -> exists m, df_num (copied d) = Some m /\ 200000 * Z.abs (m - n) <= Z.abs n) /\
  forall a b, df_range d = Some (a, b) -> exists x y, df_range (copied d) = Some (x, y) /\ 200000 * Z.abs (x - a) <= Z.abs a /\ 200000 * Z.abs (y - b) <= Z.abs b.
Proof.
  intros [o n k a v]. cbn [copied df_obj df_name df_kind df_range df_num]. split; [reflexivity|split; [reflexivity|split; [|split]]].
  - intros E. destruct k as [| | |s|s]; try reflexivity. destruct (String.eqb_spec s "") as [->|X]; [contradiction E; reflexivity|reflexivity].
  - intros x ->. eexists. split; [reflexivity|apply g6_error].
  - intros x y ->. do 2 eexists. split; [reflexivity|split; apply g6_error].
Qed.
Print Assumptions C174_error.
(* a name map is printed without the word for its type: the definition is an error *)
Theorem C174_name_map_refuted : forall l d m rest, (forall x, In x l -> pdef_wf x /\ no_map x) -> pdef_wf d -> ~ no_map d -> read_pdefs (print_pdefs (l ++ d :: m) ++ rest) = None.
Proof.
  intros l d m rest H Wf M. unfold print_pdefs. rewrite flat_map_app. cbn [app flat_map]. repeat rewrite <- app_assoc.
  match goal with |- context[flat_map print_pdef l ++ ?t] => destruct (pdefs_all print_pdef copied print_starts l t) as (g & ->) end.
  - intros x X. destruct (H x X) as (Wx & Mx). split; [apply obj_ok; exact Wx|]. intros r. apply pdef_copy; assumption.
  - cbn [read_more_pdefs]. rewrite (not_end print_pdef print_starts) by (apply obj_ok; exact Wf). rewrite pdef_broken by assumption. reflexivity.
Qed.
Print Assumptions C174_name_map_refuted.

(* --- cases --- *)
Definition d1 : pdef := mkDf "COMPONENT" "weight" KInt (Some (1, 100)) (Some 7).
Definition d2 : pdef := mkDf "DESIGN" "site" (KQuoted "fab 2") None None.
Definition d3 : pdef := mkDf "NET" "limit" KReal None (Some 1234567).
Definition d4 : pdef := mkDf "ROW" "note" (KQuoted "") None None.
Definition d5 : pdef := mkDf "GROUP" "map" (KMap "x") None None.
Ltac nm := unfold is_name; cbn; intuition discriminate.
Example c174_wf : forall d, In d [d1; d2; d3; d4; d5] -> pdef_wf d.
Proof. intros d [<-|[<-|[<-|[<-|[<-|[]]]]]]; (split; [cbn; tauto|split; [nm|]]); cbn; try exact Logic.I; try (split; reflexivity). split; [nm|split; [discriminate|split; reflexivity]]. Qed.
Example c174_kept : read_pdefs (print_pdefs [d1; d2] ++ [W "x"]) = Some ([d1; d2], [W "x"]). Proof. vm_compute. reflexivity. Qed.
Example c174_changed : read_pdefs (print_pdefs [d3; d4]) = Some ([mkDf "NET" "limit" KReal None (Some 1234570); mkDf "ROW" "note" KStr None None], []). Proof. vm_compute. reflexivity. Qed.
Example c174_map : read_pdefs (print_pdefs [d1; d5]) = None /\ read_pdef (def_pdef d5) = Some (d5, []). Proof. split; vm_compute; reflexivity. Qed.
