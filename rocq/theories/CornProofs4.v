From Coq Require Import Arith.
From Verif Require Import Base Stl GeomModel GeomSpec TechModel TechSpec TechProofs GcModel GcSpec GcProofs GcProofs2 GcProofs3 CutModel CutProofs2
  EolModel EolSpec EolProofs EolProofs3 EolProofs4 StepModel StepSpec StepProofs2 StepProofs3 StepProofs4 CornModel CornSpec CornProofs CornProofs2 CornProofs3.

(* ---- the whole check ---- *)
Definition found1 (V : kenv) (k : corner) (con : crule) (b : grect) (m : marker) : Prop :=
  guards k con b /\ (exists a, In a (query_max V (pt_box (c_pt k))) /\ pair_cond V k con a b) /\ m = corner_mark V k con b.
Definition found_all (V : kenv) (pins : list (list (list oedge))) (m : marker) : Prop :=
  exists pin, In pin pins /\ exists c, In c pin /\ exists k, In k (corners c) /\
    exists b, In b (query_max V (corner_query V k)) /\ exists con, In con (kv_rules V) /\ found1 V k con b m.
Lemma check_corners_grows V pins ms : grows (found_all V pins) ms (check_corners V pins ms).
Proof.
  unfold check_corners, found_all. destruct (kv_rules V) as [|r0 rs] eqn:E.
  { apply grows_none. intros m (pin & _ & c & _ & k & _ & b & _ & con & [] & _). }
  rewrite <- E. clear E. apply fold_grows. intros pin ms1. apply fold_grows. intros c ms2. apply fold_grows. intros k ms3.
  unfold check_corner. apply fold_grows. intros b ms4. apply fold_grows. intros con ms5. apply corner_rect_grows.
Qed.
Lemma query_max_in V q b : In b (query_max V q) -> In b (kv_rects V).
Proof. unfold query_max. rewrite filter_In. tauto. Qed.
Lemma layer_out stmts con : In con (layer_corner stmts) -> exists s, In s stmts /\ lef_corner s = Some con.
Proof.
  unfold layer_corner. rewrite in_flat_map. intros (s & I & H). exists s. split; [exact I|]. destruct (lef_corner s) as [r|]; [|destruct H].
  destruct H as [-> |[]]. reflexivity.
Qed.
Lemma corner_mark_is V i c s b : closed_outline c -> c <> [] -> solidb (gbox b) ->
  corner_mark V (corner_at c i) (rule_of s) b = corner_violation V s (edge_at c (i + 2)) b.
Proof.
  intros CO N Sb. unfold corner_mark, corner_violation, c_pt, corner_at. cbn [c_n rule_of k_id]. rewrite gen_intersect_between; [reflexivity|split; cbn; lia|].
  destruct Sb as [Sb1 Sb2]. unfold bleft, bright, bbottom, btop in Sb1, Sb2. split; lia.
Qed.
Section Check.
Variables (V : kenv) (stmts : list cstmt) (pins : list (list (list oedge))).
Hypothesis GV : good_kenv V.
Hypothesis RV : kv_rules V = layer_corner stmts.
Hypothesis CO : forall pin c, In pin pins -> In c pin -> closed_outline c.
Lemma check_complete pin c i s a b ms :
  In pin pins -> In c pin -> c <> [] -> In s stmts -> good_cstmt s -> In a (kv_rects V) -> In b (kv_rects V) ->
  gnet a = o_net (edge_at c (i + 2)) ->
  breaks_corner s (edge_at c i) (edge_at c (i + 1)) (edge_at c (i + 2)) (edge_at c (i + 3)) (gbox a) (gbox b) ->
  routed_pair V (o_low (edge_at c (i + 2))) a b ->
  reports (check_corners V pins ms) (corner_violation V s (edge_at c (i + 2)) b).
Proof.
  intros Ip Ic Nc Is Gs Ia Ib En Br Rt. pose proof (CO pin c Ip Ic) as Cc.
  destruct (check_corners_grows V pins ms) as (_ & R & _). apply R.
  destruct (proj2 (pair_iff V c stmts Cc Nc GV RV s i b Is Gs Ib) (ex_intro _ a (conj Ia (conj En (conj Br Rt))))) as (Iq & Gd & Ex).
  exists pin. split; [exact Ip|]. exists c. split; [exact Ic|]. exists (corner_at c i). split; [apply corners_in; eauto|].
  exists b. split; [exact Iq|]. exists (rule_of s). split; [rewrite RV; apply layer_in; assumption|].
  split; [exact Gd|]. split; [exact Ex|]. symmetry. apply corner_mark_is; try assumption. exact (GV b Ib).
Qed.
Lemma check_sound ms m : (forall s, In s stmts -> good_cstmt s \/ two_spacings s) -> In m (check_corners V pins ms) -> In m ms \/
  exists pin c i s a b, In pin pins /\ In c pin /\ c <> [] /\ In s stmts /\ good_cstmt s /\ In a (kv_rects V) /\ In b (kv_rects V) /\
    gnet a = o_net (edge_at c (i + 2)) /\
    breaks_corner s (edge_at c i) (edge_at c (i + 1)) (edge_at c (i + 2)) (edge_at c (i + 3)) (gbox a) (gbox b) /\
    routed_pair V (o_low (edge_at c (i + 2))) a b /\ m = corner_violation V s (edge_at c (i + 2)) b.
Proof.
  intros GS Im. destruct (check_corners_grows V pins ms) as (_ & _ & R). destruct (R m Im) as [H|H]; [left; exact H|right].
  destruct H as (pin & Ip & c & Ic & k & Ik & b & Iq & con & Icon & Gd & Ex & ->).
  apply corners_in in Ik as [Nc (i & ->)]. pose proof (CO pin c Ip Ic) as Cc. rewrite RV in Icon. apply layer_out in Icon as (s & Is & E).
  pose proof (query_max_in _ _ _ Iq) as Ib. destruct (GS s Is) as [G|T].
  - rewrite (lef_good s G) in E. injection E as <-.
    destruct (proj1 (pair_iff V c stmts Cc Nc GV RV s i b Is G Ib) (conj Iq (conj Gd Ex))) as (a & Ia & En & Br & Rt).
    exists pin, c, i, s, a, b. repeat (split; [first [assumption|exact En|exact Br|exact Rt]|]). apply corner_mark_is; try assumption. exact (GV b Ib).
  - destruct Ex as (a & _ & _ & _ & S & _). rewrite (lef_two s con T E) in S. discriminate.
Qed.
End Check.
(* a statement with two spacings adds nothing *)
Lemma two_spacings_silent V stmts pins ms : kv_rules V = layer_corner stmts -> (forall s, In s stmts -> two_spacings s) ->
  forall m, In m (check_corners V pins ms) -> In m ms.
Proof.
  intros RV T m Im. destruct (check_corners_grows V pins ms) as (_ & _ & R). destruct (R m Im) as [H|H]; [exact H|exfalso].
  destruct H as (pin & Ip & c & Ic & k & Ik & b & Iq & con & Icon & Gd & (a & _ & _ & _ & S & _) & _).
  rewrite RV in Icon. apply layer_out in Icon as (s & Is & E). rewrite (lef_two s con (T s Is) E) in S. discriminate.
Qed.
