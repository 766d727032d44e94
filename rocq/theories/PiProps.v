(* C161: every pin of a placed cell is given an access point of its own. *)
From Verif Require Import Base GeomModel PiModel PiSpec PiProofs PiProofs2.
From Coq Require Import Permutation Sorted.

(* the cells that are prepared are the standard cells with a signal or clock terminal, each as often as it is placed and in order *)
Theorem C161_selected is : forall l1 i l2, is = l1 ++ i :: l2 ->
  (standard_cell i /\ (exists t, In t (pi_terms i) /\ signal t) -> getInsts is = getInsts l1 ++ i :: getInsts l2) /\
  (~ (standard_cell i /\ exists t, In t (pi_terms i) /\ signal t) -> getInsts is = getInsts l1 ++ getInsts l2).
Proof.
  intros l1 i l2 ->. unfold getInsts. rewrite filter_app. cbn [filter].
  assert (Q : core (pi_class i) && existsb (fun t => negb (skip t)) (pi_terms i) = true <-> standard_cell i /\ exists t, In t (pi_terms i) /\ signal t).
  { rewrite andb_true_iff, core_spec, existsb_exists. split; intros [H1 (t & H2 & H3)]; (split; [exact H1|]); exists t; (split; [exact H2|]).
    - apply skip_signal. destruct (skip t); [discriminate|reflexivity].
    - apply skip_signal in H3. rewrite H3. reflexivity. }
  split; intros H.
  - apply Q in H. rewrite H. reflexivity.
  - destruct (core (pi_class i) && _) eqn:E; [|reflexivity]. elim H. apply Q. reflexivity.
Qed.
Print Assumptions C161_selected.

(* the pins searched are the pins of the signal terminals that have access points, from left to right by the mean of their points *)
Theorem C161_left_to_right i ps : pins_in_order (pi_terms i) ps ->
  (forall p, In p (search_pins i) <-> In p ps /\ pp_aps p <> []) /\ (NoDup ps -> NoDup (search_pins i)) /\
  forall l1 p l2 q l3 m n, search_pins i = l1 ++ p :: l2 ++ q :: l3 -> mean_is p m -> mean_is q n -> m <= n.
Proof.
  intros O. apply pins_spec in O. subst ps.
  assert (HA : forall p, has_aps p = true <-> pp_aps p <> []). { intros p. unfold has_aps. destruct (pp_aps p); split; intros H; auto; try discriminate; contradiction. }
  split; [|split].
  - intros p. rewrite <- (HA p), <- filter_In. split; apply Permutation_in; [apply search_perm|apply Permutation_sym, search_perm].
  - intros N. apply (Permutation_NoDup (Permutation_sym (search_perm i))). apply NoDup_filter, N.
  - intros l1 p l2 q l3 m n E M N. pose proof (search_sorted i) as S. rewrite E in S. clear E. induction l1 as [|x l1 IH]; cbn [app] in S; inversion S as [|? ? S1 S2]; subst; [|apply IH, S1].
    rewrite Forall_forall in S2. apply (S2 q); [apply in_app_iff; right; left; reflexivity|apply mean_spec, M|apply mean_spec, N].
Qed.
Print Assumptions C161_left_to_right.

(* a cell all of whose signal pins have access points: each pin gets a point, its own, the one the pattern names for it *)
Theorem C161_own_point i ps pat : pins_in_order (pi_terms i) ps -> NoDup (map pp_id ps) -> (forall p, In p ps -> pp_aps p <> []) -> length pat = length ps ->
  exists r, commit_inst i pat = (r, true) /\ map fst r = map pp_id ps /\
  forall id a, In (id, a) r -> exists p k, In p ps /\ pp_id p = id /\ In (id, k) (combine (map pp_id (search_pins i)) pat) /\ a = (id, k, nth (Z.to_nat k) (pp_aps p) (mkPt 0 0)).
Proof.
  intros O ND A L. apply pins_spec in O. subst ps. destruct (reorder_all i pat A L) as (f & F1 & F2). unfold commit_inst. rewrite F2.
  destruct (hand_out_ok (signal_pins i) (map (fun p => (pp_id p, f p, point_of p (f p))) (signal_pins i))) as [H1 H2]; [apply map_length|].
  destruct (hand_out _ _) as [r ok]. cbn [fst snd] in H1, H2. subst r ok. eexists. split; [reflexivity|]. clear F2 L ND A. split.
  - induction (signal_pins i) as [|p ps IH]; [reflexivity|]. cbn [map combine fst]. f_equal. apply IH. intros q Q. apply F1. right. exact Q.
  - intros id a I. assert (E : exists p, In p (signal_pins i) /\ id = pp_id p /\ a = (pp_id p, f p, point_of p (f p))).
    { clear F1. induction (signal_pins i) as [|p ps IH]; [contradiction|]. cbn [map combine] in I. destruct I as [I|I]; [injection I as <- <-; exists p; split; [left; reflexivity|split; reflexivity]|]. destruct (IH I) as (q & Q1 & Q2). exists q. split; [right; exact Q1|exact Q2]. }
    destruct E as (p & P1 & -> & ->). exists p, (f p). split; [exact P1|]. split; [reflexivity|]. split; [apply F1, P1|reflexivity].
Qed.
Print Assumptions C161_own_point.

(* a cell with a signal pin without access points: the points are too few and memory beyond them is read *)
Theorem C161_missing_pin_out_of_bounds i ps pat p : pins_in_order (pi_terms i) ps -> NoDup (map pp_id ps) -> In p ps -> pp_aps p = [] -> snd (commit_inst i pat) = false.
Proof. intros O ND I E. apply pins_spec in O. subst ps. apply hand_out_short. exact (reorder_short i pat p ND I E). Qed.
Print Assumptions C161_missing_pin_out_of_bounds.

(* the boundary points of a pattern: the first with the least x and the first with the greatest *)
Theorem C161_boundary l : l <> [] ->
  (exists l1 a l2, l = l1 ++ a :: l2 /\ left_ap l = Some a /\ (forall c, In c l1 -> px (snd a) < px (snd c)) /\ forall c, In c l2 -> px (snd a) <= px (snd c)) /\
  exists l1 b l2, l = l1 ++ b :: l2 /\ right_ap l = Some b /\ (forall c, In c l1 -> px (snd c) < px (snd b)) /\ forall c, In c l2 -> px (snd c) <= px (snd b).
Proof.
  intros N. split.
  - destruct (left_spec l N) as (a & A & l1 & l2 & E & H1 & H2). exists l1, a, l2. repeat split; assumption.
  - destruct (right_spec l N) as (b & B & l1 & l2 & E & H1 & H2). exists l1, b, l2. split; [exact E|]. split; [exact B|]. unfold ap_x in H1, H2. split; intros c C; [specialize (H1 c C)|specialize (H2 c C)]; cbn beta in *; lia.
Qed.
Print Assumptions C161_boundary.

(* three pins; the terminals come in the order C, A, B, the pins from left to right are A, B, C; the power pin is left out *)
Definition pinA := mkPP 1 [mkPt 10 0; mkPt 13 5].
Definition pinB := mkPP 2 [mkPt 20 0].
Definition pinC := mkPP 3 [mkPt 30 0; mkPt 40 7].
Definition cell3 := mkPI MCore [mkPTm TNormal [pinC]; mkPTm TPower [mkPP 9 []]; mkPTm TClock [pinA]; mkPTm TNormal [pinB]].
Example C161_cell : search_pins cell3 = [pinA; pinB; pinC] /\
  commit_inst cell3 [1; 0; 1] = ([(3, (3, 1, mkPt 40 7)); (1, (1, 1, mkPt 13 5)); (2, (2, 0, mkPt 20 0))], true) /\
  getInsts [cell3; mkPI MBlock (pi_terms cell3); mkPI MCore [mkPTm TPower [pinA]]] = [cell3] /\
  left_ap (reorder cell3 (search_pins cell3) [1; 0; 1]) = Some (1, 1, mkPt 13 5) /\ right_ap (reorder cell3 (search_pins cell3) [1; 0; 1]) = Some (3, 1, mkPt 40 7).
Proof. vm_compute. repeat split. Qed.
Example C161_meets : exists ps, pins_in_order (pi_terms cell3) ps /\ NoDup (map pp_id ps) /\ (forall p, In p ps -> pp_aps p <> []) /\ length [1; 0; 1] = length ps /\ mean_is pinA 11.
Proof.
  exists [pinC; pinA; pinB]. split; [apply pins_spec; reflexivity|]. split; [cbn; repeat constructor; cbn; intuition discriminate|]. split; [intros p [<-|[<-|[<-|[]]]]; discriminate|]. split; [reflexivity|]. apply mean_spec. reflexivity.
Qed.

(* a pin without access points takes the point of the pin after it *)
Theorem C161_shift_refuted : ~ forall i ps pat, pins_in_order (pi_terms i) ps -> NoDup (map pp_id ps) -> length pat = length (search_pins i) ->
  forall id a, In (id, a) (fst (commit_inst i pat)) -> fst (fst a) = id.
Proof.
  intros H. specialize (H (mkPI MCore [mkPTm TNormal [mkPP 1 []]; mkPTm TNormal [pinB]]) [mkPP 1 []; pinB] [0]).
  specialize (H (proj2 (pins_spec _ _) eq_refl)). cbn in H. specialize (H ltac:(repeat constructor; cbn; intuition discriminate) eq_refl 1 (2, 0, mkPt 20 0) (or_introl eq_refl)). discriminate.
Qed.
Print Assumptions C161_shift_refuted.
