(* C17 - C21: the maze search.  All theorems hold for every cost type E, cost functions next_ext and
   init_ext, and every order pick in which the queue delivers its entries. *)
From Verif Require Import Base GeomModel GeomSpec GridModel GridSpec GridProofs GridProofs2 MazeModel MazeSpec MazeAbs MazeProofs.

(* C17 *)
Theorem C17_found_path_is_a_route E next_ext init_ext pick fuel tbfuel g cc c1 c2 g' f :
  search_ready g cc -> (grid_size g <= tbfuel)%nat ->
  search E next_ext init_ext pick fuel tbfuel g cc c1 c2 = SFound g' f ->
  (exists s, In s cc /\ isDst g s = true /\ fpath f = [s] /\ froot f = cc) \/
  (exists w, route g cc w /\ bends DUnk (fpath f) w /\ froot f = cc ++ removelast w).
Proof.
  intros R L H. pose proof (search_spec E next_ext init_ext pick fuel tbfuel g cc c1 c2 R) as S.
  rewrite H in S. unfold grid_size in L. rewrite <- points_len in L. destruct S as [_ [(s & A & B & C & _)|(w & S)]].
  - left. exists s. rewrite C. auto.
  - right. destruct (S L) as (A & B & C & _). exists w. auto.
Qed.
Print Assumptions C17_found_path_is_a_route.
Theorem C17_search_changes_only_pointers E next_ext init_ext pick fuel tbfuel g cc c1 c2 g' f :
  search_ready g cc ->
  search E next_ext init_ext pick fuel tbfuel g cc c1 c2 = SFound g' f \/
  search E next_ext init_ext pick fuel tbfuel g cc c1 c2 = SFail g' ->
  same_but_pointers g g'.
Proof.
  intros R H. pose proof (search_spec E next_ext init_ext pick fuel tbfuel g cc c1 c2 R) as S.
  destruct H as [H|H]; rewrite H in S; exact (proj1 S).
Qed.
Print Assumptions C17_search_changes_only_pointers.

(* C18 *)
Theorem C18_search_terminates E next_ext init_ext pick fuel tbfuel g cc c1 c2 :
  search_ready g cc -> (grid_size g <= tbfuel)%nat ->
  Z.of_nat (length cc) * 7 ^ Z.of_nat (grid_size g) < Z.of_nat fuel ->
  (exists g' f, search E next_ext init_ext pick fuel tbfuel g cc c1 c2 = SFound g' f) \/
  (exists g', search E next_ext init_ext pick fuel tbfuel g cc c1 c2 = SFail g').
Proof.
  intros R L F. pose proof (search_spec E next_ext init_ext pick fuel tbfuel g cc c1 c2 R) as S.
  unfold grid_size in *. rewrite <- points_len in *.
  destruct (search E next_ext init_ext pick fuel tbfuel g cc c1 c2) as [g' f|g'|g'|]; [eauto|eauto|lia|lia].
Qed.
Print Assumptions C18_search_terminates.

(* C19 *)
Theorem C19_failure_means_unreachable E next_ext init_ext pick fuel tbfuel g cc c1 c2 g' :
  search_ready g cc ->
  search E next_ext init_ext pick fuel tbfuel g cc c1 c2 = SFail g' ->
  forall p, reachable g cc p -> isDst g p = false.
Proof.
  intros R H. pose proof (search_spec E next_ext init_ext pick fuel tbfuel g cc c1 c2 R) as S.
  rewrite H in S. exact (proj2 S).
Qed.
Print Assumptions C19_failure_means_unreachable.
(* together with C18: a reachable destination is found *)
Theorem C19_reachable_is_found E next_ext init_ext pick fuel tbfuel g cc c1 c2 p :
  search_ready g cc -> (grid_size g <= tbfuel)%nat ->
  Z.of_nat (length cc) * 7 ^ Z.of_nat (grid_size g) < Z.of_nat fuel ->
  reachable g cc p -> isDst g p = true ->
  exists g' f, search E next_ext init_ext pick fuel tbfuel g cc c1 c2 = SFound g' f.
Proof.
  intros R L F Hp Hd.
  destruct (C18_search_terminates E next_ext init_ext pick fuel tbfuel g cc c1 c2 R L F) as [H|(g' & H)]; [exact H|].
  rewrite (C19_failure_means_unreachable _ _ _ _ _ _ _ _ _ _ _ R H p Hp) in Hd. discriminate.
Qed.
Print Assumptions C19_reachable_is_found.

(* C20: with as many rounds as there are grid points the traceback has always ended, at a source, and
   never met an unset pointer *)
Theorem C20_traceback_never_stuck E next_ext init_ext pick fuel tbfuel g cc c1 c2 :
  search_ready g cc -> (grid_size g <= tbfuel)%nat ->
  match search E next_ext init_ext pick fuel tbfuel g cc c1 c2 with
  | SStuck _ => False
  | SFound _ f => fwarn f = false
  | _ => True
  end.
Proof.
  intros R L. pose proof (search_spec E next_ext init_ext pick fuel tbfuel g cc c1 c2 R) as S.
  unfold grid_size in *. rewrite <- points_len in *.
  destruct (search E next_ext init_ext pick fuel tbfuel g cc c1 c2) as [g' f|g'|g'|]; [|exact I|lia|exact I].
  destruct S as [_ [(s & _ & _ & -> & _)|(w & S)]]; [reflexivity|apply (S L)].
Qed.
Print Assumptions C20_traceback_never_stuck.

(* C21 *)
Theorem C21_bends_and_box E next_ext init_ext pick fuel tbfuel g cc c1 c2 g' f :
  search_ready g cc -> (grid_size g <= tbfuel)%nat ->
  search E next_ext init_ext pick fuel tbfuel g cc c1 c2 = SFound g' f ->
  (exists s, In s cc /\ fpath f = [s] /\ fbox1 f = c1 /\ fbox2 f = c2) \/
  (exists w, route g cc w /\ bends DUnk (fpath f) w /\ least_box c1 c2 w (fbox1 f) (fbox2 f)).
Proof.
  intros R L H. pose proof (search_spec E next_ext init_ext pick fuel tbfuel g cc c1 c2 R) as S.
  rewrite H in S. unfold grid_size in L. rewrite <- points_len in L. destruct S as [_ [(s & A & B & C & _)|(w & S)]].
  - left. exists s. rewrite C. auto.
  - right. destruct (S L) as (A & B & _ & _ & C). exists w. auto.
Qed.
Print Assumptions C21_bends_and_box.

(* a 4 x 2 x 2 grid with a wall: the search has to change the layer *)
Definition maze0 : gg := mkGG [0; 10; 20; 30] [0; 10] [2; 4] [true; false] (fun _ => 0) (fun _ => false)
  (fun _ => false) (fun _ => false) (fun _ => false).
Definition die : box := mkBox (mkPt 0 0) (mkPt 100 100).
Definition maze_ops : list gop :=
  [AddEdge (mkMI 0 0 0) DE die false; AddEdge (mkMI 2 0 0) DE die false;
   AddEdge (mkMI 1 0 0) DU die false; AddEdge (mkMI 1 1 0) DU die false; AddEdge (mkMI 1 0 1) DN die false;
   AddEdge (mkMI 1 1 0) DE die false; AddEdge (mkMI 2 1 0) DU die false; AddEdge (mkMI 2 0 0) DU die false;
   AddEdge (mkMI 2 0 1) DN die false].
Definition maze1 : gg := setDst (setSrc (grun maze0 maze_ops) (mkMI 0 0 0)) (mkMI 3 0 0).
Lemma zero_edges_inside g : (forall i, gbits g i = 0) -> edges_inside g.
Proof.
  intros Z0 p d Hd H. exfalso. rewrite hasEdge_read in H by assumption.
  apply andb_true_iff in H as [_ H]. revert H. unfold read. rewrite Z0.
  rewrite Z.div_0_l by (destruct d; cbn; lia). rewrite Z.mod_0_l by (destruct d; cbn; lia). discriminate.
Qed.
Example maze_ready : search_ready maze1 [mkMI 0 0 0].
Proof.
  split; [|split].
  - apply (grun_edges_inside maze_ops maze0); [repeat constructor|apply zero_edges_inside; reflexivity].
  - intros s [<-|[]]. split; [unfold valid, on_grid; vm_compute; intuition discriminate|reflexivity].
  - intros p _. reflexivity.
Qed.
Example maze_found :
  match search unit (fun _ _ _ => tt) (fun _ _ => tt) (fun k l => Nat.pred (length l)) 100 100 maze1 [mkMI 0 0 0] (mkMI 0 0 0) (mkMI 0 0 0) with
  | SFound _ f => fpath f = [mkMI 3 0 0; mkMI 2 0 0; mkMI 2 0 1; mkMI 2 1 1; mkMI 2 1 0; mkMI 1 1 0; mkMI 1 1 1; mkMI 1 0 1; mkMI 1 0 0; mkMI 0 0 0]
                  /\ (fbox1 f, fbox2 f) = (mkMI 0 0 0, mkMI 3 1 1)
  | _ => False
  end.
Proof. vm_compute. split; reflexivity. Qed.
Example maze_fails :
  match search unit (fun _ _ _ => tt) (fun _ _ => tt) (fun k l => O) 100 100
    (setDst (setSrc (grun maze0 (removelast maze_ops)) (mkMI 0 0 0)) (mkMI 3 0 0)) [mkMI 0 0 0] (mkMI 0 0 0) (mkMI 0 0 0) with
  | SFail _ => True | _ => False end.
Proof. vm_compute. exact I. Qed.
