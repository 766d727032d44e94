(* C126-C128: instances sharing access points, and rows of instances. *)
From Verif Require Import Base GeomModel ApModel UiModel UiSpec UiProofs UiProofs2 UiProofs3.
From Coq Require Import Sorted.

(* C126. Two instances of a master (with pins) get the same access points exactly if they have the same orientation
   and lie in the same way with respect to every pattern of tracks on the layers of the pins and the one above. *)
Theorem C126_shared_exactly_if_same_view : forall E is i j ki kj,
  wf E -> u_bottom E <= INT_MAX -> NoDup (map i_id is) -> In i is -> In j is ->
  placed_nonneg i -> placed_nonneg j -> i_master i = i_master j -> u_pins E (i_master i) <> [] ->
  access_index E is i = Some ki -> access_index E is j = Some kj ->
  (ki = kj <-> same_view E i j).
Proof.
  intros E is i j ki kj W UB NI Hi Hj Pi Pj M P Ki Kj. assert (W' := W). destruct W as [W1 [W2 [W3 W4]]].
  rewrite (index_key E W3 W4 is i j ki kj NI Hi Hj M P Ki Kj).
  apply key_view; try assumption.
  exact (index_key_some E is i ki Hi Ki).
Qed.
Print Assumptions C126_shared_exactly_if_same_view.

(* every instance gets access points; the program does not stop, if no pin shape is above the top routing layer *)
Theorem C126_every_instance : forall E is i,
  wf E -> u_bottom E <= INT_MAX -> INT_MIN <= u_top E -> NoDup (map i_id is) -> In i is ->
  (forall j l, In j is -> In l (u_figs E (i_master j)) -> l <= u_top E) ->
  exists k, access_index E is i = Some k.
Proof.
  intros E is i W UB UT NI Hi H. assert (W' := W). destruct W as [W1 [W2 [W3 W4]]].
  apply index_some; try assumption. intros j Hj. apply key_some; try assumption. intros l Hl. exact (H j l Hj Hl).
Qed.
Print Assumptions C126_every_instance.

(* a design: two tracks patterns, a cell of 300 x 300 with a pin on layer 2 *)
Definition exE (tr : list track) (figs : list Z) : uenv :=
  mkUE 2 8 10 (fun l => (l =? 2) || (l =? 6)) tr (fun _ => figs) (fun _ => mkBox (mkPt 0 0) (mkPt 300 300)) (fun m => [10 * m; 10 * m + 1]).
Lemma exE_wf tr figs : (forall t, In t tr -> 0 < tp_space t /\ 0 < tp_num t /\ tp_layer t < INT_MAX) ->
  (forall l, In l figs -> INT_MIN <= l <= INT_MAX) -> wf (exE tr figs).
Proof.
  intros H1 H2. split; [exact H1|]. split; [intros m l Hl; exact (H2 l Hl)|]. split.
  - intros m. unfold exE, u_pins. constructor; [intros [X|[]]; lia|]. constructor; [easy|constructor].
  - intros m m' p. unfold exE, u_pins. intros [X|[X|[]]] [Y|[Y|[]]]; lia.
Qed.
Definition ex_tr : list track := [mkTrack 2 false 50 100 100; mkTrack 4 true 50 100 100; mkTrack 8 true 3 100 70].
Definition ex_is : list inst :=
  [mkInst 1 7 (mkXf 1000 300 R0); mkInst 2 7 (mkXf 1300 600 R0); mkInst 3 7 (mkXf 1650 300 R0); mkInst 4 7 (mkXf 2000 300 MX)].
Example C126_example :
  wf (exE ex_tr [2]) /\ map (access_index (exE ex_tr [2]) ex_is) ex_is = [Some 0; Some 0; Some 1; Some 2].
Proof.
  split; [|reflexivity]. apply exE_wf.
  - intros t H. cbn in H. destruct H as [<- |[<- |[<- |[]]]]; cbn; unfold INT_MAX; lia.
  - intros l [<- |[]]. unfold INT_MIN, INT_MAX. lia.
Qed.

(* C127. Moved to another instance that shares it, an access point stays on the same shapes of the cell ... *)
Theorem C127_on_the_same_shape : forall E is i j k p r,
  wf E -> u_bottom E <= INT_MAX -> NoDup (map i_id is) -> In i is -> In j is ->
  placed_nonneg i -> placed_nonneg j -> i_master i = i_master j -> u_pins E (i_master i) <> [] ->
  access_index E is i = Some k -> access_index E is j = Some k ->
  (in_box p (placed E i r) <-> in_box (used_place j (stored_place i p)) (placed E j r)).
Proof.
  intros E is i j k p r W UB NI Hi Hj Pi Pj M P Ki Kj.
  destruct (proj1 (C126_shared_exactly_if_same_view E is i j k k W UB NI Hi Hj Pi Pj M P Ki Kj) eq_refl) as [_ [O _]].
  rewrite (placed_shift E i j r M O). symmetry. apply in_shifted; fold (moved i j p); rewrite moved_pt; cbn; lia.
Qed.
Print Assumptions C127_on_the_same_shape.

(* ... and on the tracks it was on: on the layer of a pin shape and the routing layer above, where no pattern ends inside *)
Theorem C127_on_the_same_tracks : forall E is i j k p t l,
  wf E -> u_bottom E <= INT_MAX -> NoDup (map i_id is) -> In i is -> In j is ->
  placed_nonneg i -> placed_nonneg j -> i_master i = i_master j -> u_pins E (i_master i) <> [] ->
  access_index E is i = Some k -> access_index E is j = Some k ->
  In l (u_figs E (i_master i)) -> u_bottom E <= l -> (tp_layer t = l \/ tp_layer t = l + 2) -> tp_layer t <= u_nlayers E ->
  preferred E t -> (reaches E t i -> spans E t i) -> (reaches E t j -> spans E t j) -> in_box p (inst_box E i) ->
  (on_pattern t (coord t p) <-> on_pattern t (coord t (used_place j (stored_place i p)))).
Proof.
  intros E is i j k p t l W UB NI Hi Hj Pi Pj M P Ki Kj Hl Bl Lt Ln T Si Sj Hp.
  assert (V := proj1 (C126_shared_exactly_if_same_view E is i j k k W UB NI Hi Hj Pi Pj M P Ki Kj) eq_refl).
  apply (moved_track E W i j t p V T); try assumption.
  exists l, l. repeat split; try assumption; lia.
Qed.
Print Assumptions C127_on_the_same_tracks.
Example C127_example :
  let E := exE ex_tr [2] in let i := mkInst 1 7 (mkXf 1000 300 R0) in let j := mkInst 2 7 (mkXf 1300 600 R0) in
  access_index E ex_is i = Some 0 /\ access_index E ex_is j = Some 0 /\
  used_place j (stored_place i (mkPt 1150 350)) = mkPt 1450 650 /\
  (forall t, preferred E t -> tp_layer t <= 4 -> spans E t i /\ spans E t j).
Proof.
  split; [reflexivity|]. split; [reflexivity|]. split; [reflexivity|].
  intros t [H _] L. cbn in H. destruct H as [<- |[<- |[<- |[]]]]; cbn in L; try lia;
    unfold spans, last_track, side_lo, side_hi; vm_compute; intuition congruence.
Qed.

(* Where the statement fails without these hypotheses. A negative placement: the remainder is taken of an unsigned number *)
Theorem C127_negative_placement_refuted : exists E is i j k t p,
  wf E /\ NoDup (map i_id is) /\ In i is /\ In j is /\ i_master i = i_master j /\ ori (i_xf i) = ori (i_xf j) /\
  access_index E is i = Some k /\ access_index E is j = Some k /\ preferred E t /\ tp_layer t = 2 /\ In 2 (u_figs E (i_master i)) /\
  spans E t i /\ spans E t j /\ in_box p (inst_box E i) /\
  on_pattern t (coord t p) /\ ~ on_pattern t (coord t (used_place j (stored_place i p))).
Proof.
  exists (exE [mkTrack 2 false (-950) 100 100] [2]), [mkInst 1 7 (mkXf 0 92 R0); mkInst 2 7 (mkXf 400 (-4) R0)],
    (mkInst 1 7 (mkXf 0 92 R0)), (mkInst 2 7 (mkXf 400 (-4) R0)), 0, (mkTrack 2 false (-950) 100 100), (mkPt 10 150).
  split; [apply exE_wf; [intros t [<- |[]]; cbn; unfold INT_MAX; lia|intros l [<- |[]]; unfold INT_MIN, INT_MAX; lia]|].
  split; [cbn; repeat constructor; cbn; intuition congruence|].
  repeat (split; [first [reflexivity | left; reflexivity | right; left; reflexivity]|]).
  split; [split; [left; reflexivity|reflexivity]|].
  repeat (split; [first [reflexivity | left; reflexivity]|]).
  split; [split; reflexivity|]. split; [split; reflexivity|].
  split; [vm_compute; intuition congruence|]. split; [exists 11; vm_compute; intuition congruence|].
  intros [k [K Q]]. match type of Q with ?c = _ => let v := eval vm_compute in c in change c with v in Q end. cbn [tp_start tp_space tp_num] in *. lia.
Qed.
Print Assumptions C127_negative_placement_refuted.

(* A pattern that starts inside an instance *)
Theorem C127_pattern_end_refuted : exists E is i j k t p,
  wf E /\ NoDup (map i_id is) /\ In i is /\ In j is /\ placed_nonneg i /\ placed_nonneg j /\ i_master i = i_master j /\
  access_index E is i = Some k /\ access_index E is j = Some k /\ preferred E t /\ tp_layer t = 2 /\ In 2 (u_figs E (i_master i)) /\
  in_box p (inst_box E i) /\ on_pattern t (coord t p) /\ ~ on_pattern t (coord t (used_place j (stored_place i p))).
Proof.
  exists (exE [mkTrack 2 false 200 100 100] [2]), [mkInst 1 7 (mkXf 0 300 R0); mkInst 2 7 (mkXf 0 0 R0)],
    (mkInst 1 7 (mkXf 0 300 R0)), (mkInst 2 7 (mkXf 0 0 R0)), 0, (mkTrack 2 false 200 100 100), (mkPt 10 400).
  split; [apply exE_wf; [intros t [<- |[]]; cbn; unfold INT_MAX; lia|intros l [<- |[]]; unfold INT_MIN, INT_MAX; lia]|].
  split; [cbn; repeat constructor; cbn; intuition congruence|].
  split; [left; reflexivity|]. split; [right; left; reflexivity|].
  split; [unfold placed_nonneg, INT_MAX; cbn; lia|]. split; [unfold placed_nonneg, INT_MAX; cbn; lia|].
  repeat (split; [reflexivity|]).
  split; [split; [left; reflexivity|reflexivity]|]. split; [reflexivity|]. split; [left; reflexivity|].
  split; [vm_compute; intuition congruence|]. split; [exists 2; vm_compute; intuition congruence|].
  intros [k [K Q]]. match type of Q with ?c = _ => let v := eval vm_compute in c in change c with v in Q end. cbn [tp_start tp_space tp_num] in *. lia.
Qed.
Print Assumptions C127_pattern_end_refuted.

(* A pin on the top layer: its access points use the tracks of the layer below, which are not compared *)
Theorem C127_top_layer_refuted : exists E is i j k t p,
  wf E /\ NoDup (map i_id is) /\ In i is /\ In j is /\ placed_nonneg i /\ placed_nonneg j /\ i_master i = i_master j /\
  access_index E is i = Some k /\ access_index E is j = Some k /\ preferred E t /\ u_figs E (i_master i) = [u_top E] /\
  tp_layer t = u_top E - 2 /\ spans E t i /\ spans E t j /\
  in_box p (inst_box E i) /\ on_pattern t (coord t p) /\ ~ on_pattern t (coord t (used_place j (stored_place i p))).
Proof.
  exists (exE [mkTrack 6 false 50 100 100; mkTrack 8 true 50 100 100] [8]), [mkInst 1 7 (mkXf 0 300 R0); mkInst 2 7 (mkXf 0 620 R0)],
    (mkInst 1 7 (mkXf 0 300 R0)), (mkInst 2 7 (mkXf 0 620 R0)), 0, (mkTrack 6 false 50 100 100), (mkPt 10 450).
  split; [apply exE_wf; [intros t [<- |[<- |[]]]; cbn; unfold INT_MAX; lia|intros l [<- |[]]; unfold INT_MIN, INT_MAX; lia]|].
  split; [cbn; repeat constructor; cbn; intuition congruence|].
  split; [left; reflexivity|]. split; [right; left; reflexivity|].
  split; [unfold placed_nonneg, INT_MAX; cbn; lia|]. split; [unfold placed_nonneg, INT_MAX; cbn; lia|].
  repeat (split; [reflexivity|]).
  split; [split; [left; reflexivity|reflexivity]|]. split; [reflexivity|]. split; [reflexivity|].
  split; [split; reflexivity|]. split; [split; reflexivity|].
  split; [vm_compute; intuition congruence|]. split; [exists 4; vm_compute; intuition congruence|].
  intros [k [K Q]]. match type of Q with ?c = _ => let v := eval vm_compute in c in change c with v in Q end. cbn [tp_start tp_space tp_num] in *. lia.
Qed.
Print Assumptions C127_top_layer_refuted.

(* C128. The rows list every instance exactly once, in order; in a row each instance is at the height of the one before
   it and starts no later than where that one ends; and a row ends only where the next instance does not continue it. *)
Theorem C128_rows : forall E is,
  concat (rows E is) = is /\
  (forall row, In row (rows E is) -> row <> [] /\ forall a b, consecutive a b row -> continues E a b) /\
  (forall r1 r2 l1 a b l2, consecutive r1 r2 (rows E is) -> r1 = l1 ++ [a] -> r2 = b :: l2 -> ~ continues E a b).
Proof.
  intros E is. destruct (rows_spec E is) as [R1 [R2 R3]]. split; [exact R1|]. split; [exact R2|].
  intros r1 r2 l1 a b l2 C Q1 Q2. exact (R3 r1 r2 C a b l1 l2 Q1 Q2).
Qed.
Print Assumptions C128_rows.

(* However the instances are sorted by height and x: of a legal placement, abutting instances are neighbours in a row *)
Theorem C128_abutting_neighbours : forall E is a b,
  StronglySorted (fun x y => loc_lt y x = false) is -> NoDup is ->
  (forall i, In i is -> bleft (inst_box E i) = xo (i_xf i) /\ xo (i_xf i) < bright (inst_box E i)) ->
  (forall i j, In i is -> In j is -> i <> j -> yo (i_xf i) = yo (i_xf j) ->
     bright (inst_box E i) <= bleft (inst_box E j) \/ bright (inst_box E j) <= bleft (inst_box E i)) ->
  In a is -> In b is -> yo (i_xf a) = yo (i_xf b) -> bright (inst_box E a) = bleft (inst_box E b) ->
  exists row, In row (rows E is) /\ consecutive a b row.
Proof. exact abut_together. Qed.
Print Assumptions C128_abutting_neighbours.
(* The order is one std::sort may be given: lower before higher, at one height the left before the right, and only instances at one place are alike *)
Theorem C128_order : forall a b c,
  (loc_lt a b = true <-> yo (i_xf a) < yo (i_xf b) \/ (yo (i_xf a) = yo (i_xf b) /\ xo (i_xf a) < xo (i_xf b))) /\
  loc_lt a a = false /\ (loc_lt a b = true -> loc_lt b c = true -> loc_lt a c = true) /\
  ((loc_lt a b = false /\ loc_lt b a = false) <-> (xo (i_xf a) = xo (i_xf b) /\ yo (i_xf a) = yo (i_xf b))).
Proof. intros a b c. unfold loc_lt. zcases; intuition (try congruence; try discriminate; lia). Qed.
Print Assumptions C128_order.
Definition ex_row : list inst :=
  [mkInst 1 7 (mkXf 0 0 R0); mkInst 2 7 (mkXf 300 0 MY); mkInst 3 7 (mkXf 700 0 R0); mkInst 4 7 (mkXf 0 300 MX); mkInst 5 7 (mkXf 300 300 MX)].
Example C128_example :
  map (map i_id) (rows (exE [] [2]) ex_row) = [[1; 2]; [3]; [4; 5]] /\
  StronglySorted (fun x y => loc_lt y x = false) ex_row /\
  (forall i, In i ex_row -> bleft (inst_box (exE [] [2]) i) = xo (i_xf i) /\ xo (i_xf i) < bright (inst_box (exE [] [2]) i)).
Proof.
  split; [reflexivity|]. split.
  - repeat constructor.
  - intros i H. cbn in H. repeat destruct H as [<- |H]; try destruct H; vm_compute; split; reflexivity.
Qed.
