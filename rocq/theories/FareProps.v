(* C94 - C96: what the route found by the maze search costs. *)
From Verif Require Import Base Stl GeomModel GeomSpec GridModel GridSpec GridProofs GridProofs2 MazeModel MazeSpec MazeAbs MazeProofs FareModel FareSpec FareAbs FareProofs FareProofs2 FareProofs3.

(* C94: the fare of the route found exceeds the plain edge price of no other route to a destination by
   more than 2K+2 per step of that route and 2; K is 1 when the clip has no forbidden lengths *)
Theorem C94_nearly_cheapest F pick center aps fuel tbfuel g cc c1 c2 K g' f :
  search_ready g cc -> fare_ok F g -> charge_limit F g K -> lengths_fit F g cc -> dst_ok g aps -> heap_pick pick ->
  (grid_size g <= tbfuel)%nat ->
  fare_search F pick center aps fuel tbfuel g cc c1 c2 = SFound g' f ->
  (exists s, In s cc /\ isDst g s = true /\ fpath f = [s]) \/
  (exists s ds, In s cc /\ legal g s ds /\ route g cc (stops s ds) /\ bends DUnk (fpath f) (stops s ds) /\
     forall s' ds', In s' cc -> legal g s' ds' -> isDst g (stop s' ds') = true ->
       fare F g s ds <= price F g s' ds' + (2 * K + 2) * Z.of_nat (length ds') + 2).
Proof. apply fare_near. Qed.
Print Assumptions C94_nearly_cheapest.

(* C95: the estimate never exceeds what the rest of the way costs *)
Theorem C95_estimate_is_a_lower_bound F g aps p l ds :
  fare_ok F g -> edges_inside g -> dst_ok g aps -> valid g p ->
  on_edges g p ds -> isDst g (stop p ds) = true ->
  getEstCost F g p (fst (dst_box g aps)) (snd (dst_box g aps)) l <= price F g p ds + turns l ds.
Proof. apply est_below. Qed.
Print Assumptions C95_estimate_is_a_lower_bound.

(* C96: the entry the search builds by following a trip *)
Fixpoint trip_entry (F : fenv) (d1 d2 : midx) (center : point) (g : gg) (s : midx) (ds : list dir) : entry fext :=
  match ds with
  | [] => mkEntry s 0 (finit F d1 d2 center g s)
  | d :: r => let e := trip_entry F d1 d2 center g s r in
              mkEntry (getNextGrid (epos e) d) (snd (shiftAddBuffer (ebuf e) d)) (fnext F d1 d2 center g e d)
  end.
Lemma trip_went F d1 d2 center g s ds : trip_entry F d1 d2 center g s ds = went F g d1 d2 center (s, ds).
Proof.
  induction ds as [|d r IH]; [reflexivity|]. cbn [trip_entry]. rewrite IH. change (s, d :: r) with (wadd (s, r) d).
  unfold went at 4. rewrite wext_add, wpos_add, wlast2_add, wlast_add. unfold went at 1 2. cbn [epos ebuf].
  rewrite shiftAdd_enc, getNextGrid_step. reflexivity.
Qed.
Theorem C96_cost_is_the_fare F d1 d2 center g cc s ds :
  fare_ok F g -> edges_inside g -> lengths_fit F g cc -> In s cc -> legal g s ds -> NoDup (stops s ds) ->
  let e := trip_entry F d1 d2 center g s ds in
  epos e = stop s ds /\ x_path (eext e) = fare F g s ds /\
  x_cost (eext e) = fare F g s ds + getEstCost F g (stop s ds) d1 d2 (match ds with [] => DUnk | d :: _ => d end).
Proof.
  intros FO EI LF Hs L N. cbn zeta. rewrite trip_went. unfold went. cbn [epos eext].
  rewrite (path_gc F g d1 d2 center), (cost_ff F g d1 d2 center FO), (est_split F g FO). unfold ff, hh.
  rewrite !stop_wpos, (fare_cost F g cc d1 d2 center FO EI s ds Hs LF L N).
  split; [reflexivity|]. split; [reflexivity|]. destruct ds; unfold wlast; cbn [snd]; lia.
Qed.
Print Assumptions C96_cost_is_the_fare.
(* a via or a turn at a forbidden distance from the last via pays for its length *)
Theorem C96_clashes_are_charged F d1 d2 center g cc s ds d :
  fare_ok F g -> edges_inside g -> lengths_fit F g cc -> In s cc -> legal g s (d :: ds) -> NoDup (stops s (d :: ds)) ->
  via_clash F g s ds d = true \/ turn_clash F g s ds d = true ->
  x_path (eext (trip_entry F d1 d2 center g s ds)) + edge_price F g (stop s ds) d +
    Z.min (fe_drc F) (fe_marker F) * hop F g (stop s ds) d <= x_path (eext (trip_entry F d1 d2 center g s (d :: ds))).
Proof.
  intros FO EI LF Hs L N C.
  destruct (C96_cost_is_the_fare F d1 d2 center g cc s (d :: ds) FO EI LF Hs L N) as (_ & -> & _).
  cbn [stops] in N. inversion N; subst.
  destruct (C96_cost_is_the_fare F d1 d2 center g cc s ds FO EI LF Hs (proj1 L) ltac:(assumption)) as (_ & -> & _).
  cbn [fare]. unfold surcharge. pose proof (hop_nn F g (stop s ds) d).
  assert (0 <= bend ds d) by (unfold bend; destruct ds as [|e ?]; [lia|]; destruct (dir_eqb e d); lia).
  destruct FO as (_ & _ & C1 & C2 & _).
  destruct C as [-> | ->]; [destruct (turn_clash F g s ds d)|destruct (via_clash F g s ds d)]; destruct (fe_late F); nia.
Qed.
Print Assumptions C96_clashes_are_charged.

(* ---- examples ---- *)
(* the member the queue delivers: the first one not less than any other *)
Fixpoint argmax (i : nat) (b : nat * entry fext) (l : list (entry fext)) : nat :=
  match l with [] => fst b | e :: r => argmax (S i) (if wf_lt (snd b) e then (i, e) else b) r end.
Definition top_pick (k : nat) (l : list (entry fext)) : nat := match l with [] => O | e :: r => argmax 1 (O, e) r end.
Definition wrank (e : entry fext) := (- x_cost (eext e), - x_dist (eext e), mz (epos e), x_path (eext e)).
Lemma wf_lt_trans a b c : wf_lt b a = false -> wf_lt c b = false -> wf_lt c a = false.
Proof.
  unfold wf_lt. intros H1 H2.
  destruct (x_cost (eext b) =? x_cost (eext a)) eqn:A1, (x_cost (eext c) =? x_cost (eext b)) eqn:A2, (x_cost (eext c) =? x_cost (eext a)) eqn:A3; cbn [negb] in *; try lia;
  destruct (x_dist (eext b) =? x_dist (eext a)) eqn:B1, (x_dist (eext c) =? x_dist (eext b)) eqn:B2, (x_dist (eext c) =? x_dist (eext a)) eqn:B3; cbn [negb] in *; try lia;
  destruct (mz (epos b) =? mz (epos a)) eqn:C1, (mz (epos c) =? mz (epos b)) eqn:C2, (mz (epos c) =? mz (epos a)) eqn:C3; cbn [negb] in *; lia.
Qed.
Lemma wf_lt_asym a b : wf_lt a b = true -> wf_lt b a = false.
Proof.
  unfold wf_lt. intros H.
  destruct (x_cost (eext a) =? x_cost (eext b)) eqn:A1, (x_cost (eext b) =? x_cost (eext a)) eqn:A2; cbn [negb] in *; try lia;
  destruct (x_dist (eext a) =? x_dist (eext b)) eqn:B1, (x_dist (eext b) =? x_dist (eext a)) eqn:B2; cbn [negb] in *; try lia;
  destruct (mz (epos a) =? mz (epos b)) eqn:C1, (mz (epos b) =? mz (epos a)) eqn:C2; cbn [negb] in *; lia.
Qed.
Lemma wf_lt_irrefl a : wf_lt a a = false.
Proof. unfold wf_lt. rewrite !Z.eqb_refl. cbn. lia. Qed.
Lemma argmax_ok r : forall pre i b, length pre = i -> nth_error pre (fst b) = Some (snd b) ->
  (forall e, In e pre -> wf_lt (snd b) e = false) ->
  exists e, nth_error (pre ++ r) (argmax i b r) = Some e /\ forall e', In e' (pre ++ r) -> wf_lt e e' = false.
Proof.
  induction r as [|x r IH]; intros pre i b Hl Hb Hm.
  - rewrite app_nil_r. exists (snd b). auto.
  - cbn [argmax]. replace (pre ++ x :: r) with ((pre ++ [x]) ++ r) by (rewrite <- app_assoc; reflexivity).
    apply IH; [rewrite app_length; cbn; lia| |].
    + destruct (wf_lt (snd b) x); cbn [fst snd].
      * rewrite nth_error_app2 by lia. replace (i - length pre)%nat with O by lia. reflexivity.
      * rewrite nth_error_app1; [assumption|]. apply nth_error_Some. congruence.
    + intros e He. apply in_app_iff in He. destruct (wf_lt (snd b) x) eqn:E; cbn [snd].
      * destruct He as [He | [<- | []]]; [|apply wf_lt_irrefl]. apply (wf_lt_trans e (snd b)); [apply Hm; assumption|apply wf_lt_asym; assumption].
      * destruct He as [He | [<- | []]]; [apply Hm; assumption|assumption].
Qed.
Example top_pick_ok : heap_pick top_pick.
Proof.
  intros k [|e r] H; [congruence|]. unfold top_pick. apply (argmax_ok r [e] 1 (O, e)); [reflexivity|reflexivity|].
  intros e' [<- | []]. apply wf_lt_irrefl.
Qed.
(* enough for the lengths to fit: few points and short edges *)
Lemma legal_valid g s ds : edges_inside g -> valid g s -> legal g s ds -> forall p, In p (stops s ds) -> valid g p.
Proof.
  intros EI V. induction ds as [|d r IH]; intros L p Hp; [destruct Hp as [<- | []]; assumption|].
  destruct L as (L & D & E & _). destruct Hp as [<- | Hp]; [|apply IH; assumption]. cbn [stop]. apply (EI _ _ D E).
Qed.
Lemma stops_len s ds : length (stops s ds) = S (length ds).
Proof. induction ds; cbn; [reflexivity|]. rewrite IHds. reflexivity. Qed.
Lemma fit_small F g cc M : search_ready g cc -> 0 <= M ->
  (forall p d, d <> DUnk -> hasEdge g p d = true -> hop F g p d <= M) -> Z.of_nat (grid_size g) * M < FMAX ->
  forall s ds a b v, In s cc -> legal g s ds -> NoDup (stops s ds) -> since_via F g s ds = Some (a, b, v) -> a < FMAX /\ b < FMAX.
Proof.
  intros R M0 HM SM s ds a b v Hs L N H.
  assert (B : forall ds a b v, legal g s ds -> since_via F g s ds = Some (a, b, v) -> 0 <= a <= Z.of_nat (length ds) * M /\ 0 <= b <= Z.of_nat (length ds) * M).
  { clear - M0 HM. induction ds as [|d r IH]; intros a b v L H; [discriminate|].
    destruct L as (L & D & E & _). specialize (HM _ _ D E). pose proof (hop_nn F g (stop s r) d).
    cbn [since_via length] in *. destruct (since_via F g s r) as [[[a0 b0] v0]|].
    - destruct (IH a0 b0 v0 L eq_refl). destruct d; inversion H; subst; nia.
    - destruct d; inversion H; subst; nia. }
  destruct (B ds a b v L H) as [A1 A2].
  assert (Ln : (length ds < grid_size g)%nat).
  { pose proof (NoDup_incl_length N (l' := points g)) as X. rewrite stops_len, points_len in X. unfold grid_size.
    enough (incl (stops s ds) (points g)) by (specialize (X H0); lia).
    intros p Hp. apply points_in. apply (legal_valid g s ds); try assumption; [apply R|apply R; assumption]. }
  nia.
Qed.

(* a 3 x 3 x 2 grid with a forbidden via distance of 1; the search has to change the layer twice *)
Definition toll0 : gg := mkGG [0; 1; 3] [0; 1; 3] [2; 4] [true; false] (fun _ => 0) (fun _ => false)
  (fun _ => false) (fun _ => false) (fun _ => true).
Definition toll_die : box := mkBox (mkPt 0 0) (mkPt 100 100).
Definition toll_ops : list gop :=
  [AddEdge (mkMI 0 0 0) DE toll_die false; AddEdge (mkMI 1 0 0) DE toll_die false; AddEdge (mkMI 0 0 0) DU toll_die false;
   AddEdge (mkMI 1 0 0) DU toll_die false; AddEdge (mkMI 2 0 0) DU toll_die false; AddEdge (mkMI 1 0 1) DN toll_die false;
   AddEdge (mkMI 1 1 1) DN toll_die false; AddEdge (mkMI 1 1 0) DU toll_die false; AddEdge (mkMI 1 2 0) DU toll_die false;
   AddEdge (mkMI 1 1 0) DE toll_die false; AddEdge (mkMI 1 2 0) DE toll_die false; AddEdge (mkMI 2 1 0) DN toll_die false;
   SetGridCostE (mkMI 1 1 0); AddDRCVia (mkMI 1 0 0)].
Definition toll : gg := setDst (setSrc (grun toll0 toll_ops) (mkMI 0 0 0)) (mkMI 2 2 0).
Definition toll_env : fenv := mkFE (fun z => 4 * z) (fun _ => 2)
  (fun z prev cur isx len => (z =? 1) && negb isx && (len =? 1)) (fun _ _ _ _ => false) 8 32 false false (fun _ => 1) 2 4.
Lemma toll_ready : search_ready toll [mkMI 0 0 0].
Proof.
  split; [|split].
  - apply (grun_edges_inside toll_ops toll0).
    { repeat (apply Forall_cons; [vm_compute; intuition discriminate|]). apply Forall_nil. }
    intros p d Hd H. exfalso. rewrite hasEdge_read in H by assumption.
    apply andb_true_iff in H as [_ H]. revert H. unfold read. cbn [toll0 gbits].
    rewrite Z.div_0_l by (destruct d; cbn; lia). rewrite Z.mod_0_l by (destruct d; cbn; lia). discriminate.
  - intros s [<-|[]]. split; [unfold valid, on_grid; vm_compute; intuition discriminate|reflexivity].
  - intros p _. reflexivity.
Qed.
Lemma sorted3 a b c : a < b -> b < c -> sorted_lt [a; b; c].
Proof. intros A B i j Hij Hj. cbn in Hj. destruct i as [|[|[|i]]], j as [|[|[|j]]]; cbn; lia. Qed.
Lemma toll_shape : gxs toll = [0; 1; 3] /\ gys toll = [0; 1; 3] /\ gzs toll = [2; 4].
Proof. vm_compute. auto. Qed.
Lemma toll_ok : fare_ok toll_env toll.
Proof.
  unfold fare_ok, grid_sorted, nz. destruct toll_shape as (-> & -> & ->). split; [split; [|split]|].
  - apply sorted3; lia.
  - apply sorted3; lia.
  - intros i j Hij Hj. cbn in Hj. destruct i as [|[|i]], j as [|[|j]]; cbn; lia.
  - cbn [toll_env fe_height fe_drc fe_marker fe_width fe_pen]. repeat split; intros; lia.
Qed.
Lemma toll_hop : forall p d, d <> DUnk -> hasEdge toll p d = true -> hop toll_env toll p d <= 4.
Proof.
  intros p d D E. destruct (proj1 toll_ready p d D E) as [V _]. apply points_in in V.
  assert (C : forallb (fun p => forallb (fun d => hop toll_env toll p d <=? 4) [DN; DE; DS; DW; DU; DD]) (points toll) = true).
  { vm_compute. reflexivity. }
  rewrite forallb_forall in C. specialize (C p V). rewrite forallb_forall in C. specialize (C d (dirs6_in d D)). lia.
Qed.
Example toll_limit : charge_limit toll_env toll 129.
Proof. split; [lia|]. intros p d D E. right. pose proof (toll_hop p d D E). cbn [toll_env fe_drc fe_marker]. lia. Qed.
Example toll_fit : lengths_fit toll_env toll [mkMI 0 0 0].
Proof.
  split; [|split].
  - intros z a b c. cbn [toll_env fe_v2v]. rewrite !andb_false_r. reflexivity.
  - reflexivity.
  - apply (fit_small toll_env toll [mkMI 0 0 0] 4 toll_ready); [lia|exact toll_hop|]. vm_compute. reflexivity.
Qed.
Example toll_dst : dst_ok toll [mkMI 2 2 0].
Proof.
  split.
  - intros p [<- | []]. unfold valid, on_grid. vm_compute. intuition discriminate.
  - intros p V H. left. apply points_in in V.
    assert (C : forallb (fun p => if isDst toll p then mi_same p (mkMI 2 2 0) else true) (points toll) = true) by (vm_compute; reflexivity).
    rewrite forallb_forall in C. specialize (C p V). rewrite H in C. destruct p as [x y z]. unfold mi_same in C. cbn [mx my mz] in C.
    f_equal; lia.
Qed.
(* the via distance of 1 is avoided *)
Example toll_found :
  match fare_search toll_env top_pick (mkPt 0 0) [mkMI 2 2 0] 100 100 toll [mkMI 0 0 0] (mkMI 0 0 0) (mkMI 0 0 0) with
  | SFound _ f => fpath f = [mkMI 2 2 0; mkMI 1 2 0; mkMI 1 2 1; mkMI 1 0 1; mkMI 1 0 0; mkMI 0 0 0]
  | _ => False
  end.
Proof. vm_compute. reflexivity. Qed.
(* the route found need not be a cheapest one: 8 where 7 is possible *)
Definition odd0 : gg := mkGG [0; 1; 2] [0; 1; 3] [2] [true] (fun _ => 0) (fun _ => false)
  (fun _ => false) (fun _ => false) (fun _ => true).
Definition odd_ops : list gop :=
  [AddEdge (mkMI 0 0 0) DE toll_die false; AddEdge (mkMI 0 0 0) DN toll_die false; AddEdge (mkMI 0 1 0) DE toll_die false;
   AddEdge (mkMI 0 2 0) DE toll_die false; AddEdge (mkMI 1 0 0) DN toll_die false; AddEdge (mkMI 1 1 0) DE toll_die false;
   AddEdge (mkMI 1 1 0) DN toll_die false; AddEdge (mkMI 1 2 0) DE toll_die false; AddEdge (mkMI 2 0 0) DN toll_die false].
Definition odd : gg := setDst (setSrc (grun odd0 odd_ops) (mkMI 0 0 0)) (mkMI 2 2 0).
Definition plain_env : fenv := mkFE (fun z => 4 * z) (fun _ => 2) (fun _ _ _ _ _ => false) (fun _ _ _ _ => false) 8 32 false false (fun _ => 1) 2 4.
Lemma odd_ready : search_ready odd [mkMI 0 0 0].
Proof.
  split; [|split].
  - apply (grun_edges_inside odd_ops odd0); [repeat constructor|]. intros p d Hd H. exfalso. rewrite hasEdge_read in H by assumption.
    apply andb_true_iff in H as [_ H]. revert H. unfold read. cbn [odd0 gbits].
    rewrite Z.div_0_l by (destruct d; cbn; lia). rewrite Z.mod_0_l by (destruct d; cbn; lia). discriminate.
  - intros s [<-|[]]. split; [unfold valid, on_grid; vm_compute; intuition discriminate|reflexivity].
  - intros p _. reflexivity.
Qed.
Lemma odd_shape : gxs odd = [0; 1; 2] /\ gys odd = [0; 1; 3] /\ gzs odd = [2].
Proof. vm_compute. auto. Qed.
Lemma odd_ok : fare_ok plain_env odd.
Proof.
  unfold fare_ok, grid_sorted, nz. destruct odd_shape as (-> & -> & ->). split; [split; [|split]|].
  - apply sorted3; lia.
  - apply sorted3; lia.
  - intros i j Hij Hj. cbn in Hj. lia.
  - cbn [plain_env fe_height fe_drc fe_marker fe_width fe_pen]. repeat split; intros; lia.
Qed.
Lemma odd_dst : dst_ok odd [mkMI 2 2 0].
Proof.
  split.
  - intros p [<- | []]. unfold valid, on_grid. vm_compute. intuition discriminate.
  - intros p V H. left. apply points_in in V.
    assert (C : forallb (fun p => if isDst odd p then mi_same p (mkMI 2 2 0) else true) (points odd) = true) by (vm_compute; reflexivity).
    rewrite forallb_forall in C. specialize (C p V). rewrite H in C. destruct p as [x y z]. unfold mi_same in C. cbn [mx my mz] in C.
    f_equal; lia.
Qed.
Lemma odd_hop : forall p d, d <> DUnk -> hasEdge odd p d = true -> hop plain_env odd p d <= 4.
Proof.
  intros p d D E. destruct (proj1 odd_ready p d D E) as [V _]. apply points_in in V.
  assert (C : forallb (fun p => forallb (fun d => hop plain_env odd p d <=? 4) [DN; DE; DS; DW; DU; DD]) (points odd) = true).
  { vm_compute. reflexivity. }
  rewrite forallb_forall in C. specialize (C p V). rewrite forallb_forall in C. specialize (C d (dirs6_in d D)). lia.
Qed.
Theorem C94_cheapest_refuted : exists F pick center aps fuel tbfuel g cc c1 c2 g' f s ds s' ds',
  search_ready g cc /\ fare_ok F g /\ charge_limit F g 1 /\ lengths_fit F g cc /\ dst_ok g aps /\ heap_pick pick /\
  (grid_size g <= tbfuel)%nat /\
  fare_search F pick center aps fuel tbfuel g cc c1 c2 = SFound g' f /\ fpath f = stops s ds /\
  In s' cc /\ legal g s' ds' /\ isDst g (stop s' ds') = true /\ fare F g s' ds' < fare F g s ds.
Proof.
  exists plain_env, top_pick, (mkPt 0 0), [mkMI 2 2 0], 100%nat, 100%nat, odd, [mkMI 0 0 0], (mkMI 0 0 0), (mkMI 0 0 0).
  assert (FD : exists g' f, fare_search plain_env top_pick (mkPt 0 0) [mkMI 2 2 0] 100 100 odd [mkMI 0 0 0] (mkMI 0 0 0) (mkMI 0 0 0) = SFound g' f /\
    fpath f = stops (mkMI 0 0 0) [DE; DN; DE; DN]).
  { assert (X : match fare_search plain_env top_pick (mkPt 0 0) [mkMI 2 2 0] 100 100 odd [mkMI 0 0 0] (mkMI 0 0 0) (mkMI 0 0 0) with
      | SFound _ f => fpath f = stops (mkMI 0 0 0) [DE; DN; DE; DN] | _ => False end) by (vm_compute; reflexivity).
    destruct (fare_search _ _ _ _ _ _ _ _ _ _) as [g' f|g'|g'|]; try contradiction. eauto. }
  destruct FD as (g' & f & E1 & E2).
  exists g', f, (mkMI 0 0 0), [DE; DN; DE; DN], (mkMI 0 0 0), [DE; DN; DN; DE].
  split; [exact odd_ready|]. split; [exact odd_ok|]. split; [split; [lia|]; intros p d _ _; left; split; reflexivity|].
  split. { split; [reflexivity|]. split; [reflexivity|]. apply (fit_small plain_env odd [mkMI 0 0 0] 4 odd_ready); [lia|exact odd_hop|vm_compute; reflexivity]. }
  split; [exact odd_dst|]. split; [exact top_pick_ok|]. split; [vm_compute; lia|]. split; [exact E1|]. split; [exact E2|].
  split; [left; reflexivity|]. split; [vm_compute; intuition discriminate|]. split; [vm_compute; reflexivity|]. vm_compute. reflexivity.
Qed.
Print Assumptions C94_cheapest_refuted.
Example odd_estimate : (getEstCost plain_env odd (mkMI 0 0 0) (mkMI 2 2 0) (mkMI 2 2 0) DN, price plain_env odd (mkMI 0 0 0) [DE; DN; DN; DE] + turns DN [DE; DN; DN; DE]) = (6, 8).
Proof. vm_compute. reflexivity. Qed.

(* the extra penalty of one process and late passes breaks the bound of C95 *)
Theorem C95_penalty_overestimates : exists F g aps p l ds,
  fare_ok (mkFE (fe_height F) (fe_width F) (fe_v2v F) (fe_turn F) (fe_drc F) (fe_marker F) (fe_late F) false (fe_pitch F) (fe_bottom F) (fe_top F)) g /\
  fe_pen F = true /\ edges_inside g /\ dst_ok g aps /\ valid g p /\ on_edges g p ds /\ isDst g (stop p ds) = true /\
  price F g p ds + turns l ds < getEstCost F g p (fst (dst_box g aps)) (snd (dst_box g aps)) l.
Proof.
  exists (mkFE (fun z => 4 * z) (fun _ => 2) (fun _ _ _ _ _ => false) (fun _ _ _ _ => false) 8 32 false true (fun _ => 1) 2 2), odd, [mkMI 2 2 0], (mkMI 1 1 0), DUnk, [DE; DN].
  split; [exact odd_ok|]. split; [reflexivity|]. split; [apply odd_ready|]. split; [exact odd_dst|].
  split; [unfold valid, on_grid; vm_compute; intuition discriminate|]. split; [vm_compute; intuition discriminate|].
  split; [vm_compute; reflexivity|]. vm_compute. reflexivity.
Qed.
Print Assumptions C95_penalty_overestimates.

(* a via at a forbidden distance after a turn costs no more than any other bend *)
Definition elbow0 : gg := mkGG [0; 1] [0; 1] [2; 4] [true; false] (fun _ => 0) (fun _ => false)
  (fun _ => false) (fun _ => false) (fun _ => true).
Definition elbow_ops : list gop :=
  [AddEdge (mkMI 0 0 0) DE toll_die false; AddEdge (mkMI 1 0 0) DN toll_die false; AddEdge (mkMI 1 1 0) DU toll_die false].
Definition elbow : gg := setDst (setSrc (grun elbow0 elbow_ops) (mkMI 0 0 0)) (mkMI 1 1 1).
Definition elbow_env : fenv := mkFE (fun z => 4 * z) (fun _ => 2) (fun _ _ _ _ _ => false) (fun _ _ _ len => len =? 1) 8 32 false false (fun _ => 1) 2 4.
Lemma elbow_ready : search_ready elbow [mkMI 0 0 0].
Proof.
  split; [|split].
  - apply (grun_edges_inside elbow_ops elbow0); [repeat constructor|]. intros p d Hd H. exfalso. rewrite hasEdge_read in H by assumption.
    apply andb_true_iff in H as [_ H]. revert H. unfold read. cbn [elbow0 gbits].
    rewrite Z.div_0_l by (destruct d; cbn; lia). rewrite Z.mod_0_l by (destruct d; cbn; lia). discriminate.
  - intros s [<-|[]]. split; [unfold valid, on_grid; vm_compute; intuition discriminate|reflexivity].
  - intros p _. reflexivity.
Qed.
Lemma elbow_shape : gxs elbow = [0; 1] /\ gys elbow = [0; 1] /\ gzs elbow = [2; 4].
Proof. vm_compute. auto. Qed.
Lemma sorted2 a b : a < b -> sorted_lt [a; b].
Proof. intros A i j Hij Hj. cbn in Hj. destruct i as [|[|i]], j as [|[|j]]; cbn; lia. Qed.
Lemma elbow_ok : fare_ok elbow_env elbow.
Proof.
  unfold fare_ok, grid_sorted, nz. destruct elbow_shape as (-> & -> & ->). split; [split; [|split]; apply sorted2; lia|].
  cbn [elbow_env fe_height fe_drc fe_marker fe_width fe_pen]. repeat split; intros; lia.
Qed.
Lemma elbow_hop : forall p d, d <> DUnk -> hasEdge elbow p d = true -> hop elbow_env elbow p d <= 4.
Proof.
  intros p d D E. destruct (proj1 elbow_ready p d D E) as [V _]. apply points_in in V.
  assert (C : forallb (fun p => forallb (fun d => hop elbow_env elbow p d <=? 4) [DN; DE; DS; DW; DU; DD]) (points elbow) = true).
  { vm_compute. reflexivity. }
  rewrite forallb_forall in C. specialize (C p V). rewrite forallb_forall in C. specialize (C d (dirs6_in d D)). lia.
Qed.
Theorem C96_via_after_turn_refuted : exists F d1 d2 center g cc s ds d,
  fare_ok F g /\ edges_inside g /\ lengths_fit F g cc /\ In s cc /\ legal g s (d :: ds) /\ NoDup (stops s (d :: ds)) /\
  0 < fe_drc F /\ 0 < fe_marker F /\ 0 < hop F g (stop s ds) d /\
  via_after_turn F g s ds d = true /\
  x_path (eext (trip_entry F d1 d2 center g s (d :: ds))) =
    x_path (eext (trip_entry F d1 d2 center g s ds)) + edge_price F g (stop s ds) d + 1.
Proof.
  exists elbow_env, (mkMI 1 1 1), (mkMI 1 1 1), (mkPt 0 0), elbow, [mkMI 0 0 0], (mkMI 0 0 0), [DN; DE], DU.
  split; [exact elbow_ok|]. split; [apply elbow_ready|].
  split. { split; [reflexivity|]. split; [reflexivity|]. apply (fit_small elbow_env elbow [mkMI 0 0 0] 4 elbow_ready); [lia|exact elbow_hop|vm_compute; reflexivity]. }
  split; [left; reflexivity|]. split; [vm_compute; intuition discriminate|].
  split. { cbn. repeat constructor; cbn; intuition discriminate. }
  split; [reflexivity|]. split; [reflexivity|]. split; [vm_compute; reflexivity|]. split; vm_compute; reflexivity.
Qed.
Print Assumptions C96_via_after_turn_refuted.
(* the forbidden via distance of the grid above: 1 + 8 * 4 more than the edges *)
Example toll_clash :
  via_clash toll_env toll (mkMI 0 0 0) [DN; DU; DE] DD = true /\
  legal toll (mkMI 0 0 0) [DD; DN; DU; DE] /\
  fare toll_env toll (mkMI 0 0 0) [DD; DN; DU; DE] - price toll_env toll (mkMI 0 0 0) [DD; DN; DU; DE] = 3 + 8 * 4.
Proof. split; [vm_compute; reflexivity|]. split; [vm_compute; intuition discriminate|vm_compute; reflexivity]. Qed.
