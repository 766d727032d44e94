(* C22 - C24, C54: routing one net.  All theorems hold for all cost functions and queue orders of the
   searches. *)
From Verif Require Import Base GeomModel GeomSpec GridModel GridSpec GridProofs GridProofs2 MazeModel MazeSpec MazeAbs MazeProofs MazeProps NetModel NetSpec NetProofs NetProofs2 NetProofs3 NetProofs4 NetProofs5.
From Coq Require Import Permutation.

(* C22 *)
Theorem C22_routed_net_connected sd dd E next_ext init_ext pick n fuel tbfuel g pins st :
  (forall l a, 0 <= sd l a) -> (forall c1 c2 a, dd c1 c2 a < 2 ^ 31 - 1) ->
  net_ready g pins -> (grid_size g <= tbfuel)%nat ->
  routeNet sd dd E next_ext init_ext pick n fuel tbfuel g pins = ROk st ->
  exists hub, forall p, In p pins -> exists a, In a (paps p) /\ joined (rsfigs st) hub a.
Proof.
  intros Hs Hd R F H. pose proof (routeNet_spec pins sd dd Hs Hd g R E next_ext init_ext pick n fuel tbfuel F) as S.
  rewrite H in S. destruct S as (_ & S & _). destruct S as [(p & -> & ->)|[(-> & _)|(hub & pts & T & Hq)]].
  - destruct R as (_ & _ & _ & _ & R). destruct (R p (or_introl eq_refl)) as [Hn _].
    destruct (paps p) as [|a l] eqn:Ea; [contradiction|]. exists a. intros q [<-|[]]. exists a. rewrite Ea. split; [cbn; auto|apply joined_refl].
  - exists (mkMI 0 0 0). intros p [].
  - exists hub. intros p Hp. destruct (Hq p Hp) as (a & Ha & Hi). exists a. split; [assumption|]. apply T. assumption.
Qed.
Print Assumptions C22_routed_net_connected.

(* C23 *)
Theorem C23_one_search_per_pin sd dd E next_ext init_ext pick fuel tbfuel g pins :
  (forall l a, 0 <= sd l a) -> (forall c1 c2 a, dd c1 c2 a < 2 ^ 31 - 1) ->
  net_ready g pins -> (grid_size g <= tbfuel)%nat ->
  match routeNet sd dd E next_ext init_ext pick (length pins - 1) fuel tbfuel g pins with
  | ROk st | RFail st => (rsn st <= length pins - 1)%nat
  | RNull _ | RMore _ => False
  | RHang st => Z.of_nat fuel <= Z.of_nat (length (rscc st)) * 7 ^ Z.of_nat (grid_size g)
  end.
Proof.
  intros Hs Hd R F. pose proof (routeNet_spec pins sd dd Hs Hd g R E next_ext init_ext pick (length pins - 1) fuel tbfuel F) as S.
  destruct (routeNet _ _ _ _ _ _ _ _ _ _ _); try assumption; [apply S|lia].
Qed.
Print Assumptions C23_one_search_per_pin.

(* C24 *)
Theorem C24_wires_cover_path_exactly g rap path w : bends DUnk path w ->
  Permutation (flat_map unit_steps (writePath g rap path)) (walk_steps w) /\
  Forall (well_formed g rap) (writePath g rap path).
Proof. exact (writePath_spec g rap DUnk path w). Qed.
Print Assumptions C24_wires_cover_path_exactly.
Theorem C24_routed_objects_well_formed sd dd E next_ext init_ext pick n fuel tbfuel g pins st :
  (forall l a, 0 <= sd l a) -> (forall c1 c2 a, dd c1 c2 a < 2 ^ 31 - 1) ->
  net_ready g pins -> (grid_size g <= tbfuel)%nat ->
  routeNet sd dd E next_ext init_ext pick n fuel tbfuel g pins = ROk st ->
  exists rap, Forall (well_formed g rap) (rsfigs st).
Proof.
  intros Hs Hd R F H. pose proof (routeNet_spec pins sd dd Hs Hd g R E next_ext init_ext pick n fuel tbfuel F) as S.
  rewrite H in S. apply S.
Qed.
Print Assumptions C24_routed_objects_well_formed.

(* C54 *)
Theorem C54_routed_net_is_a_tree sd dd E next_ext init_ext pick n fuel tbfuel g pins st :
  (forall l a, 0 <= sd l a) -> (forall c1 c2 a, dd c1 c2 a < 2 ^ 31 - 1) ->
  net_ready g pins -> (grid_size g <= tbfuel)%nat -> (2 <= length pins)%nat ->
  routeNet sd dd E next_ext init_ext pick n fuel tbfuel g pins = ROk st ->
  exists pts, is_tree (rsfigs st) pts.
Proof.
  intros Hs Hd R F L H. pose proof (routeNet_spec pins sd dd Hs Hd g R E next_ext init_ext pick n fuel tbfuel F) as S.
  rewrite H in S. destruct S as (_ & S & _). destruct S as [(p & -> & _)|[(-> & _)|(hub & pts & T & Hq)]]; [cbn in L; lia|cbn in L; lia|].
  exists pts. destruct T as (T1 & T2 & T3 & T4 & T5 & T6). split; [assumption|]. split; [assumption|]. split; [assumption|].
  split; [|assumption]. intros u v Hu Hv. eapply joined_trans; [apply joined_sym|]; apply T5; assumption.
Qed.
Print Assumptions C54_routed_net_is_a_tree.

(* three pins on the maze of MazeProps *)
Definition net_pins : list dpin :=
  [mkPin 5 [mkMI 0 0 0] true; mkPin 7 [mkMI 3 0 0; mkMI 2 1 1] false; mkPin 9 [mkMI 1 1 0] true].
Definition maze2 : gg := grun maze0 maze_ops.
Example net_ready_ex : net_ready maze2 net_pins.
Proof.
  split; [apply (grun_edges_inside maze_ops maze0); [repeat constructor|apply zero_edges_inside; reflexivity]|].
  split; [reflexivity|]. split; [reflexivity|]. split.
  - repeat constructor; cbn; intuition discriminate.
  - assert (V : forall a, In a [mkMI 0 0 0; mkMI 3 0 0; mkMI 2 1 1; mkMI 1 1 0] -> valid maze2 a).
    { intros a [<-|[<-|[<-|[<-|[]]]]]; unfold valid, on_grid; vm_compute; intuition discriminate. }
    intros p [<-|[<-|[<-|[]]]]; cbn [paps]; (split; [discriminate|]); intros a Ha; apply V; cbn in *; tauto.
Qed.
Example net_routed :
  match routeNet (fun _ a => mx a) (fun _ _ a => my a) unit (fun _ _ _ _ => tt) (fun _ _ _ => tt)
    (fun _ _ _ => O) 2 100 100 maze2 net_pins with
  | ROk st => rsn st = 2%nat /\ length (rsfigs st) = 6%nat /\ rsunc st = []
  | _ => False end.
Proof. vm_compute. repeat split. Qed.
