(* C82-C84: the rip-up and reroute loop of a clip. *)
From Verif Require Import Base QueueModel QueueSpec QueueProofs.

(* The loop ends, whatever the router does and whatever violations the checks return; every part of a net is
   routed at most max(limit, 1) times, only [limit] times if the loop starts from violations. *)
Theorem C82_loop_ends : forall W movable drNets limit ord route_net gc_net gc_obj (dnets : list nat),
  (forall l x, In x (ord l) <-> In x l) -> (forall f d, In d (drNets f) -> In d dnets) ->
  forall w ripupMode nets ms, incl nets dnets ->
  exists F r, forall fuel, (F <= fuel)%nat ->
    route_queue W movable drNets limit ord route_net gc_net gc_obj fuel w ripupMode nets ms = Some r.
Proof.
  intros W movable drNets limit ord route_net gc_net gc_obj dnets Ho Hd w mode nets ms Hn. unfold route_queue.
  destruct (main_halts W movable drNets limit ord Ho route_net gc_net gc_obj dnets Hd (S (remaining limit dnets (fun _ => 0%nat))) w (fun _ => 0%nat) (init_queue movable drNets limit ord mode nets ms)) as (F & H).
  - lia.
  - assert (U : QI limit dnets (fun _ => 0%nat) ([] ++ pushes movable drNets limit ord (fun _ => 0%nat) (Some ms))) by (apply (QI_push W); [assumption|exact route_net|exact gc_net|exact gc_obj|assumption|intros d k []]).
    unfold init_queue. destruct (mode =? 0); [exact U|]. destruct ((mode =? 1) || (mode =? 2)); [|intros d k []].
    intros d k Hi. apply in_map_iff in Hi as (d' & E & Hi). injection E as -> <-. unfold M. split; [lia|]. split; [auto|lia].
  - destruct (QueueModel.queue_main W movable drNets limit ord route_net gc_net gc_obj F w (fun _ => 0%nat) (init_queue movable drNets limit ord mode nets ms)) as [r|] eqn:E; [|exfalso; exact (H F (Nat.le_refl _) E)].
    exists F, r. intros fuel Hf. apply (main_mono W movable drNets limit ord Ho route_net gc_net gc_obj F _ _ _ _ E). assumption.
Qed.
Theorem C82_reroute_bound : forall W movable drNets limit ord route_net gc_net gc_obj,
  (forall l x, In x (ord l) <-> In x l) -> forall fuel w ripupMode nets ms ok w' n' tr,
  route_queue W movable drNets limit ord route_net gc_net gc_obj fuel w ripupMode nets ms = Some (ok, w', n', tr) ->
  forall d, n' d = times d tr /\ (times d tr <= Nat.max limit 1)%nat /\ (ripupMode = 0 -> (times d tr <= limit)%nat).
Proof.
  intros W movable drNets limit ord route_net gc_net gc_obj Ho fuel w mode nets ms ok w' n' tr H d. unfold route_queue in H.
  pose proof (main_times W movable drNets limit ord route_net gc_net gc_obj fuel _ _ _ _ _ _ _ H d) as T. cbn [Nat.add] in T. rewrite <- T. split; [reflexivity|].
  pose proof (main_bound W movable drNets limit ord Ho route_net gc_net gc_obj fuel _ _ _ _ _ _ _ H) as B.
  assert (U : forall k e, In (QRoute e k) (update_queue movable drNets limit ord (fun _ => 0%nat) ms) -> (k < limit)%nat).
  { intros k e Hi. apply in_update in Hi as [(m & f & d' & E & _ & _ & _ & Hl)|(m & o & E & _)]; [|discriminate|assumption]. injection E as _ ->. assumption. }
  split.
  - apply B; [lia|lia|]. intros e k Hi. unfold init_queue in Hi. destruct (mode =? 0); [apply U in Hi; lia|]. destruct ((mode =? 1) || (mode =? 2)); [|destruct Hi].
    apply in_map_iff in Hi as (d' & E & Hi). injection E as _ <-. lia.
  - intros ->. apply B; [lia|lia|]. intros e k Hi. apply U in Hi. lia.
Qed.

(* Every violation found at any step is followed up by the time the loop has ended, and so are those the loop
   starts from; if the loop does not start from violations every part of a net is routed. *)
Theorem C83_followed_up : forall W movable drNets limit ord route_net gc_net gc_obj,
  (forall l x, In x (ord l) <-> In x l) -> forall fuel w ripupMode nets ms w' n' tr,
  route_queue W movable drNets limit ord route_net gc_net gc_obj fuel w ripupMode nets ms = Some (true, w', n', tr) ->
  (forall pre ev post found m, tr = pre ++ ev :: post -> found_at ev found -> In m found ->
     followed_up movable drNets limit (fun d => times d (pre ++ [ev])) m post) /\
  (ripupMode = 0 -> forall m, In m ms -> followed_up movable drNets limit (fun _ => 0%nat) m tr) /\
  (ripupMode = 1 \/ ripupMode = 2 -> forall d, In d nets -> exists r, In (Routed d r) tr).
Proof.
  intros W movable drNets limit ord route_net gc_net gc_obj Ho fuel w mode nets ms w' n' tr H. unfold route_queue in H. split; [|split].
  - intros pre ev post found m -> Hf Hm. destruct (main_split W movable drNets limit ord Ho route_net gc_net gc_obj pre _ _ _ _ _ _ _ _ _ H) as (fuel1 & w1 & n1 & q1 & R & Hn & Hi).
    pose proof (serves_follow W movable drNets limit ord Ho route_net gc_net gc_obj _ _ _ _ _ _ _ found R (Hi _ Hf) m Hm) as [A B].
    assert (MM : forall f, must_move movable drNets limit (fun d => times d (pre ++ [ev])) m f <-> must_move movable drNets limit n1 m f).
    { intros f. split; (apply must_move_ext; intros x; rewrite Hn; reflexivity). }
    split.
    + intros f d Hmm Hd Hl. apply (A f d); [apply MM; assumption|assumption|]. rewrite Hn. exact Hl.
    + intros o (f & Hmm) Hs Hx. apply B; [exists f; apply MM; assumption|assumption|]. intros C. apply Hx. apply MM. assumption.
  - intros -> m Hm. apply (serves_follow W movable drNets limit ord Ho route_net gc_net gc_obj _ _ _ _ _ _ _ ms H); [|assumption]. intros e He. exact He.
  - intros Hmode d Hd. apply times_in. pose proof (main_times W movable drNets limit ord route_net gc_net gc_obj _ _ _ _ _ _ _ _ H d) as T. cbn [Nat.add] in T. rewrite <- T.
    destruct (main_serves W movable drNets limit ord route_net gc_net gc_obj _ _ _ _ _ _ _ H) as [S1 _]. apply (S1 d 0%nat); [|lia].
    unfold init_queue. destruct Hmode as [-> | ->]; cbn; apply in_map_iff; eauto.
Qed.

(* Nothing is rerouted without need: when the loop starts from violations, every routing of a part of a net
   answers a violation, given or found at an earlier step, in which the net had to be rerouted, and it is the
   first one after that violation. *)
Theorem C84_only_for_cause : forall W movable drNets limit ord route_net gc_net gc_obj,
  (forall l x, In x (ord l) <-> In x l) -> forall fuel w nets ms ok w' n' pre d r post,
  route_queue W movable drNets limit ord route_net gc_net gc_obj fuel w 0 nets ms = Some (ok, w', n', pre ++ Routed d r :: post) ->
  exists pre1 pre2 found m f, pre = pre1 ++ pre2 /\ times d pre2 = 0%nat /\
    ((pre1 = [] /\ found = ms) \/ exists pre0 ev, pre1 = pre0 ++ [ev] /\ found_at ev found) /\
    In m found /\ must_move movable drNets limit (fun e => times e pre1) m f /\ In d (drNets f) /\ (times d pre1 < limit)%nat.
Proof.
  intros W movable drNets limit ord route_net gc_net gc_obj Ho fuel w nets ms ok w' n' pre d r post H. unfold route_queue in H.
  destruct (main_cause W movable drNets limit ord Ho route_net gc_net gc_obj pre _ _ _ _ _ _ _ _ _ _ H) as [Hi|(pre1 & ev & pre2 & l & m & f & -> & A & B & C & D & E & F)].
  - cbn in Hi. apply in_update in Hi as [(m & f & d' & E & Hm & Hf & Hd & Hl)|(m & o & E & _)]; [|discriminate|assumption]. injection E as <- E.
    exists [], pre, ms, m, f. split; [reflexivity|]. split; [exact E|]. split; [left; auto|]. split; [assumption|]. split; [|split; assumption]. exact Hf.
  - exists (pre1 ++ [ev]), pre2, l, m, f. split; [rewrite <- app_assoc; reflexivity|]. split; [assumption|]. split; [right; eauto|]. split; [assumption|]. split; [|split; assumption]. exact C.
Qed.

Print Assumptions C82_loop_ends.
Print Assumptions C82_reroute_bound.
Print Assumptions C83_followed_up.
Print Assumptions C84_only_for_cause.

(* nets 10 (parts 0 and 1), 11 (part 2) and a fixed object 12.  The first routing of part 0 hits net 11 and
   the fixed object, with net 11 the only aggressor; rerouting part 2 hits part 0 once more without a known
   aggressor; then all is quiet.  The state counts the routings. *)
Definition ex_nets (f : Z) : list nat := if f =? 10 then [0; 1]%nat else if f =? 11 then [2%nat] else [].
Definition ex_gc (w : nat) (d : nat) : nat * option (list qmarker) :=
  (w, Some (match w with
            | 1%nat => [mkQM [Some 11; Some 12] [Some 10; Some 11; Some 12; None]]
            | 3%nat => [mkQM [None] [Some 11; Some 10; Some 12]]
            | _ => [] end)).
Definition ex_run (mode : Z) ms := route_queue nat (fun o => (o =? 10) || (o =? 11)) ex_nets 2 (fun l => l) (fun w _ => Some (S w)) ex_gc (fun w _ => (w, None)) 30 0%nat mode [0; 2]%nat ms.
Definition trace_of (r : option (bool * nat * (nat -> nat) * list qevent)) : option (bool * list qevent) :=
  match r with Some (ok, _, _, tr) => Some (ok, tr) | None => None end.
Example ex_mode1 : exists a, trace_of (ex_run 1 []) =
  Some (true, [Routed 0 (Some [a]); Routed 2 (Some []); Skipped 2; Checked 10 None; Checked 12 None]).
Proof. eexists. vm_compute. reflexivity. Qed.
Example ex_mode0 : exists a b, trace_of (ex_run 0 [mkQM [] [Some 10; Some 12]]) =
  Some (true, [Routed 0 (Some [a]); Routed 1 (Some []); Checked 12 None; Routed 2 (Some [b]); Checked 10 None; Checked 12 None;
               Routed 2 (Some []); Routed 0 (Some []); Routed 1 (Some []); Checked 12 None]) /\ a <> b.
Proof. eexists. eexists. split; [vm_compute; reflexivity|discriminate]. Qed.
Example ex_must : must_move (fun o => (o =? 10) || (o =? 11)) ex_nets 2 (fun _ => 1%nat) (mkQM [Some 11; Some 12] [Some 10; Some 11; Some 12; None]) 11 /\
  ~ must_move (fun o => (o =? 10) || (o =? 11)) ex_nets 2 (fun _ => 1%nat) (mkQM [Some 11; Some 12] [Some 10; Some 11; Some 12; None]) 10.
Proof.
  assert (A : can_move (fun o => (o =? 10) || (o =? 11)) ex_nets 2 (fun _ => 1%nat) 11) by (split; [reflexivity|exists 2%nat; cbn; auto]).
  split; [split; [exact A|left; cbn; auto]|]. intros [_ [[E|[E|[]]]|[N _]]]; [discriminate|discriminate|]. exact (N 11 (or_introl eq_refl) A).
Qed.
