(* The rip-up and reroute loop of a clip: FlexDRWorker::route_queue and its helpers
   (src/dr/FlexDR_maze.cpp:2029-2256, src/dr/FlexDR_init.cpp:3134-3138, 3188-3401).
   Parameters: what routing a net and checking an object do to the rest of the worker (type [W]: routes,
   costs, marker list), and which violations a check returns; nothing is assumed about them.
   Sets of pointers are iterated in the order given by [ord].  Objects (frNet and other owners) are Z,
   the sub-nets of the clip (drNet) are nat.  Not modelled: marker costs and their decay, patches written
   back, messages; they are part of [W]. *)
From Verif Require Import Base.

(* frMarker: getAggressors() (owners only), getSrcs(); a null pointer is None *)
Record qmarker := mkQM { qm_aggr : list (option Z); qm_srcs : list (option Z) }.
(* RouteQueueEntry (src/dr/FlexDR.h:481-485): {dNet, numReroute, true} or {obj, -1, false} *)
Inductive qentry := QRoute (d n : nat) | QCheck (o : Z).
(* what the loop does, for the statements: a net routed or an object checked with the violations found
   (None: the checker does not know the object), or an entry skipped *)
Inductive qevent := Routed (d : nat) (ms : option (list qmarker)) | Checked (o : Z) (ms : option (list qmarker)) | Skipped (d : nat).

Definition memZ (x : Z) (l : list Z) : bool := existsb (Z.eqb x) l.
Fixpoint somes {A} (l : list (option A)) {struct l} : list A :=
  match l with [] => [] | Some a :: r => a :: somes r | None :: r => somes r end.
(* find / insert / push_back: the set of objects seen and the list of new ones *)
Definition add_new (st : list Z * list Z) (x : Z) : list Z * list Z :=
  if memZ x (fst st) then st else (x :: fst st, snd st ++ [x]).

Section Queue.
Variable W : Type.
Variable movable : Z -> bool.          (* frcNet of type frcNormalNet or frcClockNet *)
Variable drNets : Z -> list nat.       (* getDRNets *)
Variable mazeEndIter : nat.
Variable ord : list Z -> list Z.       (* iteration order of std::set<frBlockObject*> *)

Definition below (n : nat -> nat) (d : nat) : bool := (n d <? mazeEndIter)%nat.
Definition has_below (n : nat -> nat) (f : Z) : bool := existsb (below n) (drNets f).
(* 3254-3273: movableAggressorNets; movableAggressorOwners are those of them with has_below *)
Definition aggr_nets (m : qmarker) : list Z := ord (filter movable (somes (qm_aggr m))).
(* 3243-3386 route_queue_update_from_marker.  State: uniqueVictims, uniqueAggressors, checks, routes *)
Record qupd := mkQU { q_vic : list Z; q_agg : list Z; q_checks : list qentry; q_routes : list qentry }.
Definition update_from_marker (n : nat -> nat) (st : qupd) (m : qmarker) : qupd :=
  let movableOwners := filter (has_below n) (aggr_nets m) in
  (* 3276-3296 *)
  let agg1 := fold_left add_new movableOwners (q_agg st, []) in
  let '(agg, vicOwners) :=
    if negb (Nat.eqb (length movableOwners) 0)
    then (* 3298-3314 *)
      (agg1, ord (filter (fun o => negb (memZ o movableOwners)) (somes (qm_srcs m))))
    else (* 3315-3363 *)
      let other := filter (fun o => negb (memZ o movableOwners)) (ord (somes (qm_srcs m))) in
      let routeOwners := filter (fun f => movable f && has_below n f) other in
      let agg2 := fold_left add_new routeOwners agg1 in
      (agg2, if negb (Nat.eqb (length routeOwners) 0)
             then ord (filter (fun o => negb (memZ o routeOwners)) (somes (qm_srcs m)))
             else []) in
  let vic := fold_left add_new vicOwners (q_vic st, []) in
  (* 3366-3384 *)
  mkQU (fst vic) (fst agg)
    (q_checks st ++ map QCheck (snd vic))
    (q_routes st ++ flat_map (fun f => if movable f then map (fun d => QRoute d (n d)) (filter (below n) (drNets f)) else []) (snd agg)).
(* 3388-3401 and 3226-3235 route_queue_update_queue: what is pushed *)
Definition update_queue (n : nat -> nat) (ms : list qmarker) : list qentry :=
  let st := fold_left (update_from_marker n) ms (mkQU [] [] [] []) in
  q_routes st ++ q_checks st.
(* 3188-3224 route_queue_init_queue; [nets] are the sub-nets after sorting, reroute counts are 0 *)
Definition init_queue (ripupMode : Z) (nets : list nat) (ms : list qmarker) : list qentry :=
  if ripupMode =? 0 then update_queue (fun _ => 0%nat) ms
  else if (ripupMode =? 1) || (ripupMode =? 2) then map (fun d => QRoute d 0) nets
  else [].

Variable route_net : W -> nat -> option W.                    (* clear, mazeNetInit, routeNet; None: exit(1) *)
Variable gc_net : W -> nat -> W * option (list qmarker).      (* 2193-2220: check the net just routed *)
Variable gc_obj : W -> Z -> W * option (list qmarker).        (* 2221-2240 *)
Definition bump (n : nat -> nat) (d : nat) : nat -> nat := fun e => if Nat.eqb e d then S (n e) else n e.
Definition pushes (n : nat -> nat) (ms : option (list qmarker)) : list qentry :=
  match ms with Some ms => update_queue n ms | None => [] end.
(* 2105-2256 route_queue_main.  None: out of fuel; the flag says whether the program ended by exit(1) *)
Fixpoint queue_main (fuel : nat) (w : W) (n : nat -> nat) (q : list qentry) {struct fuel}
    : option (bool * W * (nat -> nat) * list qevent) :=
  match q with
  | [] => Some (true, w, n, [])
  | e :: q =>
    match fuel with
    | O => None
    | S fuel =>
      match e with
      | QRoute d k =>
        if negb (Nat.eqb k (n d)) then
          match queue_main fuel w n q with
          | Some (ok, w, n, tr) => Some (ok, w, n, Skipped d :: tr)
          | None => None
          end
        else
          match route_net w d with
          | None => Some (false, w, n, [])
          | Some w =>
            let n := bump n d in
            let '(w, ms) := gc_net w d in
            match queue_main fuel w n (q ++ pushes n ms) with
            | Some (ok, w, n, tr) => Some (ok, w, n, Routed d ms :: tr)
            | None => None
            end
          end
      | QCheck o =>
        let '(w, ms) := gc_obj w o in
        match queue_main fuel w n (q ++ pushes n ms) with
        | Some (ok, w, n, tr) => Some (ok, w, n, Checked o ms :: tr)
        | None => None
        end
      end
    end
  end.
(* 2029-2065 route_queue up to the end of the loop: counts reset (3134-3138), initial queue, loop *)
Definition route_queue (fuel : nat) (w : W) (ripupMode : Z) (nets : list nat) (ms : list qmarker)
    : option (bool * W * (nat -> nat) * list qevent) :=
  queue_main fuel w (fun _ => 0%nat) (init_queue ripupMode nets ms).
End Queue.
