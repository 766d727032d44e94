(* The pin-by-pin graph search shared by FlexDR::checkConnectivity_astar (src/dr/FlexDR_conn.cpp:388-515)
   and io::Parser::genGuides_astar (src/io/io_guide.cpp:862-1032), on an arbitrary adjacency [adj].
   Node indices are nat; prevIdx -1 is None; vector<bool> and vector<int> indexed by node are functions.
   The order in which std::priority_queue delivers its entries is a function [pick] of the step and the
   queue; [pick_min] (TreeSpec) states the contract of the comparison operator where it is needed. *)
From Verif Require Import Base MazeModel.

(* struct wf (FlexDR_conn.cpp:420-431, io_guide.cpp:926-937) *)
Record wf := mkWf { wn : nat; wp : option nat; wc : Z }.
(* wf::operator< *)
Definition wf_lt (a b : wf) : bool :=
  if wc a =? wc b then (wn b <? wn a)%nat else wc b <? wc a.

Definition upd {A} (f : nat -> A) (i : nat) (v : A) : nat -> A := fun j => if Nat.eqb j i then v else f j.

Section Astar.
Variable adj : nat -> list nat.
Variables gCnt nCnt : nat.
(* start cost of an entry already on the tree (conn 449-455, guide 950-960) *)
Variable seed_cost : nat -> Z.
Variable pick : nat -> list wf -> nat.

(* the while loop (conn 459-493, guide 964-995); [K] is onPathIdx, [vis] adjVisited, [prev] adjPrevIdx.
   None: out of fuel.  Otherwise lastNodeIdx, adjVisited, adjPrevIdx *)
Fixpoint grow (fuel : nat) (K vis : nat -> bool) (prev : nat -> option nat) (q : list wf) {struct fuel}
    : option (option nat * (nat -> bool) * (nat -> option nat)) :=
  match fuel with
  | O => None
  | S fuel =>
    match pop_nth (pick fuel q) q with
    | None => Some (None, vis, prev)
    | Some (e, q) =>
      let u := wn e in
      if negb (K u) && vis u then grow fuel K vis prev q
      else
        let vis' := upd vis u true in
        let prev' := upd prev u (wp e) in
        if ((gCnt <? u) && (u <? nCnt))%nat && negb (vis u) then Some (Some u, vis', prev')
        else grow fuel K vis' prev'
               (q ++ map (fun b => mkWf b (Some u) (wc e + 1)) (filter (fun b => negb (vis' b)) (adj u)))
    end
  end.

(* the trace back (conn 495-505, guide 1000-1006); every turn sets a new bit, so nCnt turns are enough:
   None if they are not *)
Fixpoint mark (fuel : nat) (K : nat -> bool) (prev : nat -> option nat) (last : option nat) {struct fuel}
    : option (nat -> bool) :=
  match last with
  | None => Some K
  | Some u =>
    if K u then Some K
    else match fuel with
         | O => None
         | S fuel => mark fuel (upd K u true) prev (prev u)
         end
  end.

(* the entries pushed at the start of a round (conn 440-457, guide 944-962) *)
Definition seeds (first : bool) (K : nat -> bool) (prev : nat -> option nat) : list wf :=
  if first then [mkWf gCnt None 0]
  else map (fun i => mkWf i (prev i) (seed_cost i)) (filter K (seq 0 nCnt)).

(* one turn of the loop over findNode: adjVisited equals onPathIdx at its start (all false, or the copy
   made at the end of the turn before: conn 509, guide 1010) *)
Definition round (fuel : nat) (first : bool) (K : nat -> bool) (prev : nat -> option nat)
    : option ((nat -> bool) * (nat -> option nat)) :=
  match grow fuel K K prev (seeds first K prev) with
  | None => None
  | Some (last, _, prev') =>
    match mark nCnt K prev' last with Some K' => Some (K', prev') | None => None end
  end.
Fixpoint rounds (fuel n : nat) (first : bool) (K : nat -> bool) (prev : nat -> option nat)
    : option ((nat -> bool) * (nat -> option nat)) :=
  match n with
  | O => Some (K, prev)
  | S n => match round fuel first K prev with
           | None => None
           | Some (K', prev') => rounds fuel n false K' prev'
           end
  end.
(* findNode runs from gCnt to nCnt - 2; adjVisited and adjPrevIdx after the loop *)
Definition tree_search (fuel : nat) : option ((nat -> bool) * (nat -> option nat)) :=
  rounds fuel (nCnt - 1 - gCnt) true (fun _ => false) (fun _ => None).
(* pinVisited == nCnt - gCnt (conn 505-514, guide 1016-1031) *)
Definition all_pins (vis : nat -> bool) : bool := forallb vis (seq gCnt (nCnt - gCnt)).
End Astar.
