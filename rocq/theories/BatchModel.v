(* Division of a search-and-repair pass into clips, batches and parallel workers. *)
From Verif Require Import Base GeomModel GCellModel.

(* src/global.cpp:51-54 *)
Definition BATCHSIZE : nat := 1024.
Definition BATCHSIZETA : nat := 8.
Definition MTSAFEDIST : Z := 2000.
Definition DRCSAFEDIST : Z := 500.

(* src/dr/FlexDR.cpp:1577,1578 (also 1361,1362 and src/ta/FlexTA.cpp:135,156,180,200): the loop
   for (int i = offset; i < count; i += size).  [fuel] bounds the number of rounds; the caller gives
   enough for every positive size. *)
Fixpoint loop_from (fuel : nat) (i count size : Z) : list Z :=
  match fuel with
  | O => []
  | S f => if i <? count then i :: loop_from f (i + size) count size else []
  end.
Definition loop_starts (offset count size : Z) : list Z :=
  loop_from (Z.to_nat (count - offset)) offset count size.

(* one worker of the pass: first gcell of the clip and the loop counters xIdx, yIdx *)
Record clip := mkClip { c_i : Z; c_j : Z; c_xi : nat; c_yi : nat }.

(* a list with the position of each element, counting from [n]: the counters xIdx / yIdx *)
Fixpoint number (n : nat) (l : list Z) : list (Z * nat) :=
  match l with [] => [] | a :: l' => (a, n) :: number (S n) l' end.

(* src/dr/FlexDR.cpp:1576-1620 the two nested loops: clips in creation order *)
Definition clips (xg yg : gpat) (offset size : Z) : list clip :=
  flat_map (fun ix => map (fun jy => mkClip (fst ix) (fst jy) (snd ix) (snd jy))
                          (number 0 (loop_starts offset (gcount yg) size)))
           (number 0 (loop_starts offset (gcount xg) size)).

(* src/dr/FlexDR.cpp:1580-1585 route box of a clip.  In y the bound of the last gcell is count, not
   count - 1; getGCellBox clamps it. *)
Definition route_box (die : box) (xg yg : gpat) (size : Z) (c : clip) : box :=
  let b1 := gcell_box die xg yg (mkPt (c_i c) (c_j c)) in
  let b2 := gcell_box die xg yg (mkPt (Z.min (gcount xg - 1) (c_i c + size - 1))
                                      (Z.min (gcount yg) (c_j c + size - 1))) in
  box_set (bleft b1) (bbottom b1) (bright b2) (btop b2).
(* src/dr/FlexDR.cpp:1586-1589 *)
Definition ext_box (die : box) (xg yg : gpat) (size : Z) (c : clip) : box :=
  box_bloat (route_box die xg yg size c) MTSAFEDIST.
Definition drc_box (die : box) (xg yg : gpat) (size : Z) (c : clip) : box :=
  box_bloat (route_box die xg yg size c) DRCSAFEDIST.

(* src/dr/FlexDR.cpp:1474-1477 getBatchInfo *)
Definition batch_step_x : nat := 2.
Definition batch_step_y : nat := 2.
(* src/dr/FlexDR.cpp:1609 *)
Definition batch_idx (c : clip) : nat :=
  (Nat.modulo (c_xi c) batch_step_x * batch_step_y + Nat.modulo (c_yi c) batch_step_y)%nat.

(* src/dr/FlexDR.cpp:1610-1613 (src/ta/FlexTA.cpp:194-197): append to the last group, or open a new
   group if there is none or the last one is full *)
Fixpoint push_group {A} (limit : nat) (a : A) (gs : list (list A)) : list (list A) :=
  match gs with
  | [] => [[a]]
  | [g] => if Nat.leb limit (length g) then [g; [a]] else [g ++ [a]]
  | g :: gs' => g :: push_group limit a gs'
  end.
(* src/dr/FlexDR.cpp:1609-1613 workers[batchIdx] *)
Fixpoint push_batch (limit : nat) (b : nat) (c : clip) (bs : list (list (list clip))) {struct bs} : list (list (list clip)) :=
  match bs, b with
  | [], _ => []
  | g :: bs', O => push_group limit c g :: bs'
  | g :: bs', S b' => g :: push_batch limit b' c bs'
  end.
(* src/dr/FlexDR.cpp:1574-1620 the vector workers after the loops *)
Definition batches_lim (limit : nat) (cs : list clip) : list (list (list clip)) :=
  fold_left (fun bs c => push_batch limit (batch_idx c) c bs) cs
            (repeat [] (batch_step_x * batch_step_y)).
Definition batches (xg yg : gpat) (offset size : Z) : list (list (list clip)) :=
  batches_lim BATCHSIZE (clips xg yg offset size).
(* src/dr/FlexDR.cpp:1625-1627 the parallel groups in the order they are run *)
Definition groups (xg yg : gpat) (offset size : Z) : list (list clip) :=
  concat (batches xg yg offset size).
(* src/dr/FlexDR.cpp:1519 number of clips announced for the progress report (C++ int division) *)
Definition announced_total (xg yg : gpat) (offset size : Z) : Z :=
  (Z.quot (gcount xg - 1 - offset) size + 1) * (Z.quot (gcount yg - 1 - offset) size + 1).

(* src/dr/FlexDR.cpp:1935-2001: (size, offset) of the passes of FlexDR::main, in order *)
Definition seven_offsets : list (Z * Z) :=
  [(7, 0); (7, -1); (7, -2); (7, -3); (7, -4); (7, -5); (7, -6)].
Definition main_passes : list (Z * Z) :=
  [(7, 0); (7, -2); (7, -5)] ++ seven_offsets ++ seven_offsets ++ [(7, -3)] ++
  seven_offsets ++ [(5, -2)] ++ seven_offsets ++ [(3, -1)] ++ seven_offsets ++ [(3, -2)] ++
  seven_offsets ++ [(3, 0)] ++ seven_offsets ++ [(3, -1)] ++ seven_offsets.

(* Track-assignment panels.  src/ta/FlexTA.cpp:135-143 (horizontal) *)
Definition panel_box_h (die : box) (xg yg : gpat) (size i : Z) : box :=
  let b1 := gcell_box die xg yg (mkPt 0 i) in
  let b2 := gcell_box die xg yg (mkPt (gcount xg - 1) (Z.min (i + size - 1) (gcount yg - 1))) in
  box_set (bleft b1) (bbottom b1) (bright b2) (btop b2).
(* src/ta/FlexTA.cpp:156-163 (vertical) *)
Definition panel_box_v (die : box) (xg yg : gpat) (size i : Z) : box :=
  let b1 := gcell_box die xg yg (mkPt i 0) in
  let b2 := gcell_box die xg yg (mkPt (Z.min (i + size - 1) (gcount xg - 1)) (gcount yg - 1)) in
  box_set (bleft b1) (bbottom b1) (bright b2) (btop b2).
(* src/ta/FlexTA.cpp:178-219 groups of at most BATCHSIZETA panels *)
Definition ta_groups {A} (panels : list A) : list (list A) :=
  fold_left (fun gs a => push_group BATCHSIZETA a gs) panels [].

(* Execution.  A worker's private state is abstract: [w_init] builds it, [w_step] is one step of
   main_mt (init and routing read the shared design [d] and change only the worker), [None] means
   main_mt has returned, [w_end] is end(), the only code that writes the design. *)
Section Exec.
Variables (D L C : Type).
Variable w_init : C -> L.                 (* src/dr/FlexDR.cpp:1579,1590-1607 *)
Variable w_step : D -> L -> option L.     (* src/dr/FlexDR.cpp:74-116 main_mt *)
Variable w_end : L -> D -> D.             (* src/dr/FlexDR_end.cpp end *)

Fixpoint set_nth (i : nat) (l : L) (ls : list L) {struct ls} : list L :=
  match ls, i with
  | [], _ => []
  | _ :: r, O => l :: r
  | a :: r, S i' => a :: set_nth i' l r
  end.

(* src/dr/FlexDR.cpp:1631-1633: a step of the parallel loop is a step of any unfinished worker *)
Inductive par_run (d : D) : list L -> list L -> Prop :=
| par_refl ls : par_run d ls ls
| par_step ls i l l' ls' :
    nth_error ls i = Some l -> w_step d l = Some l' ->
    par_run d (set_nth i l' ls) ls' -> par_run d ls ls'.
(* the loop ends when every worker has returned *)
Definition all_done (d : D) (ls : list L) : Prop := forall l, In l ls -> w_step d l = None.

(* src/dr/FlexDR.cpp:1659-1662 end() of every worker, in order *)
Definition commit_all (ls : list L) (d : D) : D := fold_left (fun d l => w_end l d) ls d.

(* src/dr/FlexDR.cpp:1625-1666 one group, then the following groups *)
Inductive pass_exec : D -> list (list C) -> D -> Prop :=
| pass_nil d : pass_exec d [] d
| pass_cons d g gs ls d' :
    par_run d (map w_init g) ls -> all_done d ls ->
    pass_exec (commit_all ls d) gs d' -> pass_exec d (g :: gs) d'.

(* one worker run on its own *)
Inductive runs_alone (d : D) : L -> L -> Prop :=
| alone_done l : w_step d l = None -> runs_alone d l l
| alone_step l l' l'' : w_step d l = Some l' -> runs_alone d l' l'' -> runs_alone d l l''.

(* src/ta/FlexTA.cpp:133-176: with one thread every panel is finished before the next starts *)
Inductive one_by_one : D -> list C -> D -> Prop :=
| obo_nil d : one_by_one d [] d
| obo_cons d c cs l d' :
    runs_alone d (w_init c) l -> one_by_one (w_end l d) cs d' -> one_by_one d (c :: cs) d'.
End Exec.
Arguments par_run {D L}. Arguments all_done {D L}. Arguments commit_all {D L}.
Arguments pass_exec {D L C}. Arguments runs_alone {D L}. Arguments one_by_one {D L C}.
Arguments set_nth {L}.
