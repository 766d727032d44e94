(* FlexGridGraph::search and its helpers (src/dr/FlexGridGraph_maze.cpp, src/dr/FlexWavefront.h).
   Costs, lengths and distances of a wavefront entry are an arbitrary type [E] computed by arbitrary
   functions; they influence the search only through the order in which the priority queue delivers
   entries, and that order is an arbitrary function [pick].  Every theorem holds for all of them, so
   in particular for the code's cost functions, operator< and heap layout. *)
From Verif Require Import Base GeomModel GridModel.

(* FlexGridGraph_maze.cpp:305-329 getNextGrid *)
Definition getNextGrid (p : midx) (d : dir) : midx :=
  match d with
  | DE => mkMI (mx p + 1) (my p) (mz p) | DS => mkMI (mx p) (my p - 1) (mz p)
  | DW => mkMI (mx p - 1) (my p) (mz p) | DN => mkMI (mx p) (my p + 1) (mz p)
  | DU => mkMI (mx p) (my p) (mz p + 1) | DD => mkMI (mx p) (my p) (mz p - 1)
  | DUnk => p
  end.
(* 331-355 getPrevGrid *)
Definition getPrevGrid (p : midx) (d : dir) : midx :=
  match d with
  | DE => mkMI (mx p - 1) (my p) (mz p) | DS => mkMI (mx p) (my p + 1) (mz p)
  | DW => mkMI (mx p + 1) (my p) (mz p) | DN => mkMI (mx p) (my p - 1) (mz p)
  | DU => mkMI (mx p) (my p) (mz p - 1) | DD => mkMI (mx p) (my p) (mz p + 1)
  | DUnk => p
  end.

(* src/global.h:106-108 DIRBITSIZE = 3, WAVEFRONTBUFFERSIZE = 2; the back-trace buffer is a 6-bit set *)
Definition BUFSIZE : nat := 2.
Definition BUFBITS : Z := 6.
(* FlexGridGraph_maze.cpp:300-303 getLastDir; FlexWavefront.h:129-132 *)
Definition getLastDir (buf : Z) : dir := dir_of_code (Z.land buf 7).
(* FlexWavefront.h:137-143 shiftAddBuffer: the evicted direction and the new buffer *)
Definition shiftAddBuffer (buf : Z) (d : dir) : dir * Z :=
  (dir_of_code (Z.shiftr buf (BUFBITS - 3)),
   Z.lor (Z.land (Z.shiftl buf 3) (Z.ones BUFBITS)) (dir_code d)).
(* FlexGridGraph_maze.cpp:478-490 getTailIdx *)
Fixpoint tail_loop (n : nat) (p : midx) (buf : Z) : midx :=
  match n with
  | O => p
  | S n => tail_loop n (getPrevGrid p (dir_of_code (buf - Z.shiftl (Z.shiftr buf 3) 3))) (Z.shiftr buf 3)
  end.
Definition getTailIdx (p : midx) (buf : Z) : midx := tail_loop BUFSIZE p buf.

(* the traceback loops.  The while loop of 545-565 has no bound in the code; here it has fuel and the
   theorems show that it ends before the fuel does. *)
Record tb_state := mkTB {
  tpos : midx; tlast : dir; tpath : list midx; troot : list midx; twarn : bool }.
(* 535-543, 551-561: one round of either loop, in direction [d] *)
Definition tb_push_path (s : tb_state) (d : dir) : list midx :=
  if dir_eqb d (tlast s) then tpath s else tpath s ++ [tpos s].
(* 526-544: the buffered directions *)
Fixpoint tb_buffer (g : gg) (n : nat) (buf : Z) (s : tb_state) : tb_state :=
  match n with
  | O => s
  | S n =>
    if isSrc g (tpos s) then s
    else
      let d := getLastDir buf in
      match d with
      | DUnk => mkTB (tpos s) (tlast s) (tpath s) (troot s) true
      | _ => tb_buffer g n (Z.shiftr buf 3)
               (mkTB (getPrevGrid (tpos s) d) d (tb_push_path s d) (troot s ++ [tpos s]) (twarn s))
      end
  end.
(* 546-563: the stored directions; None = still running when the fuel is used up *)
Fixpoint tb_grid (g : gg) (fuel : nat) (s : tb_state) : option tb_state :=
  if isSrc g (tpos s) then Some s
  else match fuel with
  | O => None
  | S fuel =>
    let d := getPrevDir g (tpos s) in
    match d with
    | DUnk => Some (mkTB (tpos s) (tlast s) (tpath s) (troot s ++ [tpos s]) true)
    | _ => tb_grid g fuel
             (mkTB (getPrevGrid (tpos s) d) d (tb_push_path s d) (troot s ++ [tpos s]) (twarn s))
    end
  end.
(* 572-579: the box over the path points *)
Definition mi_min (a b : midx) := mkMI (Z.min (mx a) (mx b)) (Z.min (my a) (my b)) (Z.min (mz a) (mz b)).
Definition mi_max (a b : midx) := mkMI (Z.max (mx a) (mx b)) (Z.max (my a) (my b)) (Z.max (mz a) (mz b)).
Record found := mkFound {
  fpath : list midx;    (* path *)
  froot : list midx;    (* connComps, extended with the points of the path *)
  fbox1 : midx; fbox2 : midx;   (* ccMazeIdx1, ccMazeIdx2 *)
  fwarn : bool }.       (* "unexpected direction in tracBackPath" was printed *)
(* 518-589 traceBackPath; [path] is empty on entry *)
Definition traceBackPath (g : gg) (fuel : nat) (pos : midx) (buf : Z) (root : list midx)
    (cc1 cc2 : midx) : option found :=
  let s := tb_buffer g BUFSIZE buf (mkTB pos DUnk [] root false) in
  match tb_grid g fuel s with
  | None => None
  | Some s =>
    let path := match tpath s with [] => [] | _ => tpath s ++ [tpos s] end in
    Some (mkFound path (troot s) (fold_left mi_min path cc1) (fold_left mi_max path cc2) (twarn s))
  end.

Section Search.
Variable E : Type.
(* FlexWavefrontGrid: position, back-trace buffer, and everything else *)
Record entry := mkEntry { epos : midx; ebuf : Z; eext : E }.
(* 35-113 of expand: costs, lengths and distance of the new entry *)
Variable next_ext : gg -> entry -> dir -> E.
(* 625-638 of search: the same for a start entry *)
Variable init_ext : gg -> midx -> E.
(* the entry delivered by the priority queue, at each step *)
Variable pick : nat -> list entry -> nat.

(* 492-516 isExpandable: [reverse] moves to the neighbour and turns the direction around *)
Definition isExpandable (g : gg) (e : entry) (d : dir) : bool :=
  let hg := hasEdge g (epos e) d in
  let '(q, rd) := reverse (epos e) d in
  negb (negb hg || isSrc g q || negb (dir_eqb (getPrevDir g q) DUnk) || dir_eqb (getLastDir (ebuf e)) rd).
(* 35-137 expand: the new grid state and the entries pushed (none or one) *)
Definition expand (g : gg) (e : entry) (d : dir) : gg * list entry :=
  let next := getNextGrid (epos e) d in
  let '(tailDir, buf) := shiftAddBuffer (ebuf e) d in
  let ne := mkEntry next buf (next_ext g e d) in
  let tail := getTailIdx next buf in
  if dir_eqb tailDir DUnk then (g, [ne])
  else if dir_eqb (getPrevDir g tail) DUnk || dir_eqb (getPrevDir g tail) tailDir
  then (setPrevDir g tail tailDir, [ne])
  else (g, []).
(* 139-231 expandWavefront *)
Definition expandWavefront (g : gg) (e : entry) : gg * list entry :=
  fold_left (fun '(g, l) d =>
    if isExpandable g e d then let '(g', l') := expand g e d in (g', l ++ l') else (g, l))
    [DN; DE; DS; DW; DU; DD] (g, []).

(* wavefront.top(); wavefront.pop() *)
Fixpoint pop_nth {A} (n : nat) (l : list A) {struct l} : option (A * list A) :=
  match l with
  | [] => None
  | a :: r =>
    match n with
    | O => Some (a, r)
    | S n => match pop_nth n r with Some (b, r') => Some (b, a :: r') | None => Some (a, r) end
    end
  end.

Inductive sresult :=
| SFound (g : gg) (f : found)    (* returns true *)
| SFail (g : gg)                 (* returns false *)
| SStuck (g : gg)                (* the traceback ran out of fuel *)
| STimeout.                      (* the search loop ran out of fuel *)
(* 641-665 the search loop; k counts the steps *)
Fixpoint search_loop (fuel : nat) (tbfuel : nat) (k : nat) (g : gg) (wf : list entry)
    (cc : list midx) (cc1 cc2 : midx) : sresult :=
  match fuel with
  | O => STimeout
  | S fuel =>
    match pop_nth (pick k wf) wf with
    | None => SFail g
    | Some (e, wf) =>
      if negb (dir_eqb (getPrevDir g (epos e)) DUnk) then search_loop fuel tbfuel (S k) g wf cc cc1 cc2
      else if isDst g (epos e) then
        match traceBackPath g tbfuel (epos e) (ebuf e) cc cc1 cc2 with
        | Some f => SFound g f
        | None => SStuck g
        end
      else let '(g', new) := expandWavefront g e in
           search_loop fuel tbfuel (S k) g' (wf ++ new) cc cc1 cc2
    end
  end.
(* 591-666 search.  The start loop (614-640) returns at the first source point that is a destination. *)
Definition search (fuel tbfuel : nat) (g : gg) (cc : list midx) (cc1 cc2 : midx) : sresult :=
  match find (isDst g) cc with
  | Some i => SFound g (mkFound [i] cc cc1 cc2 false)
  | None => search_loop fuel tbfuel 0 g (map (fun i => mkEntry i 0 (init_ext g i)) cc) cc cc1 cc2
  end.
End Search.
Arguments mkEntry {E}.
Arguments epos {E}.
Arguments ebuf {E}.
Arguments eext {E}.
