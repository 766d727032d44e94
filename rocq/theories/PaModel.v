(* Pin access: choosing one access point per pin of a cell, and one access pattern per cell of a
   row, by dynamic programming (/repo/src/pa/FlexPA_prep.cpp, FlexPA.h).
   Simplifications common to the file:
   - the design-rule checker is an oracle: [drc objs] says whether the vias in [objs] are free of
     violations, [blamed objs i] whether the net of pin [i] appears in a violation.  An oracle is a
     function, so the same vias always get the same answer (the checker is deterministic);
   - a vector of table entries is a total function on indices; the properties C49 show that every
     index used is inside the allocated vector;
   - int is Z, std::numeric_limits<int>::max() is [INF]; the theorems assume totals below it. *)
From Verif Require Import Base.

(* std::numeric_limits<int>::max() *)
Definition INF : Z := 2147483647.

(* pa/FlexPA.h:247-280 FlexDPNode *)
Record node := mkNode { pathCost : Z; nodeCost : Z; prevNodeIdx : Z }.
(* pa/FlexPA.h:250-252: the constructor *)
Definition node0 : node := mkNode INF INF (-1).
Definition table := Z -> node.
Definition tset (t : table) (i : Z) (x : node) : table := fun j => if j =? i then x else t j.

(* pa/FlexPA_prep.cpp:2392-2394 *)
Definition getFlatIdx (idx1 idx2 dim : Z) : Z := (idx1 + 1) * dim + idx2.
(* pa/FlexPA_prep.cpp:2397-2400; C++ division truncates *)
Definition getNestedIdx (flat dim : Z) : Z * Z := (Z.quot flat dim - 1, Z.rem flat dim).
(* pa/FlexPA_prep.cpp:2403-2405 *)
Definition getFlatEdgeIdx (prev1 prev2 curr2 dim : Z) : Z := ((prev1 + 1) * dim + prev2) * dim + curr2.

(* 0, 1, ..., n-1 *)
Definition upto (n : Z) : list Z := map Z.of_nat (seq 0 (Z.to_nat n)).

(* --- the dynamic program, shared by the two users ------------------------------------------- *)
Section DP.
  (* what the edge-cost function may remember between calls *)
  Variable cacheT : Type.
  (* getEdgeCost(prevNodeIdx, currNodeIdx, nodes, ...) *)
  Variable edgeCost : Z -> Z -> table -> cacheT -> Z * cacheT.
  Variables (n dim : Z).

  (* FlexPA_prep.cpp:2012-2023 and 1438-1450: body of the loop over prevIdx2 *)
  Definition relax (curr1 curr2 : Z) (st : table * cacheT) (prev2 : Z) : table * cacheT :=
    let (nodes, c) := st in
    let p := getFlatIdx (curr1 - 1) prev2 dim in
    let q := getFlatIdx curr1 curr2 dim in
    if pathCost (nodes p) =? INF then st else
    let (e, c') := edgeCost p q nodes c in
    if (pathCost (nodes q) =? INF) || (pathCost (nodes p) + e <? pathCost (nodes q))
    then (tset nodes q (mkNode (pathCost (nodes p) + e) (nodeCost (nodes q)) p), c')
    else (nodes, c').
  (* FlexPA_prep.cpp:2004-2024 and 1430-1451: body of the loop over currIdx2 *)
  Definition visit (curr1 : Z) (st : table * cacheT) (curr2 : Z) : table * cacheT :=
    if nodeCost (fst st (getFlatIdx curr1 curr2 dim)) =? INF then st
    else fold_left (relax curr1 curr2) (upto dim) st.
  (* FlexPA_prep.cpp:2003-2025 and 1422-1455: body of the loop over currIdx1 *)
  Definition visit_column (st : table * cacheT) (curr1 : Z) : table * cacheT :=
    fold_left (visit curr1) (upto dim) st.
  (* FlexPA_prep.cpp:1991-2026 genPatterns_perform, 1414-1456 genInstPattern_perform
     (the dead-end message at 1452-1454 is not modelled) *)
  Definition perform (st : table * cacheT) : table * cacheT :=
    fold_left visit_column (upto (n + 1)) st.
End DP.

(* accessPattern[i] = v; the vector has one entry per pin *)
Fixpoint pat_set (i : nat) (v : Z) (l : list Z) {struct l} : list Z :=
  match l with
  | [] => []
  | a :: l' => match i with O => v :: l' | S i' => a :: pat_set i' v l' end
  end.
(* FlexPA_prep.cpp:2154-2170 and 1465-1508 (the choice only): walk the stored predecessors from the
   virtual end node; [cnt] is pinCnt / instCnt.  The walk has one turn per table column; fuel stands
   for termination and the proofs show it never runs out. *)
Fixpoint walk_back (fuel : nat) (nodes : table) (n dim cur cnt : Z) (pat : list Z) {struct fuel}
  : option (list Z * Z) :=
  match fuel with
  | O => None
  | S fuel' =>
    if prevNodeIdx (nodes cur) =? -1 then Some (pat, cnt) else
    let pat' := if cnt =? n then pat
                else let (i1, i2) := getNestedIdx cur dim in pat_set (Z.to_nat i1) i2 pat in
    walk_back fuel' nodes n dim (prevNodeIdx (nodes cur)) (cnt - 1) pat'
  end.
(* FlexPA_prep.cpp:2150-2174 / 1461-1514: the pattern read off, or nothing when the walk does not
   end at the virtual start node ("valid access pattern not found"; the code goes on with -1
   entries, which is out-of-range access) *)
Definition read_off (nodes : table) (n dim : Z) : option (list Z) :=
  match walk_back (Z.to_nat (n + 2)) nodes n dim (getFlatIdx n 0 dim) n (repeat (-1) (Z.to_nat n)) with
  | Some (pat, cnt) => if cnt =? -1 then Some pat else None
  | None => None
  end.

(* --- one access point per pin of a cell ------------------------------------------------------ *)
(* an access point: its cost, and whether it offers a via up *)
Record ap := mkAp { apCost : Z; apUp : bool }.
(* a pin: an identity and its access points *)
Record pin := mkPin { pinId : Z; pinAps : list ap }.
Definition pin0 := mkPin 0 [].
Definition ap0 := mkAp 0 false.
Definition pin_at (pins : list pin) (i : Z) : pin := nth (Z.to_nat i) pins pin0.
Definition ap_at (pins : list pin) (i a : Z) : ap := nth (Z.to_nat a) (pinAps (pin_at pins i)) ap0.
Definition numPins (pins : list pin) : Z := Z.of_nat (length pins).
(* FlexPA_prep.cpp:1785-1789: maxAccessPointSize *)
Definition maxAps (pins : list pin) : Z :=
  fold_left Z.max (map (fun p => Z.of_nat (length (pinAps p))) pins) 0.

Section Pins.
  (* the checker, on vias named by (pin identity, access point number) *)
  Variable drc : list (Z * Z) -> bool.
  Variable blamed : list (Z * Z) -> Z -> bool.

  (* FlexPA_prep.cpp:1933-1989 genPatterns_gc: no vias at all counts as a violation.  The window
     computed at 1944-1957 (with llx in place of lly, urx, ury) is not used by the checker in this
     mode: FlexGC_init.cpp:147 returns first. *)
  Definition genPatterns_gc (objs : list (Z * Z)) : bool :=
    match objs with [] => false | _ => drc objs end.
  (* the via of access point [a] of pin [i], if it offers one: FlexPA_prep.cpp:2062-2071 *)
  Definition via_of (pins : list pin) (i a : Z) : list (Z * Z) :=
    if apUp (ap_at pins i a) then [(pinId (pin_at pins i), a)] else [].

  (* FlexPA_prep.cpp:1879-1914 genPatterns_init, on a freshly constructed vector *)
  Definition genPatterns_init (pins : list pin) (dim : Z) : table :=
    let s := getFlatIdx (-1) 0 dim in
    let e := getFlatIdx (numPins pins) 0 dim in
    let t := fun _ => node0 in
    let t := tset t s (mkNode 0 0 (-1)) in
    let t := tset t e (mkNode INF 0 (-1)) in
    fold_left (fun t i =>
      fold_left (fun t a =>
        let k := getFlatIdx i a dim in
        tset t k (mkNode (pathCost (t k)) (apCost (ap_at pins i a)) (prevNodeIdx (t k))))
        (upto (Z.of_nat (length (pinAps (pin_at pins i))))) t)
      (upto (numPins pins)) t.
  (* FlexPA_prep.cpp:1916-1930 genPatterns_reset *)
  Definition genPatterns_reset (pins : list pin) (dim : Z) (t : table) : table :=
    let s := getFlatIdx (-1) 0 dim in
    let e := getFlatIdx (numPins pins) 0 dim in
    let t := fun k => mkNode INF (nodeCost (t k)) (-1) in
    let t := tset t s (mkNode 0 0 (prevNodeIdx (t s))) in
    tset t e (mkNode (pathCost (t e)) 0 (prevNodeIdx (t e))).

  (* the cached verdicts vioEdges: -1 unknown, 0 clean, 1 violation *)
  Definition cache := Z -> Z.
  Definition cset (c : cache) (i v : Z) : cache := fun j => if j =? i then v else c j.
  Definition inSet (s : list (Z * Z)) (x : Z * Z) : bool :=
    existsb (fun y => (fst y =? fst x) && (snd y =? snd x)) s.
  Definition b2z (b : bool) : Z := if b then 1 else 0.

  (* FlexPA_prep.cpp:2049-2118: the verdict on an edge, from the cache or freshly computed with the
     extra look-back; note that only the two-via verdict is stored (2089) *)
  Definition hasVio (pins : list pin) (dim p i a j b : Z) (nodes : table) (c : cache) : bool * cache :=
    let ei := getFlatEdgeIdx i a b dim in
    if negb (c ei =? -1) then (c ei =? 1, c) else
    let objs := via_of pins i a ++ via_of pins j b in
    let v := negb (genPatterns_gc objs) in
    let c' := cset c ei (b2z v) in
    if negb v && negb (p =? -1) then
      let pp := prevNodeIdx (nodes p) in
      if negb (pp =? -1) then
        let (h, d) := getNestedIdx pp dim in
        if negb (h =? -1) then (negb (genPatterns_gc (objs ++ via_of pins h d)), c')
        else (v, c')
      else (v, c')
    else (v, c').

  (* FlexPA_prep.cpp:2028-2137 getEdgeCost for pins *)
  Definition getEdgeCost (pins : list pin) (dim : Z) (used viol : list (Z * Z))
      (p q : Z) (nodes : table) (c : cache) : Z * cache :=
    let (i, a) := getNestedIdx p dim in
    let (j, b) := getNestedIdx q dim in
    if (i =? -1) || (j =? numPins pins) then (0, c) else
    let (v, c') := hasVio pins dim p i a j b nodes c in
    if v then (1000, c')
    else if ((i =? 0) && inSet used (i, a)) || ((j =? numPins pins - 1) && inSet used (j, b)) then (100, c')
    else if inSet viol (i, a) || inSet viol (j, b) then (1000, c')
    else (Z.quot (nodeCost (nodes p) + nodeCost (nodes q)) 2, c').

  (* FlexPA_prep.cpp:1991-2026 *)
  Definition genPatterns_perform (pins : list pin) (dim : Z) (used viol : list (Z * Z))
      (st : table * cache) : table * cache :=
    perform cache (getEdgeCost pins dim used viol) (numPins pins) dim st.

  (* the vias of a whole pattern, in pin order: FlexPA_prep.cpp:2187-2216 *)
  Definition pattern_vias (pins : list pin) (pat : list Z) : list (Z * Z) :=
    flat_map (fun x => via_of pins (fst x) (snd x)) (combine (upto (numPins pins)) pat).
  Definition pat_eqb (a b : list Z) : bool :=
    Nat.eqb (length a) (length b) && forallb (fun x => fst x =? snd x) (combine a b).

  (* the working sets of genPatterns (1796-1798), the recorded patterns (uniqueInstPatterns) and
     numValidPattern *)
  Record pstate := mkP { psNodes : table; psVio : cache; psSeen : list (list Z);
                         psUsed : list (Z * Z); psViol : list (Z * Z); psOut : list (list (Z * Z)) }.
  (* FlexPA_prep.cpp:2139-2296 genPatterns_commit: None = no complete pattern could be read off;
     Some (again, s) with again = hasNewPattern.  The pattern is recorded as pairs (pin identity,
     access point); the reordering by terminal at 2226-2252 and the boundary points are not
     modelled. *)
  Definition genPatterns_commit (pins : list pin) (dim : Z) (s : pstate) : option (bool * pstate) :=
    match read_off (psNodes s) (numPins pins) dim with
    | None => None
    | Some pat =>
      let s := mkP (psNodes s) (psVio s) (psSeen s)
                   (combine (upto (numPins pins)) pat ++ psUsed s) (psViol s) (psOut s) in
      if existsb (pat_eqb pat) (psSeen s) then Some (false, s) else
      let seen := pat :: psSeen s in
      let objs := pattern_vias pins pat in
      if genPatterns_gc objs
      then Some (true, mkP (psNodes s) (psVio s) seen (psUsed s) (psViol s)
                  (psOut s ++ [combine (map pinId pins) pat]))
      else Some (true, mkP (psNodes s) (psVio s) seen (psUsed s)
                  (filter (fun x => negb (match objs with [] => true | _ => false end)
                                    && blamed objs (pinId (pin_at pins (fst x))))
                          (combine (upto (numPins pins)) pat) ++ psViol s) (psOut s))
    end.
  (* FlexPA_prep.cpp:1809-1810 first half of an iteration: reset, perform *)
  Definition search (pins : list pin) (dim : Z) (s : pstate) : pstate :=
    let t := genPatterns_reset pins dim (psNodes s) in
    let (t', c') := genPatterns_perform pins dim (psUsed s) (psViol s) (t, psVio s) in
    mkP t' c' (psSeen s) (psUsed s) (psViol s) (psOut s).
  (* FlexPA_prep.cpp:1808-1812 one iteration: reset, perform, commit *)
  Definition round (pins : list pin) (dim : Z) (s : pstate) : option (bool * pstate) :=
    genPatterns_commit pins dim (search pins dim s).
  (* FlexPA_prep.cpp:1808-1824 the loop, left when a pattern comes up twice *)
  Fixpoint rounds (k : nat) (pins : list pin) (dim : Z) (s : pstate) {struct k} : option pstate :=
    match k with
    | O => Some s
    | S k' => match round pins dim s with
              | None => None
              | Some (again, s') => if again then rounds k' pins dim s' else Some s'
              end
    end.
  (* global.cpp: ACCESS_PATTERN_END_ITERATION_NUM *)
  Definition ACCESS_PATTERN_END_ITERATION_NUM : nat := 5.
  (* FlexPA_prep.cpp:1790-1806: fresh working data *)
  Definition fresh (pins : list pin) (dim : Z) (out : list (list (Z * Z))) : pstate :=
    mkP (genPatterns_init pins dim) (fun _ => -1) [] [] [] out.
  (* FlexPA_prep.cpp:1777-1871 genPatterns: the recorded patterns; a second attempt with the pins
     reversed if nothing valid came out (error messages not modelled) *)
  Definition genPatterns (pins : list pin) : option (list (list (Z * Z))) :=
    match pins with
    | [] => Some []
    | _ =>
      let dim := maxAps pins in
      match rounds ACCESS_PATTERN_END_ITERATION_NUM pins dim (fresh pins dim []) with
      | None => None
      | Some s =>
        match psOut s with
        | [] => match rounds ACCESS_PATTERN_END_ITERATION_NUM (rev pins) dim (fresh (rev pins) dim []) with
                | None => None
                | Some s' => Some (psOut s')
                end
        | _ => Some (psOut s)
        end
      end
    end.
End Pins.

(* --- one access pattern per cell of a row ---------------------------------------------------- *)
Section Row.
  (* the verdict of the checker on the facing boundary vias of two neighbouring cells:
     FlexPA_prep.cpp:1613-1628 with addAccessPatternObj 1643-1689; [clean i a b] is for cells i and
     i+1 using their patterns a and b *)
  Variable clean : Z -> Z -> Z -> bool.
  (* per cell, the costs of its recorded patterns *)
  Variable costs : list (list Z).

  (* FlexPA_prep.cpp:1372: maxAccessPatternSize *)
  Definition maxAccessPatternSize : Z := 5.
  Definition numInsts : Z := Z.of_nat (length costs).
  Definition costs_at (i : Z) : list Z := nth (Z.to_nat i) costs [].
  (* FlexPA_prep.cpp:1385-1412 genInstPattern_init *)
  Definition genInstPattern_init : table :=
    let dim := maxAccessPatternSize in
    let t := fun _ => node0 in
    let t := tset t (getFlatIdx (-1) 0 dim) (mkNode 0 0 (-1)) in
    let t := tset t (getFlatIdx numInsts 0 dim) (mkNode INF 0 (-1)) in
    fold_left (fun t i =>
      fold_left (fun t a =>
        let k := getFlatIdx i a dim in
        tset t k (mkNode (pathCost (t k)) (nth (Z.to_nat a) (costs_at i) 0) (prevNodeIdx (t k))))
        (upto (Z.of_nat (length (costs_at i)))) t)
      (upto numInsts) t.
  (* FlexPA_prep.cpp:1597-1641 getEdgeCost for cells: nothing is cached *)
  Definition getEdgeCostInst (p q : Z) (nodes : table) (c : unit) : Z * unit :=
    let (i, a) := getNestedIdx p maxAccessPatternSize in
    let (j, b) := getNestedIdx q maxAccessPatternSize in
    if (i =? -1) || (j =? numInsts) then (0, c) else
    if clean i a b then (Z.quot (nodeCost (nodes p) + nodeCost (nodes q)) 2, c) else (1000, c).
  (* FlexPA_prep.cpp:1365-1383 genInstPattern: the chosen pattern of each cell *)
  Definition genInstPattern : option (list Z) :=
    match costs with
    | [] => Some []
    | _ => read_off (fst (perform unit getEdgeCostInst numInsts maxAccessPatternSize
                            (genInstPattern_init, tt))) numInsts maxAccessPatternSize
    end.
End Row.
