(* Reading of LEF 5.8 cut spacing rules from properties of cut layers (src/io/io.cpp:1963-2571).  A property is a list of
   words separated by blanks.  A word is a keyword, a number or another word.  [dbu] is frCoord(round(x * DBUPerUU)), [int_of]
   the value read into an int, [cls] frLayer::getCutClassIdx by name (frLayer.h:160-166; None for -1).  Messages are not
   modelled. *)
From Verif Require Import Base.
From Coq Require Import List String.
Open Scope list_scope.

Inductive kw := SPACING | SEMI | SAMEMASK | MAXXY | LAYER | ADJACENTCUTS | PARALLELOVERLAP | PARALLELWITHIN | SAMEMETALSHAREDEDGE | AREA | CENTERTOCENTER | SAMENET | SAMEMETAL | SAMEVIA
  | STACK | ORTHOGONALSPACING | CUTCLASS | SHORTEDGEONLY | PRL | CONCAVECORNER | WIDTH | ENCLOSURE | EDGELENGTH | PARALLEL | WITHIN | EXTENSION | NONEOLCONVEXCORNER | MINLENGTH | ABOVEWIDTH | MASKOVERLAP | WRONGDIRECTION
  | EXACTALIGNED | TWOCUTS | TWOCUTSSPACING | SAMECUT | EXCEPTSAMEPGNET | EXCEPTALLWITHIN | ABOVE | BELOW | TO | ALL | NOPRL | SIDEPARALLELOVERLAP.
(* a number for each keyword, to compare them *)
Definition code (k : kw) : Z :=
  match k with SPACING => 0 | SEMI => 1 | SAMEMASK => 2 | MAXXY => 3 | LAYER => 4 | ADJACENTCUTS => 5 | PARALLELOVERLAP => 6 | PARALLELWITHIN => 7 | SAMEMETALSHAREDEDGE => 8 | AREA => 9 | CENTERTOCENTER => 10 | SAMENET => 11 | SAMEMETAL => 12 | SAMEVIA => 13 | STACK => 14 | ORTHOGONALSPACING => 15 | CUTCLASS => 16 | SHORTEDGEONLY => 17 | PRL => 18 | CONCAVECORNER => 19 | WIDTH => 20 | ENCLOSURE => 21 | EDGELENGTH => 22 | PARALLEL => 23 | WITHIN => 24 | EXTENSION => 25 | NONEOLCONVEXCORNER => 26 | MINLENGTH => 27 | ABOVEWIDTH => 28 | MASKOVERLAP => 29 | WRONGDIRECTION => 30 | EXACTALIGNED => 31 | TWOCUTS => 32 | TWOCUTSSPACING => 33 | SAMECUT => 34 | EXCEPTSAMEPGNET => 35 | EXCEPTALLWITHIN => 36 | ABOVE => 37 | BELOW => 38 | TO => 39 | ALL => 40 | NOPRL => 41 | SIDEPARALLELOVERLAP => 42 end.
Section Csp.
Variable T : Type.                                                    (* the numbers of the text *)
Variable dbu int_of : T -> Z.
Inductive word := K (k : kw) | Num (x : T) | Other (s : string).
Variable cls : word -> option Z.
(* word == string("...") *)
Definition isk (k : kw) (w : word) : bool := match w with K k' => code k =? code k' | _ => false end.

(* src/db/tech/frConstraint.h:1247-1262 frLef58CutSpacingConstraint: what is set, in the order in which it is set; what
   is not set is "not given" (-1, false or "") *)
Inductive setting := CutSpacing (v : Z) | CenterToCenter | SameNet | SameMetal | SameVia | SecondLayer (w : word) | Stack | Orthogonal (v : Z) | ClassName (w : word) | ClassIdx (i : Z)
  | ShortEdgeOnly | Prl (v : Z) | ConcaveCorner | Width (v : Z) | Enclosure (v : Z) | EdgeLength (v : Z) | ParLength (v : Z) | ParWithin (v : Z) | EdgeEnclosure (v : Z) | AdjEnclosure (v : Z) | Extension (v : Z)
  | EolWidth (v : Z) | MinLength (v : Z) | MaskOverlap | WrongDirection | AdjacentCuts (n : Z) | ExactAligned (n : Z) | TwoCuts (n : Z) | TwoCutsSpacing (v : Z) | SameCut | CutWithin1 (v : Z) | CutWithin (v : Z) | ExceptSamePGNet
  | ExceptAllWithin (v : Z) | Above | Below | ToAll | NoPrl | SideParallelOverlap | SameMask | MaxXY.
(* the stream (words left, failed), isSkip and the constraint *)
Record st := mkSt { s_ws : list word; s_bad : bool; s_skip : bool; s_con : list setting }.
Definition skip (s : st) : st := mkSt (s_ws s) (s_bad s) true (s_con s).
Definition put (x : setting) (s : st) : st := mkSt (s_ws s) (s_bad s) (s_skip s) (s_con s ++ [x]).
Definition fail (s : st) : st := mkSt (s_ws s) true (s_skip s) (s_con s).
Definition at_ws (ws : list word) (s : st) : st := mkSt ws (s_bad s) (s_skip s) (s_con s).
(* istr >> word *)
Definition rd (s : st) (k : word -> st -> st) (no : st -> st) : st :=
  if s_bad s then no s else match s_ws s with w :: r => k w (at_ws r s) | [] => no (fail s) end.
(* istr >> tmp: a number; otherwise the stream is failed *)
Definition rdn (s : st) (k : T -> st -> st) (no : st -> st) : st :=
  if s_bad s then no s else match s_ws s with Num x :: r => k x (at_ws r s) | _ => no (fail s) end.
(* istr.seekg(pos), which does nothing to a failed stream *)
Definition seek (ws : list word) (s : st) : st := if s_bad s then s else at_ws ws s.
Definition id (s : st) : st := s.

(* 2172-2271 what follows CONCAVECORNER *)
Definition concave (s : st) : st :=
  rd s (fun w s =>
    if isk WIDTH w then
      rdn s (fun x s => rd (put (Width (dbu x)) s) (fun w s => if isk ENCLOSURE w then
        rdn s (fun x s => rd (put (Enclosure (dbu x)) s) (fun w s => if isk EDGELENGTH w then
          rdn s (fun x s => put (EdgeLength (dbu x)) s) skip else skip s) skip) skip else skip s) skip) skip
    else if isk PARALLEL w then
      rdn s (fun x s => rd (put (ParLength (dbu x)) s) (fun w s => if isk WITHIN w then
        rdn s (fun x s => rd (put (ParWithin (dbu x)) s) (fun w s => if isk ENCLOSURE w then
          rdn s (fun x s => put (Enclosure (dbu x)) s) skip else skip s) skip) skip else skip s) skip) skip
    else if isk EDGELENGTH w then
      rdn s (fun x s => rd (put (EdgeLength (dbu x)) s) (fun w s => if isk ENCLOSURE w then
        rdn s (fun x s => rdn (put (EdgeEnclosure (dbu x)) s) (fun x s => put (AdjEnclosure (dbu x)) s) skip) skip else skip s) skip) skip
    else s) skip.
(* 2157-2332 what follows a cut class *)
Definition of_class (s : st) : st :=
  rd s (fun w s =>
    if isk SHORTEDGEONLY w then rd (put ShortEdgeOnly s) (fun w s => if isk PRL w then rdn s (fun x s => put (Prl (dbu x)) s) skip else s) id
    else if isk CONCAVECORNER w then concave (put ConcaveCorner s)
    else if isk EXTENSION w then rdn s (fun x s => put (Extension (dbu x)) s) skip
    else if isk NONEOLCONVEXCORNER w then
      rdn s (fun x s => rd (put (EolWidth (dbu x)) s) (fun w s => if isk MINLENGTH w then rdn s (fun x s => put (MinLength (dbu x)) s) skip else s) id) id
    else if isk ABOVEWIDTH w then
      rdn s (fun x s => rd (put (Width (dbu x)) s) (fun w s => if isk ENCLOSURE w then rdn s (fun x s => put (Enclosure (dbu x)) s) skip else skip s) id) skip
    else if isk MASKOVERLAP w then put MaskOverlap s
    else if isk WRONGDIRECTION w then put WrongDirection s
    else skip s) id.
(* 2142-2151, 2520-2535: the name of a cut class *)
Definition class_name (s : st) : st :=
  rd s (fun w s => match cls w with Some i => put (ClassIdx i) (put (ClassName w) s) | None => skip (put (ClassName w) s) end) skip.
(* 2120-2336 what follows LAYER *)
Definition of_layer (s : st) : st :=
  let s := rd s (fun w s => put (SecondLayer w) s) skip in
  rd s (fun w s =>
    if isk STACK w then put Stack s
    else if isk ORTHOGONALSPACING w then rdn s (fun x s => put (Orthogonal (dbu x)) s) skip
    else if isk CUTCLASS w then of_class (class_name s)
    else s) id.
(* 2095-2119, 2384-2410 the words both readers know; None: another word *)
Definition head (w : word) (s : st) : option st :=
  if isk SPACING w then Some (rdn s (fun x s => put (CutSpacing (dbu x)) s) skip)
  else if isk CENTERTOCENTER w then Some (put CenterToCenter s)
  else if isk SAMENET w then Some (put SameNet s)
  else if isk SAMEMETAL w then Some (put SameMetal s)
  else if isk SAMEVIA w then Some (put SameVia s)
  else None.
(* 2094-2337 the loop `while (istr >> word)`; each turn takes a word, so [n] = number of words is enough *)
Fixpoint layer_go (n : nat) (s : st) : st :=
  match n with
  | O => s
  | S n => if s_bad s then s else
    match s_ws s with
    | [] => s
    | w :: r => let s := at_ws r s in
      layer_go n (match head w s with Some s => s | None => if isk LAYER w then of_layer s else s end)
    end
  end.
Inductive outcome := Added (c : list setting) | Skipped | Hangs.
Definition st0 (ws : list word) : st := mkSt ws false false [].
Definition verdict (s : st) : outcome := if s_skip s then Skipped else Added (s_con s).
(* 2044-2348 getLef58CutSpacing_layer *)
Definition layer_read (ws : list word) : outcome := verdict (layer_go (List.length ws) (st0 ws)).

(* 2433-2454 the loop `while (!done)` after TWOCUTS: [pos] the place to go back to.  It does not end once the stream has
   failed: None *)
Fixpoint two_go (n : nat) (pos : list word) (s : st) : option st :=
  match n with
  | O => None
  | S n => if s_bad s then None else
    match s_ws s with
    | [] => None
    | w :: r => let s := at_ws r s in
      if isk TWOCUTSSPACING w then
        match s_ws s with
        | Num x :: r => two_go n r (put (TwoCutsSpacing (dbu x)) (at_ws r s))
        | _ => None
        end
      else if isk SAMECUT w then two_go n r (put SameCut s)
      else Some (seek pos s)
    end
  end.
(* 2418-2552 one turn of the loop after ADJACENTCUTS *)
Definition adj_word (w : word) (s : st) : option st :=
  if isk EXACTALIGNED w then Some (rdn s (fun x s => put (ExactAligned (int_of x)) s) skip)
  else if isk TWOCUTS w then
    match s_ws s with
    | Num x :: r => two_go (S (List.length r)) r (put (TwoCuts (int_of x)) (at_ws r s))
    | _ => Some (skip (fail s))
    end
  else if isk WITHIN w then Some (rdn s (fun x s => put (CutWithin (dbu x)) s) skip)
  else if isk EXCEPTSAMEPGNET w then Some (put ExceptSamePGNet s)
  else if isk EXCEPTALLWITHIN w then Some (rdn s (fun x s => put (ExceptAllWithin (dbu x)) s) skip)
  else if isk ENCLOSURE w then
    let pos := s_ws s in
    let s := rd s (fun w s => if isk ABOVE w then put Above s else if isk BELOW w then put Below s else seek pos s) id in
    Some (rdn s (fun x s => put (Enclosure (dbu x)) s) skip)
  else if isk CUTCLASS w then
    let s := class_name s in
    let pos := s_ws s in
    Some (rd s (fun w1 s => rd s (fun w2 s => if isk TO w1 && isk ALL w2 then put ToAll s else seek pos s) id) id)
  else if isk NOPRL w then Some (put NoPrl s)
  else if isk SIDEPARALLELOVERLAP w then Some (put SideParallelOverlap s)
  else if isk SAMEMASK w then Some (put SameMask s)
  else Some (skip s).
(* 2418-2553 the loop after ADJACENTCUTS *)
Fixpoint adj_go (n : nat) (s : st) : option st :=
  match n with
  | O => Some s
  | S n => if s_bad s then Some s else
    match s_ws s with
    | [] => Some (fail s)
    | w :: r => match adj_word w (at_ws r s) with Some s => adj_go n s | None => None end
    end
  end.
(* 2383-2555 the outer loop *)
Fixpoint cuts_go (n : nat) (s : st) : option st :=
  match n with
  | O => Some s
  | S n => if s_bad s then Some s else
    match s_ws s with
    | [] => Some s
    | w :: r => let s := at_ws r s in
      match head w s with
      | Some s => cuts_go n s
      | None => if isk ADJACENTCUTS w then adj_go (List.length r) (rdn s (fun x s => put (AdjacentCuts (int_of x)) s) skip) else cuts_go n s
      end
    end
  end.
(* 2350-2571 getLef58CutSpacing_adjacentCuts *)
Definition cuts_read (ws : list word) : outcome := match cuts_go (List.length ws) (st0 ws) with Some s => verdict s | None => Hangs end.

(* 1963-2017 getLef58CutSpacing_helper: the words from the last SPACING on, and the last heading *)
Inductive heading := HNone | HLayer | HCuts | HOther.
Definition keyword (h : heading) (w : word) : heading :=
  if isk SPACING w then HNone
  else if isk SAMEMASK w then match h with HNone => HOther | _ => h end
  else if isk LAYER w then HLayer
  else if isk ADJACENTCUTS w then HCuts
  else if isk MAXXY w || isk PARALLELOVERLAP w || isk PARALLELWITHIN w || isk SAMEMETALSHAREDEDGE w || isk AREA w then HOther
  else h.
Definition collect (ss : list word) (w : word) : list word := if isk SPACING w then [w] else ss ++ [w].
Definition rule_read (ws : list word) : outcome :=
  let ss := fold_left collect ws [] in
  match fold_left keyword ws HNone with HLayer => layer_read ss | HCuts => cuts_read ss | _ => Skipped end.
(* 2019-2042 getLef58CutSpacing: the constraints added to the layer; None: the reader does not end *)
Fixpoint cut_spacing_go (ws ss : list word) : option (list (list setting)) :=
  match ws with
  | [] => Some []
  | w :: r =>
    let ss := collect ss w in
    if isk SEMI w then
      match rule_read ss, cut_spacing_go r ss with
      | Hangs, _ => None | _, None => None
      | Added c, Some l => Some (c :: l)
      | Skipped, Some l => Some l
      end
    else cut_spacing_go r ss
  end.
Definition cut_spacing (ws : list word) : option (list (list setting)) := cut_spacing_go ws [].
End Csp.
