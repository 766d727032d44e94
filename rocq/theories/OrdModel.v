(* The order in which the nets of a clip are routed (src/dr/FlexDR_init.cpp:1643-1714 initNets_numPinsIn,
   src/dr/FlexDR_maze.cpp:1510-1584 mazeIterInit_sortRerouteNets at the first iteration, as called by route_queue_init_queue).
   Not modelled: next_permutation of later iterations (not reached from main). *)
From Verif Require Import Base GeomModel.

(* a pin of a net of the clip: its access patterns, each with its point and pin cost *)
Record opin := mkOP { op_aps : list (point * Z) }.
Record onet := mkON { on_id : Z; on_dist : Z; on_pins : list opin }.     (* getId, getMarkerDist, getPins *)
(* numPinsIn and pinBox of a net *)
Record oinfo := mkOI { oi_net : onet; oi_num : Z; oi_box : box }.

(* 1648-1664, 1673-1689: the first access pattern without cost, else the first; None: no access pattern (null pointer) *)
Definition pin_point (p : opin) : option point :=
  match find (fun a => snd a =? 0) (op_aps p) with
  | Some a => Some (fst a)
  | None => match op_aps p with a :: _ => Some (fst a) | [] => None end
  end.
Fixpoint points (ps : list opin) : option (list point) :=
  match ps with
  | [] => Some []
  | p :: ps => match pin_point p, points ps with Some a, Some r => Some (a :: r) | _, _ => None end
  end.
(* 1669-1702: x1, y1, x2, y2 *)
Definition grow (b : Z * Z * Z * Z) (p : point) : Z * Z * Z * Z :=
  let '(x1, y1, x2, y2) := b in
  (if px p <? x1 then px p else x1, if py p <? y1 then py p else y1, if px p >? x2 then px p else x2, if py p >? y2 then py p else y2).
Definition in_b (b : box) (p : point) : bool :=
  (bleft b <=? px p) && (px p <=? bright b) && (bbottom b <=? py p) && (py p <=? btop b).
(* 1668-1713 of one net; [all] the points of the pins of all nets *)
Definition info (ext : box) (all : list point) (n : onet) : option oinfo :=
  match points (on_pins n) with
  | None => None
  | Some ps =>
      let '(x1, y1, x2, y2) := fold_left grow ps (bright ext, btop ext, bleft ext, bbottom ext) in
      Some (if (x1 <=? x2) && (y1 <=? y2) then
              let b := box_set x1 y1 x2 y2 in mkOI n (Z.of_nat (length (filter (in_b b) all))) b
            else mkOI n 99999 ext)
  end.
Fixpoint infos (ext : box) (all : list point) (ns : list onet) : option (list oinfo) :=
  match ns with
  | [] => Some []
  | n :: ns => match info ext all n, infos ext all ns with Some a, Some r => Some (a :: r) | _, _ => None end
  end.
(* 1643-1714 *)
Definition numPinsIn (ext : box) (ns : list onet) : option (list oinfo) :=
  match points (flat_map on_pins ns) with Some all => infos ext all ns | None => None end.

(* FlexDR_maze.cpp:1515-1516: a product of frCoord, 32 bits *)
Definition wrap32 (z : Z) : Z := (z + 2147483648) mod 4294967296 - 2147483648.
Definition area32 (b : box) : Z := wrap32 ((bright b - bleft b) * (btop b - bbottom b)).
(* 1511-1519, 1520-1522, 1523-1532 *)
Definition comp1 (a b : oinfo) : bool :=
  if oi_num a =? oi_num b then
    if area32 (oi_box a) =? area32 (oi_box b) then on_id (oi_net a) <? on_id (oi_net b) else area32 (oi_box a) <? area32 (oi_box b)
  else oi_num a <? oi_num b.
Definition comp2 (a b : oinfo) : bool :=
  if on_dist (oi_net a) =? on_dist (oi_net b) then on_id (oi_net a) <? on_id (oi_net b) else on_dist (oi_net a) <? on_dist (oi_net b).
Definition comp3 (a b : oinfo) : bool :=
  if on_dist (oi_net a) =? on_dist (oi_net b) then comp1 a b else on_dist (oi_net a) <? on_dist (oi_net b).
Definition comp_of (fixMode : Z) : option (oinfo -> oinfo -> bool) :=
  if (fixMode =? 0) || (fixMode =? 9) then Some comp1
  else if (fixMode =? 1) || (fixMode =? 2) then Some comp2
  else if (fixMode =? 3) || (fixMode =? 4) || (fixMode =? 5) then Some comp3 else None.
(* std::sort *)
Section Sort.
Variable lt : oinfo -> oinfo -> bool.
Fixpoint ins (x : oinfo) (l : list oinfo) : list oinfo :=
  match l with [] => [x] | y :: r => if lt y x then y :: ins x r else x :: y :: r end.
Fixpoint isort (l : list oinfo) : list oinfo := match l with [] => [] | x :: r => ins x (isort r) end.
End Sort.
(* 1551-1560: with a seed, neighbours are exchanged; [idx] the numbers drawn *)
Fixpoint setn {A} (i : nat) (x : A) (l : list A) : list A :=
  match l, i with [], _ => [] | _ :: r, O => x :: r | y :: r, S i => y :: setn i x r end.
Definition swap_at {A} (l : list A) (i : nat) : list A :=
  let j := Nat.modulo (i + 1) (length l) in
  match nth_error l i, nth_error l j with Some a, Some b => setn j a (setn i b l) | _, _ => l end.
(* 1533-1562 at iteration 0 *)
Definition sort_nets (fixMode : Z) (idx : list nat) (l : list oinfo) : list oinfo :=
  let l := match comp_of fixMode with Some c => isort c l | None => l end in
  if (2 <=? Z.of_nat (length l)) then fold_left swap_at idx l else l.
(* the order of a clip whose nets are all ripped up *)
Definition route_order (fixMode : Z) (idx : list nat) (ext : box) (ns : list onet) : option (list oinfo) :=
  match numPinsIn ext ns with Some l => Some (sort_nets fixMode idx l) | None => None end.
