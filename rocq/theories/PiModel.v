(* Which cells get access patterns, in which order their pins are searched, and how the chosen points are handed back to the pins:
   src/pa/FlexPA_prep.cpp:1689-1776 (getInsts, isSkipTerm, prepPattern_inst), 2219-2252 (second half of genPatterns_commit) and
   1482-1515 (genInstPattern_commit).  The search in between is PaModel.genPatterns.
   Simplifications: sums are unbounded numbers (the code adds 32-bit numbers); std::sort is a stable insertion sort. *)
From Verif Require Import Base GeomModel.

(* src/frBaseTypes.h:128-133 frTermEnum *)
Inductive ttype := TNormal | TClock | TPower | TGround.
(* src/frBaseTypes.h:229-245 MacroClassEnum *)
Inductive mclass := MUnknown | MCore | MTieHigh | MTieLow | MWelltap | MSpacer | MAntenna | MCover | MEndcapPre | MBlock | MRing | MPad | MPadPower
                  | MPadSpacer | MEndcapBl.
(* a pin of a cell: its address and the access points of the cell's kind of placement *)
Record ppin := mkPP { pp_id : Z; pp_aps : list point }.
(* an instance terminal with the pins of its terminal *)
Record pterm := mkPTm { pt_type : ttype; pt_pins : list ppin }.
Record pinst := mkPI { pi_class : mclass; pi_terms : list pterm }.

(* 1711-1722 isSkipTerm, isSkipInstTerm *)
Definition skip (t : pterm) : bool := match pt_type t with TNormal => false | TClock => false | _ => true end.
(* 1691-1696 *)
Definition core (c : mclass) : bool := match c with MCore => true | MTieHigh => true | MTieLow => true | MAntenna => true | _ => false end.
(* 1689-1709 *)
Definition getInsts (is : list pinst) : list pinst := filter (fun i => core (pi_class i) && existsb (fun t => negb (skip t)) (pi_terms i)) is.

(* the pins the loops of 1732-1737, 2226-2230 and 1500-1507 pass through *)
Definition signal_pins (i : pinst) : list ppin := flat_map (fun t => if skip t then [] else pt_pins t) (pi_terms i).
(* 1741-1751: the sum of x over the number of points, converted to an integer; [None]: no points *)
Definition mean_x (p : ppin) : option Z :=
  match pp_aps p with
  | [] => None
  | _ => Some (Z.quot (fold_left (fun s a => s + px a) (pp_aps p) 0) (Z.of_nat (length (pp_aps p))))
  end.
Definition keyed (ps : list ppin) : list (Z * ppin) := flat_map (fun p => match mean_x p with Some m => [(m, p)] | None => [] end) ps.
(* 1757-1759 *)
Fixpoint kins (x : Z * ppin) (l : list (Z * ppin)) : list (Z * ppin) :=
  match l with [] => [x] | y :: r => if fst y <? fst x then y :: kins x r else x :: y :: r end.
Fixpoint ksort (l : list (Z * ppin)) : list (Z * ppin) := match l with [] => [] | x :: r => kins x (ksort r) end.
(* 1732-1773: the pins handed to genPatterns *)
Definition search_pins (i : pinst) : list ppin := map snd (ksort (keyed (signal_pins i))).

(* 2188-2197 pin2AP: pin and number of its access point; [pat] is the pattern found for [search_pins] *)
Definition pin2ap (ps : list ppin) (pat : list Z) (id : Z) : option Z :=
  option_map snd (find (fun x => fst x =? id) (combine (map pp_id ps) pat)).
(* an access point: pin it belongs to, number, place *)
Definition ap : Type := Z * Z * point.
Definition point_of (p : ppin) (k : Z) : point := nth (Z.to_nat k) (pp_aps p) (mkPt 0 0).
(* 2226-2252: the points in the order of the terminals; a pin without is left out *)
Definition reorder (i : pinst) (ps : list ppin) (pat : list Z) : list ap :=
  flat_map (fun p => match pin2ap ps pat (pp_id p) with Some k => [(pp_id p, k, point_of p k)] | None => [] end) (signal_pins i).
Definition ap_x (a : ap) : Z := px (snd a).
(* 2219-2222, 2236-2246: leftAP and rightAP.  x is below 2^31-1 and above -2^31 *)
Definition left_ap (l : list ap) : option ap :=
  fold_left (fun b a => match b with None => Some a | Some c => if ap_x a <? ap_x c then Some a else b end) l None.
Definition right_ap (l : list ap) : option ap :=
  fold_left (fun b a => match b with None => Some a | Some c => if ap_x a >? ap_x c then Some a else b end) l None.
(* 1496-1515: pin after pin gets the next point of the pattern; false: read beyond the end of the pattern *)
Fixpoint hand_out (ps : list ppin) (l : list ap) : list (Z * ap) * bool :=
  match ps with
  | [] => ([], true)
  | p :: ps => match l with
               | [] => ([], false)
               | a :: l => let (r, ok) := hand_out ps l in ((pp_id p, a) :: r, ok)
               end
  end.
Definition commit_inst (i : pinst) (pat : list Z) : list (Z * ap) * bool := hand_out (signal_pins i) (reorder i (search_pins i) pat).
