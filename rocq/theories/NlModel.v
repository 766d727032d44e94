(* Reading of the netlist from DEF: components, IO pins and the connections of nets (src/io/io.cpp:413-477
   getDefComponents, 912-1017 getDefTerminals (names only), 534-618 getDefNets up to its wires;
   src/db/obj/frBlock.h:265-282).  Objects are their numbers in the order of reading: component i, its pin number p
   (frInstTerm), IO pin t, net n (special nets and nets count together, parser->numNets).  The sections come in any order
   the file has; a file is the list of its entries.  exit(1) is None.  Shapes, placements and wires are in FixModel
   and IoModel. *)
From Verif Require Import Base.
From Coq Require Import List String.
Open Scope list_scope.

Section Nl.
Variable macro : string -> option (list string).                      (* name2refBlock; names of the pins of a library cell, in order *)
(* one connection of a net: ( PIN p ), ( * p ), ( inst p ) *)
Inductive conn := CIo (p : string) | CAll (p : string) | CPin (inst p : string).
Inductive entry := EComp (id cell : string) | ETerm (name : string) | ENet (name : string) (special : bool) (cs : list conn).
Record net := mkNet { n_name : string; n_special : bool; n_terms : list nat; n_pins : list (nat * nat) }.
(* insts with the names of their pins; terms; nets; the net of a pin (frInstTerm::net) and of an IO pin *)
Record db := mkDb { insts : list (string * list string); terms : list string; nets : list net; pin_net : nat * nat -> option nat; term_net : nat -> option nat }.
Definition db0 : db := mkDb [] [] [] (fun _ => None) (fun _ => None).
(* the first in the list of that name *)
Fixpoint first_named (s : string) (l : list string) : option nat :=
  match l with [] => None | x :: l => if String.eqb x s then Some O else option_map S (first_named s l) end.
(* name2inst, name2term: the last entered of that name *)
Fixpoint last_named (s : string) (l : list string) : option nat :=
  match l with
  | [] => None
  | x :: l => match last_named s l with Some i => Some (S i) | None => if String.eqb x s then Some O else None end
  end.
Definition upd {A B} (eqb : A -> A -> bool) (f : A -> B) (a : A) (b : B) : A -> B := fun x => if eqb x a then b else f x.
Definition pair_eqb (a b : nat * nat) : bool := Nat.eqb (fst a) (fst b) && Nat.eqb (snd a) (snd b).
(* instTerm->addToNet(netIn); netIn->addInstTerm(instTerm): 587-588, 609-610 *)
Definition join (n : nat) (i p : nat) (d : db) (nt : net) : db * net :=
  (mkDb (insts d) (terms d) (nets d) (upd pair_eqb (pin_net d) (i, p) (Some n)) (term_net d), mkNet (n_name nt) (n_special nt) (n_terms nt) (n_pins nt ++ [(i, p)])).
(* 580-592: every component that has such a pin *)
Fixpoint join_all (n : nat) (pin : string) (i : nat) (is : list (string * list string)) (d : db) (nt : net) : db * net :=
  match is with
  | [] => (d, nt)
  | (_, ps) :: is =>
    match first_named pin ps with
    | Some p => let '(d, nt) := join n i p d nt in join_all n pin (S i) is d nt
    | None => join_all n pin (S i) is d nt
    end
  end.
(* 566-618: one connection *)
Definition connect (n : nat) (c : conn) (d : db) (nt : net) : option (db * net) :=
  match c with
  | CIo p =>
    match last_named p (terms d) with
    | None => None
    | Some t => Some (mkDb (insts d) (terms d) (nets d) (pin_net d) (upd Nat.eqb (term_net d) t (Some n)), mkNet (n_name nt) (n_special nt) (n_terms nt ++ [t]) (n_pins nt))
    end
  | CAll p => Some (join_all n p O (insts d) d nt)
  | CPin inst p =>
    match last_named inst (map fst (insts d)) with
    | None => None
    | Some i =>
      match nth_error (insts d) i with
      | None => None
      | Some (_, ps) => match first_named p ps with None => None | Some k => Some (join n i k d nt) end
      end
    end
  end.
Fixpoint connects (n : nat) (cs : list conn) (d : db) (nt : net) : option (db * net) :=
  match cs with [] => Some (d, nt) | c :: cs => match connect n c d nt with Some (d, nt) => connects n cs d nt | None => None end end.
Definition read_entry (e : entry) (d : db) : option db :=
  match e with
  | EComp id cell =>                                                  (* 422-465 *)
    match macro cell with
    | None => None
    | Some ps => match last_named id (map fst (insts d)) with Some _ => None | None => Some (mkDb (insts d ++ [(id, ps)]) (terms d) (nets d) (pin_net d) (term_net d)) end
    end
  | ETerm s => Some (mkDb (insts d) (terms d ++ [s]) (nets d) (pin_net d) (term_net d))
  | ENet s sp cs =>
    let n := List.length (nets d) in
    match connects n cs d (mkNet s sp [] []) with
    | Some (d, nt) => Some (mkDb (insts d) (terms d) (nets d ++ [nt]) (pin_net d) (term_net d))
    | None => None
    end
  end.
Fixpoint read_from (es : list entry) (d : db) : option db :=
  match es with [] => Some d | e :: es => match read_entry e d with Some d => read_from es d | None => None end end.
Definition read (es : list entry) : option db := read_from es db0.
End Nl.
