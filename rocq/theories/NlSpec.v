(* What the netlist of a DEF says, independent of the reader: which component and pin a connection names, among the
   components and IO pins before it in the file. *)
From Verif Require Import Base NlModel.
From Coq Require Import List String.
Open Scope list_scope.

Section S.
Variable macro : string -> option (list string).
Definition comps (es : list entry) : list (string * string) := flat_map (fun e => match e with EComp id cell => [(id, cell)] | _ => [] end) es.
Definition ios (es : list entry) : list string := flat_map (fun e => match e with ETerm s => [s] | _ => [] end) es.
Definition net_list (es : list entry) : list (string * bool * list conn) := flat_map (fun e => match e with ENet s sp cs => [(s, sp, cs)] | _ => [] end) es.
(* connection [c] of a net after the entries [es] names pin number p of component number i; IO pin number t *)
Definition names_pin (es : list entry) (c : conn) (i p : nat) : Prop :=
  exists id cell ps pin, nth_error (comps es) i = Some (id, cell) /\ macro cell = Some ps /\ nth_error ps p = Some pin /\
    match c with CIo _ => False | CAll s => s = pin | CPin inst s => inst = id /\ s = pin end.
Definition names_io (es : list entry) (c : conn) (t : nat) : Prop := exists s, nth_error (ios es) t = Some s /\ c = CIo s.
(* net number n of the file: the entries before it and its connections *)
Definition net_at (es : list entry) (n : nat) (before : list entry) (s : string) (sp : bool) (cs : list conn) : Prop :=
  exists after, es = before ++ ENet s sp cs :: after /\ List.length (net_list before) = n.
(* net n of the file names the pin *)
Definition on_net (es : list entry) (n i p : nat) : Prop := exists before s sp cs c, net_at es n before s sp cs /\ In c cs /\ names_pin before c i p.
Definition io_on_net (es : list entry) (n t : nat) : Prop := exists before s sp cs c, net_at es n before s sp cs /\ In c cs /\ names_io before c t.
(* a file that can be read: the cells are in the library, component names differ, and each connection names what is there *)
Definition complete (es : list entry) : Prop :=
  (forall id cell, In (id, cell) (comps es) -> macro cell <> None) /\ NoDup (map fst (comps es)) /\
  (forall n before s sp cs c, net_at es n before s sp cs -> In c cs ->
     match c with CIo _ => exists t, names_io before c t | CAll _ => True | CPin _ _ => exists i p, names_pin before c i p end).
(* names of the pins of a cell differ, names of IO pins differ *)
Definition distinct (es : list entry) : Prop := (forall cell ps, macro cell = Some ps -> NoDup ps) /\ NoDup (ios es).
End S.
