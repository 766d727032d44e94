(* C148: the netlist read from DEF is what the file says. *)
From Verif Require Import Base NlModel NlSpec NlProofs.
From Coq Require Import List String.
Open Scope list_scope.

(* the file is accepted exactly if it is complete: cells in the library, component names that differ, connections to
   what comes before in the file *)
Theorem C148_accepted_iff_complete : forall macro es, distinct macro es -> (exists d, read macro es = Some d) <-> complete macro es.
Proof.
  intros macro es D. assert (H := read_inv macro es D). destruct (read macro es) as [d|]; split.
  - intros _. apply H.
  - intros _. exists d. reflexivity.
  - intros (d & E). discriminate E.
  - intros C. destruct (H C).
Qed.
Print Assumptions C148_accepted_iff_complete.

(* components, IO pins and nets are those of the file, in order; net n lists the pins the file's net n names, no others; a
   pin knows the last net that names it *)
Theorem C148_netlist : forall macro es d, distinct macro es -> read macro es = Some d ->
  map fst (insts d) = map fst (comps es) /\
  (forall i id cell, nth_error (comps es) i = Some (id, cell) -> exists ps, macro cell = Some ps /\ nth_error (insts d) i = Some (id, ps)) /\
  terms d = ios es /\
  map (fun nt => (n_name nt, n_special nt)) (nets d) = map fst (net_list es) /\
  (forall n i p, (exists nt, nth_error (nets d) n = Some nt /\ In (i, p) (n_pins nt)) <-> on_net macro es n i p) /\
  (forall n t, (exists nt, nth_error (nets d) n = Some nt /\ In t (n_terms nt)) <-> io_on_net es n t) /\
  (forall n i p, pin_net d (i, p) = Some n <-> on_net macro es n i p /\ forall m, (n < m)%nat -> ~ on_net macro es m i p) /\
  (forall n t, term_net d t = Some n <-> io_on_net es n t /\ forall m, (n < m)%nat -> ~ io_on_net es m t).
Proof.
  intros macro es d D E. assert (H := read_inv macro es D). rewrite E in H. destruct H as (V & _).
  split; [rewrite (i_insts _ _ _ V), map_map; apply map_ext; intros []; reflexivity|]. split.
  { intros i id cell N. assert (C := i_cells _ _ _ V id cell (nth_error_In _ _ N)). destruct (macro cell) as [ps|] eqn:M; [|destruct (C eq_refl)]. exists ps. split; [reflexivity|].
    rewrite (i_insts _ _ _ V). apply nth_map_some. exists (id, cell). split; [exact N|]. unfold pins_of. cbn [fst snd]. rewrite M. reflexivity. }
  split; [exact (i_terms _ _ _ V)|]. split; [exact (i_nets _ _ _ V)|]. split; [exact (i_pins _ _ _ V)|]. split; [exact (i_ios _ _ _ V)|]. split; [exact (i_pn _ _ _ V)|exact (i_tn _ _ _ V)].
Qed.
Print Assumptions C148_netlist.

(* if no pin is named by two nets, the two views of the netlist agree: a net lists a pin exactly if the pin knows the net *)
Theorem C148_both_ways : forall macro es d, distinct macro es -> read macro es = Some d ->
  (forall n m i p, on_net macro es n i p -> on_net macro es m i p -> n = m) ->
  forall n i p, (exists nt, nth_error (nets d) n = Some nt /\ In (i, p) (n_pins nt)) <-> pin_net d (i, p) = Some n.
Proof.
  intros macro es d D E U n i p. destruct (C148_netlist macro es d D E) as (_ & _ & _ & _ & P & _ & Q & _). rewrite P, Q. split.
  - intros H. split; [exact H|]. intros m L H'. specialize (U _ _ _ _ H H'). lia.
  - intros (H & _). exact H.
Qed.
Print Assumptions C148_both_ways.

(* a wildcard, an IO pin, two components, two nets *)
Example C148_ex :
  let macro := fun s => if String.eqb s "INV" then Some ["A"; "Z"; "VDD"]%string else None in
  let es := [EComp "u1" "INV"; EComp "u2" "INV"; ETerm "in"; ENet "vdd" true [CAll "VDD"]; ENet "n1" false [CIo "in"; CPin "u1" "A"]; ENet "n2" false [CPin "u1" "Z"; CPin "u2" "A"]]%string in
  distinct macro es /\
  exists d, read macro es = Some d /\ map (fun nt => (n_name nt, n_terms nt, n_pins nt)) (nets d) = [("vdd"%string, [], [(0, 2); (1, 2)]); ("n1"%string, [0], [(0, 0)]); ("n2"%string, [], [(0, 1); (1, 0)])]%nat /\
    pin_net d (1, 0)%nat = Some 2%nat /\ term_net d 0%nat = Some 1%nat /\ pin_net d (1, 1)%nat = None.
Proof.
  split.
  - split; [|constructor; [intros []|constructor]]. intros cell ps H. destruct (String.eqb cell "INV"); [|discriminate]. injection H as <-. repeat constructor; cbn; intuition discriminate.
  - eexists. split; [lazy; reflexivity|]. repeat split.
Qed.
(* without the condition: a pin in two nets is listed by both and knows the second *)
Example C148_two_nets_ex :
  let macro := fun s => if String.eqb s "INV" then Some ["A"; "Z"]%string else None in
  exists d, read macro [EComp "u1" "INV"; ENet "n1" false [CPin "u1" "A"]; ENet "n2" false [CPin "u1" "A"]]%string = Some d /\ map n_pins (nets d) = [[(0, 0)]; [(0, 0)]]%nat /\ pin_net d (0, 0)%nat = Some 1%nat.
Proof. eexists. split; [lazy; reflexivity|]. split; reflexivity. Qed.
(* a connection to a missing component ends the program *)
Example C148_missing_ex : read (fun _ => Some ["A"%string]) [ENet "n1" false [CPin "u1" "A"]]%string = None.
Proof. reflexivity. Qed.
