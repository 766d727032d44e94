(* What of the pins survives being copied. *)
From Coq Require Import String.
From Verif Require Import Base DwModel DwSpec SnModel DpModel.
Local Open Scope string_scope.
Local Open Scope Z_scope.
Local Open Scope list_scope.

(* pins the parser accepts *)
Definition head_wf (h : shape_head) : Prop := is_name (fst (fst h)).
Definition poly_wf (p : dpoly) : Prop := head_wf (fst p) /\ 3 <= Z.of_nat (length (snd p)).
Definition dvia_wf (v : dvia) : Prop := is_name (fst (fst v)) /\ forall m, snd (fst v) = Some m -> 0 <= m.
Definition dplace_wf (p : dplace) : Prop := match p with DNone => True | DPlaced _ _ o => is_orient o | DCover _ _ o => is_orient o | DFixed _ _ o => is_orient o end.
Definition port_wf (q : port) : Prop :=
  (forall l, In l (q_layers q) -> head_wf (fst l)) /\ (forall p, In p (q_polys q) -> poly_wf p) /\ (forall v, In v (q_vias q) -> dvia_wf v) /\ dplace_wf (q_place q).
Definition pin_wf (p : dpin) : Prop :=
  is_name (d_name p) /\ is_name (d_net p) /\ (forall s, d_dir p = Some s -> is_name s) /\ (forall s, d_use p = Some s -> In s uses) /\ (forall s, d_supply p = Some s -> is_name s) /\ (forall s, d_ground p = Some s -> is_name s) /\
  (forall l, In l (d_layers p) -> head_wf (fst l)) /\ (forall x, In x (d_polys p) -> poly_wf x) /\ (forall v, In v (d_vias p) -> dvia_wf v) /\ (forall q, In q (d_ports p) -> port_wf q) /\
  dplace_wf (d_place p) /\ (forall a, In a (d_ant p) -> In (fst (fst a)) ant_keys).
(* pins the writer cannot print: with a polygon, a layer and a via, a port with a layer, an antenna statement *)
Definition broken (p : dpin) : Prop :=
  d_polys p <> [] \/ (d_layers p <> [] /\ d_vias p <> []) \/ (exists q, In q (d_ports p) /\ q_layers q <> []) \/ d_ant p <> [].
(* pins it prints as they are *)
Definition last_placed (p : dpin) : Prop := d_place p = DNone \/ d_ports p = [] \/ exists l q, d_ports p = l ++ [q] /\ q_place q <> DNone.
Definition faithful (p : dpin) : Prop := (d_layers p <> [] \/ d_vias p = []) /\ last_placed p.
