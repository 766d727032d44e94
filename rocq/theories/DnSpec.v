(* Regions and nondefault rules the parser accepts. *)
From Coq Require Import String.
From Verif Require Import Base DwModel DwSpec SnModel DvModel DnModel.
Local Open Scope string_scope.
Local Open Scope Z_scope.
Local Open Scope list_scope.

Definition prop_wf (p : prop) : Prop := is_name (fst (fst p)) /\ is_name (snd (fst p)).
(* at least one rectangle *)
Definition region_wf (r : region) : Prop :=
  is_name (rg_name r) /\ rg_rects r <> [] /\ (forall s, rg_type r = Some s -> s = "FENCE" \/ s = "GUIDE") /\ forall p, In p (rg_props r) -> prop_wf p.
Definition ndr_wf (n : ndr) : Prop :=
  is_name (nd_name n) /\ (forall l, In l (nd_layers n) -> is_name (nl_name l)) /\ (forall s, In s (nd_vias n) -> is_name s) /\ (forall s, In s (nd_vrules n) -> is_name s) /\
  (forall s k, In (s, k) (nd_cuts n) -> is_name s) /\ forall p, In p (nd_props n) -> prop_wf p.
