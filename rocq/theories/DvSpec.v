(* What of the vias and blockages survives being copied. *)
From Coq Require Import String.
From Verif Require Import Base DwModel DwSpec SnModel DvModel.
Local Open Scope string_scope.
Local Open Scope Z_scope.
Local Open Scope list_scope.

(* vias the parser accepts *)
Definition via_wf (v : via) : Prop :=
  is_name (v_name v) /\ (forall s m b, In (s, m, b) (v_rects v) -> is_name s) /\ (forall s m l, In (s, m, l) (v_polys v) -> is_name s /\ 3 <= Z.of_nat (length l)) /\
  match v_rule v with
  | None => v_rowcol v = (0, 0) /\ v_origin v = (0, 0) /\ v_offset v = (0, 0, 0, 0) /\ v_cut v = None
  | Some r => is_name (vr_name r) /\ is_name (vr_bot r) /\ is_name (vr_cut r) /\ is_name (vr_top r)
  end.
(* the same via with a cut pattern *)
Definition with_cut (c : option string) (v : via) : via := mkVia (v_name v) (v_rects v) (v_polys v) (v_rule v) (v_rowcol v) (v_origin v) (v_offset v) c.

(* blockages the parser accepts: -1 and mask 0 mean that nothing is given *)
Definition blk_wf (b : blk) : Prop :=
  (forall s, b_comp b = Some s -> is_name s) /\ (b_rects b <> [] \/ b_polys b <> []) /\ (forall l, In l (b_polys b) -> 3 <= Z.of_nat (length l)) /\
  match b_layer b with
  | Some s => is_name s /\ b_soft b = false /\ b_part b = -1 /\ ~ (b_slots b = true /\ b_fills b = true) /\ (b_spc b = -1 \/ b_drw b = -1)
  | None => b_slots b = false /\ b_fills b = false /\ b_pg b = false /\ b_mask b = 0 /\ b_spc b = -1 /\ b_drw b = -1 /\ b_polys b = [] /\ (b_soft b = true -> b_part b = -1)
  end.
