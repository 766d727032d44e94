(* Groups, pin properties, slots and fills the parser accepts, and how a DEF file gives them. *)
From Coq Require Import String.
From Verif Require Import Base DwModel DwSpec SnModel DvModel DnModel DnSpec DgModel.
Local Open Scope string_scope.
Local Open Scope Z_scope.
Local Open Scope list_scope.

Definition group_wf (g : group) : Prop :=
  is_name (gp_name g) /\ (forall s, In s (gp_members g) -> is_name s) /\ (forall s, gp_region g = Some s -> is_name s) /\ forall p, In p (gp_props g) -> prop_wf p.
Definition pprop_wf (p : pprop) : Prop :=
  (forall s, pp_inst p = Some s -> is_name s /\ s <> "PIN" /\ s <> "pin") /\ is_name (pp_pin p) /\ forall q, In q (pp_props p) -> prop_wf q.
Definition slot_wf (s : slot) : Prop := is_name (sl_layer s) /\ (sl_rects s <> [] \/ sl_polys s <> []) /\ forall l, In l (sl_polys s) -> (3 <= length l)%nat.
Definition fill_wf (f : fill) : Prop := match f with FLayer _ _ s => slot_wf s | FVia n _ _ l => is_name n /\ l <> [] end.
(* the same as text of a DEF file: points stand in parentheses, properties before the end of the entry and without their type *)
Definition def_point (q : Z * Z) : list tok := [W "("; Nu (fst q); Nu (snd q); W ")"].
Definition def_prop (p : prop) : list tok := [W "+"; W "PROPERTY"; W (fst (fst p)); W (snd (fst p))].
Definition def_geoms (s : slot) : list tok :=
  flat_map (fun b => match b with (a, b, c, d) => W "RECT" :: def_point (a, b) ++ def_point (c, d) end) (sl_rects s) ++ flat_map (fun l => W "POLYGON" :: flat_map def_point l) (sl_polys s).
Definition def_opts (m : Z) (o : bool) : list tok := (if m =? 0 then [] else [W "+"; W "MASK"; Nu m]) ++ if o then [W "+"; W "OPC"] else [].
Definition def_slot (s : slot) : list tok := [W "-"; W "LAYER"; W (sl_layer s)] ++ def_geoms s ++ [W ";"].
Definition def_fill (f : fill) : list tok :=
  match f with
  | FLayer m o s => [W "-"; W "LAYER"; W (sl_layer s)] ++ def_opts m o ++ def_geoms s ++ [W ";"]
  | FVia n m o l => [W "-"; W "VIA"; W n] ++ def_opts m o ++ flat_map def_point l ++ [W ";"]
  end.
Definition def_pprop (p : pprop) : list tok :=
  [W "-"; W (match pp_inst p with Some s => s | None => "PIN" end); W (pp_pin p)] ++ flat_map def_prop (pp_props p) ++ [W ";"].
Definition def_group (g : group) : list tok :=
  [W "-"; W (gp_name g)] ++ map W (gp_members g) ++ match gp_region g with Some s => [W "+"; W "REGION"; W s] | None => [] end ++ flat_map def_prop (gp_props g) ++ [W ";"].
(* the type of a property is the one declared for its name *)
Definition declared (ty : string -> ptype) (p : prop) : Prop := snd p = ty (fst (fst p)).
