(* What of the special nets survives being copied. *)
From Coq Require Import String.
From Verif Require Import Base DwModel DwSpec SnModel.
Local Open Scope string_scope.
Local Open Scope Z_scope.
Local Open Scope list_scope.

(* special nets the parser accepts: names are not punctuation, and via names no words of the path syntax *)
Definition via_name (s : string) : Prop := is_name s /\ ~ In s ("TAPER" :: path_keys).
Definition item_wf (i : item) : Prop := match i with IVia m s o _ => via_name s /\ (forall x, o = Some x -> is_orient x) /\ (forall x, m = Some x -> 0 <= x) | _ => True end.
Definition sopt_wf (o : sopt) : Prop := match o with OShape s => In s shapes | OStyle _ => True end.
Definition path_wf (p : path) : Prop := is_name (p_layer p) /\ (forall o, In o (p_opts p) -> sopt_wf o) /\ (forall i, In i (p_items p) -> item_wf i).
Definition wire_wf (w : wire) : Prop := w_paths w <> [] /\ (forall p, In p (w_paths w) -> path_wf p) /\ match w_status w with SShield n => is_name n | _ => True end.
Definition snet_wf (n : snet) : Prop :=
  is_name (n_name n) /\ n_name n <> "MUSTJOIN" /\ (forall c, In c (n_conns n) -> is_name (fst (fst c)) /\ is_name (snd (fst c))) /\ (forall w, In w (n_wires n) -> wire_wf w) /\
  (forall p, In p (n_polys n) -> is_name (snd (fst p)) /\ snd p <> []) /\ (forall p, In p (n_rects n) -> is_name (snd (fst p))) /\
  (forall s, n_source n = Some s -> In s sources) /\ (forall s, n_pattern n = Some s -> In s patterns) /\ (forall s, n_original n = Some s -> is_name s) /\ (forall s, n_use n = Some s -> In s uses).
(* what the writer can print *)
Definition no_synthesized (n : snet) : Prop := forall c, In c (n_conns n) -> snd c = false.
Definition drawn (i : item) : Prop := match i with IRect _ _ _ _ _ => False | IVirtual _ _ => False | _ => True end.
Definition all_drawn (n : snet) : Prop := forall w p i, In w (n_wires n) -> In p (w_paths w) -> In i (p_items p) -> drawn i.
Definition no_shapes (n : snet) : Prop := n_polys n = [] /\ n_rects n = [].
(* what the writer drops without a word *)
Definition undropped (n : snet) : Prop := n_vias n = [] /\ n_style n = None.
Definition drop (n : snet) : snet := mkSn (n_name n) (n_conns n) (n_wires n) (n_polys n) (n_rects n) [] (n_bump n) (n_weight n) (n_source n) (n_pattern n) (n_original n) (n_use n) None.
(* wires without their virtual points and rectangles *)
Definition drawnb (i : item) : bool := match i with IRect _ _ _ _ _ => false | IVirtual _ _ => false | _ => true end.
Definition strip_path (p : path) : path := mkPath (p_layer p) (p_width p) (p_opts p) (p_first p) (filter drawnb (p_items p)).
Definition strip_wire (w : wire) : wire := mkWire (w_status w) (map strip_path (w_paths w)).
Definition strip (n : snet) : snet := mkSn (n_name n) (n_conns n) (map strip_wire (n_wires n)) (n_polys n) (n_rects n) (n_vias n) (n_bump n) (n_weight n) (n_source n) (n_pattern n) (n_original n) (n_use n) (n_style n).
Definition no_masked_rect (n : snet) : Prop := forall w p m a b c d, In w (n_wires n) -> In p (w_paths w) -> ~ In (IRect (Some m) a b c d) (p_items p).
