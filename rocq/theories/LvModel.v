(* Reading of the vias of LEF (src/io/io.cpp:4531-4672 getLefVias; src/db/tech/frLayer.h:149-158 getCutClassIdx;
   src/db/tech/frViaDef.h).  Coordinates of the file are of type T; dbu is round(x * dbUnit).  exit(1) is None, a via
   that is skipped with a warning is Some None.  Names of vias (name2via) are not modelled: the via is added to the list. *)
From Verif Require Import Base GeomModel.
From Coq Require Import List String.
Open Scope list_scope.

Inductive shape := SRect (l : Z) (b : box) | SPoly (l : Z) (ps : list point).
Record via_def := mkVD { d_name : string; d_default : bool; d_layer1 : list shape; d_cut : list shape; d_layer2 : list shape; d_class : option nat }.
Section Lv.
Variable T : Type.
Variable dbu : T -> Z.
Variable layer_num : string -> option Z.                               (* tech->name2layer, getLayerNum *)
Variable cut_classes : Z -> list (Z * Z).                             (* widths and lengths of the cut classes of a layer *)
Record vlayer := mkVL { vl_name : string; vl_rects : list (T * T * T * T); vl_polys : list (list (T * T)) }.
Record lef_via := mkLV { v_name : string; v_default : bool; v_layers : list vlayer }.
(* std::map<frLayerNum, int>, ordered by the layer number; a second layer of a number replaces the first *)
Fixpoint minsert (k : Z) (v : nat) (m : list (Z * nat)) : list (Z * nat) :=
  match m with
  | [] => [(k, v)]
  | (k', v') :: m' => if k <? k' then (k, v) :: m else if k =? k' then (k, v) :: m' else (k', v') :: minsert k v m'
  end.
(* 4555-4564 *)
Fixpoint layer_map (i : nat) (ls : list vlayer) (m : list (Z * nat)) : option (list (Z * nat)) :=
  match ls with
  | [] => Some m
  | l :: ls => match layer_num (vl_name l) with None => None | Some n => layer_map (S i) ls (minsert n i m) end
  end.
(* 4586-4637 *)
Definition rect_box (r : T * T * T * T) : box := let '(xl, yl, xh, yh) := r in box_set (dbu xl) (dbu yl) (dbu xh) (dbu yh).
Definition shapes (n : Z) (l : vlayer) : list shape :=
  map (fun r => SRect n (rect_box r)) (vl_rects l) ++ map (fun ps => SPoly n (map (fun p => mkPt (dbu (fst p)) (dbu (snd p))) ps)) (vl_polys l).
Definition add_figs (cnt : nat) (ss : list shape) (d : via_def) : via_def :=
  match cnt with
  | O => mkVD (d_name d) (d_default d) (d_layer1 d ++ ss) (d_cut d) (d_layer2 d) (d_class d)
  | S O => mkVD (d_name d) (d_default d) (d_layer1 d) (d_cut d ++ ss) (d_layer2 d) (d_class d)
  | _ => mkVD (d_name d) (d_default d) (d_layer1 d) (d_cut d) (d_layer2 d ++ ss) (d_class d)
  end.
Fixpoint add_layers (cnt : nat) (ls : list vlayer) (m : list (Z * nat)) (d : via_def) : via_def :=
  match m with
  | [] => d
  | (n, i) :: m => add_layers (S cnt) ls m (match nth_error ls i with Some l => add_figs cnt (shapes n l) d | None => d end)
  end.
(* frLayer.h:149-158: the last class of that size *)
Fixpoint class_idx (cs : list (Z * Z)) (w l : Z) (i : nat) (found : option nat) : option nat :=
  match cs with
  | [] => found
  | (cw, cl) :: cs => class_idx cs w l (S i) (if (cw =? w) && (cl =? l) then Some i else found)
  end.
(* 4645-4662: the first rectangle with a class *)
Fixpoint find_class (cs : list (Z * Z)) (figs : list shape) : option nat :=
  match figs with
  | [] => None
  | SRect _ b :: figs => match class_idx cs (box_width b) (box_length b) O None with Some k => Some k | None => find_class cs figs end
  | SPoly _ _ :: figs => find_class cs figs
  end.
Definition shape_layer (s : shape) : Z := match s with SRect l _ => l | SPoly l _ => l end.
Definition first_key (m : list (Z * nat)) : Z := match m with [] => 0 | (k, _) :: _ => k end.
Definition last_key (m : list (Z * nat)) : Z := fst (last m (0, O)).
(* 4531-4672 *)
Definition read_via (v : lef_via) : option (option via_def) :=
  if negb (Nat.eqb (List.length (v_layers v)) 3) then None
  else match layer_map O (v_layers v) [] with
  | None => Some None
  | Some m =>
    if negb (first_key m + 2 =? last_key m) then None
    else
      let d := add_layers O (v_layers v) m (mkVD (v_name v) (v_default v) [] [] [] None) in
      match d_cut d with
      | [] => None                                                     (* getCutLayerNum *)
      | s :: _ => Some (Some (mkVD (d_name d) (d_default d) (d_layer1 d) (d_cut d) (d_layer2 d) (find_class (cut_classes (shape_layer s)) (d_cut d))))
      end
  end.
(* the file: the via is appended to the technology's *)
Fixpoint read_vias (vs : list lef_via) (ds : list via_def) : option (list via_def) :=
  match vs with
  | [] => Some ds
  | v :: vs => match read_via v with None => None | Some None => read_vias vs ds | Some (Some d) => read_vias vs (ds ++ [d]) end
  end.
End Lv.
Arguments mkVL {T} _ _ _. Arguments vl_name {T} _. Arguments vl_rects {T} _. Arguments vl_polys {T} _. Arguments mkLV {T} _ _ _. Arguments v_name {T} _. Arguments v_default {T} _. Arguments v_layers {T} _.
