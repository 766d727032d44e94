(* What a via of LEF is, independent of the order of its layers. *)
From Verif Require Import Base GeomModel LvModel.
From Coq Require Import List String Permutation.
Open Scope list_scope.

Section S.
Variable T : Type.
Variable dbu : T -> Z.
Variable layer_num : string -> option Z.
Variable cut_classes : Z -> list (Z * Z).
(* the shapes of a layer: rectangles, then polygons, on that layer *)
Definition metal (n : Z) (l : vlayer T) : list shape :=
  map (fun '(xl, yl, xh, yh) => SRect n (mkBox (mkPt (Z.min (dbu xl) (dbu xh)) (Z.min (dbu yl) (dbu yh))) (mkPt (Z.max (dbu xl) (dbu xh)) (Z.max (dbu yl) (dbu yh))))) (vl_rects l) ++
  map (fun ps => SPoly n (map (fun '(x, y) => mkPt (dbu x) (dbu y)) ps)) (vl_polys l).
(* rectangle [s] has size of class number k of the layer; of two of the same size the later *)
Definition of_size (s : shape) (c : Z * Z) : Prop := match s with SRect _ b => fst c = Z.min (px (ur b) - px (ll b)) (py (ur b) - py (ll b)) /\ snd c = Z.max (px (ur b) - px (ll b)) (py (ur b) - py (ll b)) | SPoly _ _ => False end.
Definition has_class (cs : list (Z * Z)) (s : shape) (k : nat) : Prop := (exists c, nth_error cs k = Some c /\ of_size s c) /\ forall k' c, (k < k')%nat -> nth_error cs k' = Some c -> ~ of_size s c.
Definition classless (cs : list (Z * Z)) (s : shape) : Prop := forall c, In c cs -> ~ of_size s c.
(* the class of a via: of the first of its cuts that has one *)
Definition class_of (cs : list (Z * Z)) (cuts : list shape) (o : option nat) : Prop :=
  match o with
  | Some k => exists a s b, cuts = a ++ s :: b /\ Forall (classless cs) a /\ has_class cs s k
  | None => Forall (classless cs) cuts
  end.
Definition known_layers (v : lef_via T) : Prop := forall l, In l (v_layers v) -> layer_num (vl_name l) <> None.
(* no two of its layers are the same *)
Definition layers_differ (v : lef_via T) : Prop := NoDup (map (fun l => layer_num (vl_name l)) (v_layers v)).
(* the via definition [d] is the via [v] of the file: a bottom, a cut and a top layer one above the other *)
Definition is_via (v : lef_via T) (d : via_def) : Prop :=
  exists n b c t, Permutation (v_layers v) [b; c; t] /\
    layer_num (vl_name b) = Some n /\ layer_num (vl_name c) = Some (n + 1) /\ layer_num (vl_name t) = Some (n + 2) /\
    d_name d = v_name v /\ d_default d = v_default v /\ d_layer1 d = metal n b /\ d_cut d = metal (n + 1) c /\ d_layer2 d = metal (n + 2) t /\
    d_cut d <> [] /\ class_of (cut_classes (n + 1)) (d_cut d) (d_class d).
End S.
