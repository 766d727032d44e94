(* What the LEF 5.8 spacing rules of cut layers demand, in terms of shapes, nets, cut classes and the rules of the file. *)
From Verif Require Import Base Stl GeomModel GeomSpec TechModel GcModel GcSpec EolModel StepModel CornModel CutModel CutSpec Cs8Model.

(* the cut has the width and length of class [i] of the layer, and of no later class *)
Definition of_class (cs : list (Z * Z)) (i : Z) (r : grect) : Prop :=
  exists w len, 0 <= i /\ nth_error cs (Z.to_nat i) = Some (w, len) /\ w = Z.min (deltaX (gbox r)) (deltaY (gbox r)) /\
    len = Z.max (deltaX (gbox r)) (deltaY (gbox r)) /\
    forall j, (Z.to_nat i < j)%nat -> nth_error cs j <> Some (w, len).
(* CUTCLASS: the rule is about the cuts of that class; otherwise about all *)
Definition about (V : worker8) (l : Z) (y : rule8) (r : grect) : Prop :=
  match y_class y with None => True | Some i => of_class (w8_classes V l) i r end.
(* [n] other such cuts are nearer than WITHIN *)
Definition crowd (V : worker8) (l : Z) (y : rule8) (n : Z) (r : grect) : Prop :=
  exists os, NoDup os /\ n <= Z.of_nat (length os) /\
    forall o, In o os -> In o (q_rects (w8 V) l) /\ o <> r /\ about V l y o /\ nearer_than (y_c2c y) (gbox r) (gbox o) (y_within y).
(* ADJACENTCUTS n: the first cut has n neighbours; TWOCUTS t: both have t *)
Definition binds_pair (V : worker8) (l : Z) (y : rule8) (r o : grect) : Prop :=
  (exists n, y_adj y = Some n /\ crowd V l y n r) \/ (exists t, y_two y = Some t /\ crowd V l y t r /\ crowd V l y t o).
(* the spacing; WITHIN when one of the two is an obstruction larger than a cut *)
Definition asked8 (V : worker8) (l : Z) (y : rule8) (r o : grect) (v : Z) : Prop :=
  ((large_obs (w8 V) l r \/ large_obs (w8 V) l o) /\ v = y_within y) \/
  (~ (large_obs (w8 V) l r \/ large_obs (w8 V) l o) /\ v = y_spc y).
(* a SAMENET rule binds cuts of one net *)
Definition nets_of (y : rule8) (r o : grect) : Prop := y_same y = true -> gnet r = gnet o.
(* an adjacent-cut rule the checker knows *)
Definition adj_rule (y : rule8) : Prop :=
  y_second y = None /\ y_more y = false /\ 0 <= y_spc y /\ 0 <= y_within y /\
  (exists n, y_adj y = Some n /\ 1 <= n) /\ (forall t, y_two y = Some t -> 1 <= t).
(* two cuts of the layer break it *)
Definition breaks8 (V : worker8) (l : Z) (y : rule8) (r o : grect) : Prop :=
  In y (w8_rules V l) /\ nets_of y r o /\ about V l y r /\ about V l y o /\ binds_pair V l y r o /\
  exists v, asked8 V l y r o v /\ nearer_than (y_c2c y) (gbox r) (gbox o) v.

(* ---- corners of the metal over or under a cut ---- *)
Definition vec (e : oedge) : Z * Z := (px (o_high e) - px (o_low e), py (o_high e) - py (o_low e)).
Definition cross (a b : oedge) : Z := fst (vec a) * snd (vec b) - snd (vec a) * fst (vec b).
(* metal lies to the left of its outline: a left turn is a convex corner *)
Definition left_turn (a b : oedge) : Prop := 0 < cross a b.
Definition right_turn (a b : oedge) : Prop := cross a b < 0.
Definition edge_len (e : oedge) : Z := Z.abs (fst (vec e)) + Z.abs (snd (vec e)).
(* the edge that starts in the corner touches the metal rectangle *)
Definition edge_touches (k : corner) (b : box) : Prop :=
  exists p, in_box p b /\ in_box p (between (pt_box (o_low (c_n k))) (pt_box (o_high (c_n k)))).
Definition border_line (p : point) (b : box) : Prop :=
  px p = px (ll b) \/ px p = px (ur b) \/ py p = py (ll b) \/ py p = py (ur b).
(* CONCAVECORNER: the cut is too near to the corner *)
Definition near_concave (y : rule8) (r o : grect) (k : corner) : Prop :=
  right_turn (c_p k) (c_n k) /\ edge_touches k (gbox o) /\ border_line (o_low (c_n k)) (gbox o) /\
  nearer_than (y_c2c y) (gbox r) (pt_box (o_low (c_n k))) (y_spc y).
(* a line end: a short edge between two convex corners; with MINLENGTH its neighbours are long enough *)
Definition line_end (y : rule8) (eol : Z) (a e b : oedge) : Prop :=
  left_turn a e /\ left_turn e b /\ edge_len e < eol /\ (forall v, y_minlen y = Some v -> v <= edge_len a /\ v <= edge_len b).
(* the legs of the triangle at the corner: the two edges, no longer than the spacing *)
Definition legs (y : rule8) (k : corner) (ex ey : Z) : Prop :=
  let lp := Z.min (y_spc y) (edge_len (c_p k)) in let ln := Z.min (y_spc y) (edge_len (c_n k)) in
  (px (o_low (c_n k)) = px (o_high (c_n k)) /\ ex = lp /\ ey = ln) \/
  (px (o_low (c_n k)) <> px (o_high (c_n k)) /\ ex = ln /\ ey = lp).
(* NONEOLCONVEXCORNER: a point of the cut lies inside the triangle of a convex corner that is not the end of a line end *)
Definition near_convex (y : rule8) (eol : Z) (r o : grect) (k : corner) : Prop :=
  left_turn (c_p k) (c_n k) /\ edge_touches k (gbox o) /\
  ~ line_end y eol (c_pp k) (c_p k) (c_n k) /\ ~ line_end y eol (c_p k) (c_n k) (c_nn k) /\
  exists ex ey p, legs y k ex ey /\ in_box p (gbox r) /\
    ex * Z.abs (py p - py (o_low (c_n k))) + ey * Z.abs (px p - px (o_low (c_n k))) < ex * ey.
(* the rule for a cut of its class inside a rectangle of the metal of layer [s] *)
Definition corner_rule (y : rule8) (s : Z) : Prop :=
  y_second y = Some s /\ y_stack y = false /\ y_orth y = false /\ y_class y <> None /\ y_short y = false /\
  (y_concave y = true \/ y_ext y = false) /\ 0 <= y_spc y.
Definition breaks_corner (V : worker8) (l s : Z) (y : rule8) (r o : grect) (k : corner) : Prop :=
  In y (w8_rules V l) /\ nets_of y r o /\ about V l y r /\ inside (gbox r) (gbox o) /\
  (if y_concave y then near_concave y r o k else exists eol, y_eol y = Some eol /\ near_convex y eol r o k).

(* ---- files and workers ---- *)
(* classes of the file: the index of a rule names a class, and a rule without a class belongs to a layer without classes *)
Definition classes_ok (V : worker8) (l : Z) : Prop :=
  forall y, In y (w8_rules V l) ->
    match y_class y with Some i => 0 <= i < Z.of_nat (length (w8_classes V l)) | None => w8_classes V l = [] end.
Definition no_samenet_rule (V : worker8) (l : Z) : Prop := forall y, In y (w8_rules V l) -> y_same y = false.
Definition axis_corner (k : corner) : Prop :=
  (px (o_low (c_n k)) = px (o_high (c_n k)) \/ py (o_low (c_n k)) = py (o_high (c_n k))).
