(* What LEF's cut spacing rules demand of two cuts, in terms of shapes, nets and the rules of the file. *)
From Verif Require Import Base Stl GeomModel GeomSpec GcModel GcSpec CutModel.

(* centre of a cut, halves rounded towards zero *)
Definition middle (b : box) : point := mkPt (Z.quot (bleft b + bright b) 2) (Z.quot (bbottom b + btop b) 2).
(* closer than [v], centre to centre or edge to edge *)
Definition nearer_than (c2c : bool) (a b : box) (v : Z) : Prop :=
  if c2c then dist2 (middle a) (middle b) < v * v else closer_than a b v.
Definition inside (a b : box) : Prop := forall p, in_box p a -> in_box p b.
Definition cut_area (b : box) : Z := (bright b - bleft b) * (btop b - bbottom b).

(* an obstruction that stands for more than one cut *)
Definition large_obs (W : cworker) (l : Z) (r : grect) : Prop :=
  q_kind W (gnet r) = KObs /\ cl_width (q_layer W l) < Z.min (deltaX (gbox r)) (deltaY (gbox r)).
(* ADJACENTCUTS n WITHIN w: the rule binds a cut with [n] other cuts closer than [w], or with such an
   obstruction closer than [w], or that is itself such an obstruction *)
Definition crowded (W : cworker) (l : Z) (c : crule) (r : grect) : Prop :=
  match k_adj c with
  | None => True
  | Some n =>
    large_obs W l r \/
    (exists o, In o (q_rects W l) /\ o <> r /\ large_obs W l o /\ nearer_than (k_c2c c) (gbox r) (gbox o) (k_within c)) \/
    (exists os, NoDup os /\ n <= Z.of_nat (length os) /\
       forall o, In o os -> In o (q_rects W l) /\ o <> r /\ nearer_than (k_c2c c) (gbox r) (gbox o) (k_within c))
  end.
(* the distance asked for: WITHIN when one of the cuts is such an obstruction, else the spacing *)
Definition asked (W : cworker) (l1 l2 : Z) (c : crule) (r o : grect) (v : Z) : Prop :=
  (k_adj c <> None /\ (large_obs W l1 r \/ large_obs W l2 o) /\ v = k_within c) \/
  (~ (k_adj c <> None /\ (large_obs W l1 r \/ large_obs W l2 o)) /\ v = k_spc c).
(* PARALLELOVERLAP: the cuts overlap in projection and no one shape of theirs, on the metal layer below or
   above, covers the place between them *)
Definition shared_metal (W : cworker) (l : Z) (r o : grect) : Prop :=
  exists k s, (k = l - 1 \/ k = l + 1) /\ 0 <= k <= q_top W /\ In s (q_rects W k) /\
    (gnet s = gnet r \/ gnet s = gnet o) /\ inside (between (gbox r) (gbox o)) (gbox s).
Definition faces (W : cworker) (l : Z) (r o : grect) : Prop :=
  0 < run_length (gbox r) (gbox o) /\ ~ shared_metal W l r o.
(* EXCEPTSAMEPGNET *)
Definition pg_pair (W : cworker) (c : crule) (r o : grect) : Prop :=
  k_adj c <> None /\ k_xpg c = true /\ gnet r = gnet o /\ q_kind W (gnet r) = KSignal true.
(* two cuts of one layer that do not touch break the rule, as far as their shapes go *)
Definition breaks_shape (W : cworker) (l : Z) (c : crule) (r o : grect) : Prop :=
  crowded W l c r /\ ~ pg_pair W c r o /\ (k_prlo c = true -> faces W l r o) /\
  exists v, asked W l l c r o v /\ nearer_than (k_c2c c) (gbox r) (gbox o) v.
(* ... and AREA: the rule is about pairs with a cut at least that large *)
Definition area_binds (c : crule) (r o : grect) : Prop :=
  match k_area c with None => True | Some a => a <= Z.max (cut_area (gbox r)) (cut_area (gbox o)) end.
(* ... and nets: a SAMENET rule binds cuts of one net only; another one binds cuts of different nets,
   and cuts of one net if the layer has no SAMENET rule *)
Definition net_binds (lef : list crule) (c : crule) (r o : grect) : Prop :=
  if k_same c then gnet r = gnet o
  else gnet r <> gnet o \/ (forall c', In c' lef -> k_second c' = None -> k_same c' = false).
Definition breaks (W : cworker) (l : Z) (lef : list crule) (c : crule) (r o : grect) : Prop :=
  In c lef /\ k_second c = None /\ net_binds lef c r o /\ area_binds c r o /\ breaks_shape W l c r o.

(* ---- rules between two layers ---- *)
(* the rule of the file for layer [s] that counts, without and with SAMENET: the first one *)
Definition first_of (same : bool) (s : Z) (lef : list crule) (c : crule) : Prop :=
  exists pre post, lef = pre ++ c :: post /\ k_same c = same /\ k_second c = Some s /\
    (forall c', In c' pre -> ~ (k_same c' = same /\ k_second c' = Some s)).
(* for one net the SAMENET rule, if there is one, replaces the other *)
Definition between_layers (lef : list crule) (s : Z) (r o : grect) (c : crule) : Prop :=
  exists g, first_of false s lef g /\
    ((gnet r = gnet o /\ first_of true s lef c) \/
     (c = g /\ (gnet r <> gnet o \/ forall c', ~ first_of true s lef c'))).
(* overlapping cuts are measured centre to centre *)
Definition overlapping (a b : box) : Prop :=
  bleft a < bright b /\ bleft b < bright a /\ bbottom a < btop b /\ bbottom b < btop a.
Definition stacked_apart (c2c : bool) (a b : box) (v : Z) : Prop :=
  (overlapping a b -> dist2 (middle a) (middle b) < v * v) /\ (~ overlapping a b -> nearer_than c2c a b v).
(* STACK allows one cut of a net on top of the other *)
Definition stack_ok (c : crule) (r o : grect) : Prop :=
  k_stack c = true /\ gnet r = gnet o /\ (inside (gbox r) (gbox o) \/ inside (gbox o) (gbox r)).
Definition breaks_inter (l s : Z) (lef : list crule) (c : crule) (r o : grect) : Prop :=
  between_layers lef s r o c /\ ~ stack_ok c r o /\ stacked_apart (k_c2c c) (gbox r) (gbox o) (k_spc c).

(* ---- what LEF files and workers look like ---- *)
(* a rule names another layer, or has adjacent cuts, not both; counts and distances are sensible *)
Definition good_rule (l : Z) (c : crule) : Prop :=
  0 <= k_spc c /\ (forall n, k_adj c = Some n -> 1 <= n /\ 0 <= k_within c) /\
  (forall s, k_second c = Some s -> s <> l /\ k_adj c = None) /\
  (forall a, k_area c = Some a -> 0 <= a).
(* the rules of layer [l] are those of the file *)
Definition rules_from (W : cworker) (l : Z) (lef : list crule) : Prop :=
  Forall (good_rule l) lef /\ exists w s, q_layer W l = lef_layer w s lef.
(* rectangles are rectangles, and no two of them are the same object *)
Definition good_worker (W : cworker) : Prop :=
  (forall l r, In r (q_rects W l) -> normalised (gbox r)) /\
  (forall l, NoDup (q_rects W l)) /\
  (forall l k r o, In r (q_rects W l) -> In o (q_rects W k) -> gid r = gid o -> r = o /\ l = k).
(* the cuts to be checked *)
Definition cuts_of (W : cworker) (rs : list (Z * grect)) : Prop :=
  forall l r, In (l, r) rs -> In r (q_rects W l).
