(* When two vias joined by a wire, or a via and the wire after a turn, are too close: shapes and rules only. *)
From Verif Require Import Base GeomModel GeomSpec TechSpec GcModel GcSpec RpModel.

(* a shape moved by [d] along the x or the y axis *)
Definition moved (dirx : bool) (d : Z) (b : box) : box :=
  let dx := if dirx then d else 0 in let dy := if dirx then 0 else d in
  mkBox (mkPt (bleft b + dx) (bbottom b + dy)) (mkPt (bright b + dx) (btop b + dy)).
Definition centred (b : box) : Prop :=
  bleft b = - bright b /\ bbottom b = - btop b /\ 0 < bright b /\ 0 < btop b.

(* layers 2, 4, 6, ... are routing layers, a cut layer between any two; every default via joins the two
   layers next to its cut layer, is centred, and belongs to one cut layer only *)
Record good_tech (T : rtech) : Prop := {
  gt_routing : forall l, 0 <= l <= rt_top T -> (rl_routing (rt_layer T l) = true <-> 2 <= l /\ Z.even l = true);
  gt_via : forall c v, rl_via (rt_layer T c) = Some v ->
    rv_cutl v = c /\ rv_l1 v = c - 1 /\ rv_l2 v = c + 1 /\ centred (rv_b1 v) /\ centred (rv_b2 v) /\ centred (rv_bc v);
  gt_id : forall c c' v v', rl_via (rt_layer T c) = Some v -> rl_via (rt_layer T c') = Some v' ->
    (rv_id v = rv_id v' <-> c = c') }.
(* the z-th routing layer *)
Definition layer_at (z : Z) : Z := 2 * z + 2.
(* [v] is the default via that leaves routing layer [l] downwards or upwards *)
Definition leaves (T : rtech) (l : Z) (down : bool) (v : rvia) : Prop :=
  let c := if down then l - 1 else l + 1 in c <= rt_top T /\ rl_via (rt_layer T c) = Some v.
(* its metal on that layer, and on the layer at its other end *)
Definition pad (v : rvia) (down : bool) : box := if down then rv_b2 v else rv_b1 v.
Definition far_pad (v : rvia) (down : bool) : box := if down then rv_b1 v else rv_b2 v.
Definition far_layer (l : Z) (down : bool) : Z := if down then l - 2 else l + 2.

(* spacing the run-length table of a layer requires of two shapes *)
Definition spacing_for (T : rtech) (l : Z) (a b : box) (v : Z) : Prop :=
  exists rows cols vals, rl_spc (rt_layer T l) = PrlTable rows cols vals /\ prl_table_ok rows cols vals /\
    table_value rows cols vals (Z.max (box_width a) (box_width b)) (run_length a b) v.
(* two shapes that do not touch and are closer than that *)
Definition too_close (T : rtech) (l : Z) (a b : box) : Prop :=
  exists v, spacing_for T l a b v /\ ~ touching a b /\ closer_than a b v.
(* a pad is wider than the wire that leaves it along the given axis *)
Definition sticks_out (T : rtech) (l : Z) (dirx : bool) (b : box) : Prop :=
  rl_width (rt_layer T l) < (if dirx then btop b - bbottom b else bright b - bleft b).

(* cut rules without any of the special forms *)
Definition plain_rule (r : rcut) : Prop :=
  rc_second r = false /\ rc_adj r = false /\ rc_prlo r = false /\ rc_area r = false.
(* between cuts of one layer: the same-net rules, or the general ones if there is no same-net rule *)
Definition cut_rule (T : rtech) (c : Z) (r : rcut) : Prop :=
  plain_rule r /\
  ((In r (rl_cuts (rt_layer T c) true) /\ rc_same r = true) \/
   (rl_cuts (rt_layer T c) true = [] /\ In r (rl_cuts (rt_layer T c) false) /\ rc_same r = false)).
(* between cuts of two layers: the rule may be given with either layer *)
Definition given_between (T : rtech) (c1 c2 : Z) (same : bool) (r : rcut) : Prop :=
  rl_inter (rt_layer T c1) same c2 = Some r \/ rl_inter (rt_layer T c2) same c1 = Some r.
Definition once_between (T : rtech) (c1 c2 : Z) : Prop :=
  forall same r r', given_between T c1 c2 same r -> given_between T c1 c2 same r' -> r = r'.
Definition inter_rule (T : rtech) (c1 c2 : Z) (r : rcut) : Prop :=
  given_between T c1 c2 true r \/ ((forall r', ~ given_between T c1 c2 true r') /\ given_between T c1 c2 false r).
(* two cuts closer than the rule allows: between centres (taken twice) or between the shapes *)
Definition twice_centre (b : box) : point := mkPt (bleft b + bright b) (bbottom b + btop b).
Definition cuts_conflict (r : rcut) (a b : box) : Prop :=
  if rc_c2c r then dist2 (twice_centre a) (twice_centre b) < (2 * rc_spc r) * (2 * rc_spc r)
  else closer_than a b (rc_spc r).

(* a minimum-cut rule looks at metal wider (and longer) than given ... *)
Definition wide_metal (c : rmin) (b : box) : Prop :=
  mc_width c < box_width b /\ match mc_len c with None => True | Some (len, _) => len < box_length b end.
(* ... and at cuts that reach it from the given side ... *)
Definition from_side (c : rmin) (down : bool) : Prop :=
  match mc_conn c with AnySide => True | FromAbove => down = false | FromBelow => down = true end.
(* ... on the metal, or up to the given distance along the axis *)
Definition cut_at_metal (c : rmin) (dirx : bool) (metal cutb : box) : Prop :=
  let dist := match mc_len c with None => 0 | Some (_, d) => d end in
  if dirx then bleft cutb - bright metal < dist /\ bleft metal - bright cutb < dist
  else bbottom cutb - btop metal < dist /\ bbottom metal - btop cutb < dist.

(* the wire after a turn at distance [d] from a via: default width, across the axis, from [lo] to [hi] *)
Definition turned_wire (T : rtech) (l : Z) (dirx : bool) (d lo hi : Z) : box :=
  let h := Z.quot (rl_width (rt_layer T l)) 2 in
  if dirx then mkBox (mkPt (d - h) lo) (mkPt (d + h) hi) else mkBox (mkPt lo (d - h)) (mkPt hi (d + h)).

(* like the notions above, with "at most" instead of "less than" *)
Definition at_most (a b : box) (v : Z) : Prop := exists p q, in_box p a /\ in_box q b /\ dist2 p q <= v * v.
Definition overlapping (a b : box) : Prop :=
  bleft a < bright b /\ bleft b < bright a /\ bbottom a < btop b /\ bbottom b < btop a.
Definition cuts_near (r : rcut) (a b : box) : Prop :=
  if rc_c2c r then dist2 (twice_centre a) (twice_centre b) <= (2 * rc_spc r) * (2 * rc_spc r)
  else at_most a b (rc_spc r).
Definition pads_near (T : rtech) (l : Z) (a b : box) : Prop :=
  exists v, spacing_for T l a b v /\ ~ overlapping a b /\ at_most a b v.
Definition cut_near_metal (c : rmin) (horz : bool) (metal cutb : box) : Prop :=
  let dist := match mc_len c with None => 0 | Some (_, d) => d end in
  if horz then bleft cutb - bright metal <= dist /\ bleft metal - bright cutb <= dist
  else bbottom cutb - btop metal <= dist /\ bbottom metal - btop cutb <= dist.
(* tables of run lengths only, as the LEF reader builds them from SPACING and PARALLELRUNLENGTH *)
Definition prl_rule (r : rule) : Prop :=
  r = NoRule \/ exists rows cols vals, r = PrlTable rows cols vals /\ prl_table_ok rows cols vals.
(* the run-length table asked with the larger of the widths of both pads of the via *)
Definition far_pads_near (T : rtech) (l : Z) (s : bool) (v : rvia) (d : Z) : Prop :=
  exists rows cols vals u, rl_spc (rt_layer T (far_layer l s)) = PrlTable rows cols vals /\
    table_value rows cols vals (Z.max (box_width (far_pad v s)) (box_width (pad v s)))
      (run_length (far_pad v s) (moved true d (far_pad v s))) u /\
    ~ overlapping (far_pad v s) (moved true d (far_pad v s)) /\ at_most (far_pad v s) (moved true d (far_pad v s)) u.
(* one of the cuts is near the wide metal of the other via *)
Definition mincut_cause (T : rtech) (l : Z) (s1 s2 : bool) (v1 v2 : rvia) (d : Z) : Prop :=
  exists c, In c (rl_mincut (rt_layer T l)) /\
    ((wide_metal c (pad v1 s1) /\ from_side c s2 /\
      cut_near_metal c (rl_horz (rt_layer T l)) (pad v1 s1) (moved (rl_horz (rt_layer T l)) d (rv_bc v2))) \/
     (wide_metal c (pad v2 s2) /\ from_side c s1 /\
      cut_near_metal c (rl_horz (rt_layer T l)) (pad v2 s2) (moved (rl_horz (rt_layer T l)) d (rv_bc v1)))).
(* the cuts are near *)
Definition cut_cause (T : rtech) (s1 s2 : bool) (dirx : bool) (v1 v2 : rvia) (d : Z) : Prop :=
  exists r, (if Bool.eqb s1 s2 then cut_rule T (rv_cutl v1) r
             else inter_rule T (rv_cutl v1) (rv_cutl v2) r /\ rc_stack r = false) /\
    cuts_near r (rv_bc v1) (moved dirx d (rv_bc v2)).
(* no cut rule has a negative spacing *)
Definition cut_rules_ok (T : rtech) : Prop :=
  (forall c same r, In r (rl_cuts (rt_layer T c) same) -> 0 <= rc_spc r) /\
  (forall c c' same r, rl_inter (rt_layer T c) same c' = Some r -> 0 <= rc_spc r).
