(* What LEF's end-of-line spacing rules ask for, in terms of outlines of metal and the statements of the file. *)
From Verif Require Import Base Stl GeomModel GeomSpec GcModel GcSpec EolModel.

(* position of a point seen from an edge, whose metal is on its left: how far along the edge it is, counted
   from its start, and how far it is in front of it, away from the metal *)
Definition along (e : oedge) (p : point) : Z :=
  Z.sgn (px (o_high e) - px (o_low e)) * (px p - px (o_low e)) +
  Z.sgn (py (o_high e) - py (o_low e)) * (py p - py (o_low e)).
Definition ahead (e : oedge) (p : point) : Z :=
  Z.sgn (py (o_high e) - py (o_low e)) * (px p - px (o_low e)) -
  Z.sgn (px (o_high e) - px (o_low e)) * (py p - py (o_low e)).
Definition len (e : oedge) : Z := along e (o_high e).
Definition straight (e : oedge) : Prop :=
  (px (o_low e) = px (o_high e) /\ py (o_low e) <> py (o_high e)) \/
  (px (o_low e) <> px (o_high e) /\ py (o_low e) = py (o_high e)).

(* unit squares, named by their lower left corner: the square lies in the window of [e] that extends from
   [a] to [b] along the edge and from [c] to [d] in front of it *)
Definition window (e : oedge) (a b c d : Z) (x y : Z) : Prop :=
  forall p, (p = mkPt x y \/ p = mkPt (x + 1) (y + 1)) -> a <= along e p <= b /\ c <= ahead e p <= d.
(* metal directly behind an edge *)
Definition behind (e : oedge) (x y : Z) : Prop := window e 0 (len e) (-1) 0 x y.
(* the end-of-line region: t_space in front of the edge, t_within to either side *)
Definition front (s : eolstmt) (e : oedge) (x y : Z) : Prop :=
  window e (- t_within s) (len e + t_within s) 0 (t_space s) x y.
(* the regions in which PARALLELEDGE ps WITHIN pw looks for neighbours, on either side of the end *)
Definition side_low (s : eolstmt) (ps pw : Z) (e : oedge) (x y : Z) : Prop := window e (- ps) 0 (- pw) (t_within s) x y.
Definition side_high (s : eolstmt) (ps pw : Z) (e : oedge) (x y : Z) : Prop := window e (len e) (len e + ps) (- pw) (t_within s) x y.

(* [f] runs in the opposite direction, so the two edges look at each other, and metal behind [f] is in the region *)
Definition faces (s : eolstmt) (e f : oedge) : Prop :=
  along e (o_high f) < along e (o_low f) /\ exists x y, behind f x y /\ front s e x y.
(* [p] looks at the side of the wire that ends in [e] *)
Definition beside_low (s : eolstmt) (ps pw : Z) (e p : oedge) : Prop :=
  ahead e (o_high p) < ahead e (o_low p) /\ exists x y, behind p x y /\ side_low s ps pw e x y.
Definition beside_high (s : eolstmt) (ps pw : Z) (e p : oedge) : Prop :=
  ahead e (o_low p) < ahead e (o_high p) /\ exists x y, behind p x y /\ side_high s ps pw e x y.

(* the end of a wire: a short edge, the outline comes from behind it and goes back behind it *)
Definition wire_end (s : eolstmt) (prev e next : oedge) : Prop :=
  len e < t_width s /\ ahead e (o_low prev) < 0 /\ ahead e (o_high next) < 0.
(* PARALLELEDGE: the rule binds ends with a neighbour on one side (TWOEDGES: on both) *)
Definition binds (V : oenv) (s : eolstmt) (e : oedge) : Prop :=
  match t_par s with
  | None => True
  | Some (ps, pw, two) =>
      let l := exists p, In p (v_edges V) /\ beside_low s ps pw e p in
      let r := exists p, In p (v_edges V) /\ beside_high s ps pw e p in
      if two then l /\ r else l \/ r
  end.

(* where the violation is: between the two edges *)
Definition span (e : oedge) : box :=
  mkBox (mkPt (Z.min (px (o_low e)) (px (o_high e))) (Z.min (py (o_low e)) (py (o_high e))))
        (mkPt (Z.max (px (o_low e)) (px (o_high e))) (Z.max (py (o_low e)) (py (o_high e)))).
Definition gap (e f : oedge) : box := between (span e) (span f).
(* metal in the gap (one unit wider along the edge when the gap has no area): the edges do not see each other *)
Definition square_in (x y : Z) (b : box) : Prop := bleft b <= x /\ x + 1 <= bright b /\ bbottom b <= y /\ y + 1 <= btop b.
Definition no_area (b : box) : Prop := bleft b = bright b \/ bbottom b = btop b.
Definition widened (e : oedge) (b : box) : box :=
  if py (o_low e) =? py (o_high e) then mkBox (mkPt (bleft b - 1) (bbottom b)) (mkPt (bright b + 1) (btop b))
  else mkBox (mkPt (bleft b) (bbottom b - 1)) (mkPt (bright b) (btop b + 1)).
Definition enters (r b : box) : Prop :=
  bleft r < bright b /\ bleft b < bright r /\ bbottom r < btop b /\ bbottom b < btop r.
Definition blocked (V : oenv) (e f : oedge) : Prop :=
  exists r, In r (v_rects V) /\
    ((~ no_area (gap e f) /\ enters (gbox r) (gap e f)) \/ (no_area (gap e f) /\ enters (gbox r) (widened e (gap e f)))).

(* the edge is no edge of fixed metal, and metal behind it in the region is routed *)
Definition routed_part (V : oenv) (e : oedge) (region : Z -> Z -> Prop) : Prop :=
  o_fixed e = false /\ exists x y r, behind e x y /\ region x y /\ In r (v_route V (o_net e)) /\ square_in x y r.
(* the end, a neighbour that makes the rule bind it, or the edge [f] in front of it *)
Definition end_routed (V : oenv) (s : eolstmt) (e : oedge) : Prop :=
  routed_part V e (fun _ _ => True) \/
  exists ps pw two, t_par s = Some (ps, pw, two) /\ exists p, In p (v_edges V) /\
    ((beside_low s ps pw e p /\ routed_part V p (side_low s ps pw e)) \/
     (beside_high s ps pw e p /\ routed_part V p (side_high s ps pw e))).
Definition front_routed (V : oenv) (s : eolstmt) (e f : oedge) : Prop := routed_part V f (front s e).

(* the rule [s] is broken by the end [e] and the edge [f] *)
Definition breaks_eol (V : oenv) (s : eolstmt) (prev e next f : oedge) : Prop :=
  wire_end s prev e next /\ binds V s e /\ faces s e f /\ ~ blocked V e f.
Definition eol_violation (V : oenv) (s : eolstmt) (e f : oedge) : marker :=
  mkMk (gap e f) (v_lnum V) (t_id s) (o_net e) (o_net f).

(* a statement with sensible numbers *)
Definition good_stmt (s : eolstmt) : Prop :=
  0 < t_space s /\ 0 <= t_within s /\
  (forall ps pw two, t_par s = Some (ps, pw, two) -> 0 < ps /\ 0 <= pw /\ 0 < pw + t_within s).
(* three edges one after the other on a closed outline *)
Definition consecutive (c : list oedge) (prev e next : oedge) : Prop :=
  exists i, (i < length c)%nat /\ nth_error c i = Some e /\
    nth_error c (if Nat.eqb i 0 then length c - 1 else i - 1)%nat = Some prev /\
    nth_error c (if Nat.eqb (S i) (length c) then 0 else S i)%nat = Some next.
(* every outline has axis-parallel edges and each edge starts where the one before ends *)
Definition closed_outline (c : list oedge) : Prop :=
  (forall e, In e c -> straight e) /\
  forall prev e next, consecutive c prev e next -> o_high prev = o_low e /\ o_high e = o_low next.
Definition good_env (V : oenv) : Prop := forall e, In e (v_edges V) -> straight e.

(* the corners of a contour: successive ones, the last and the first included, differ in one coordinate *)
Definition rectilinear (pts : list point) : Prop :=
  forall i p q, nth_error pts i = Some p ->
    nth_error pts (if Nat.eqb (S i) (length pts) then 0 else S i)%nat = Some q ->
    (px p = px q /\ py p <> py q) \/ (px p <> px q /\ py p = py q).
(* the outline of a rectangle, counterclockwise *)
Definition rect_points (b : box) : list point :=
  [mkPt (bleft b) (bbottom b); mkPt (bright b) (bbottom b); mkPt (bright b) (btop b); mkPt (bleft b) (btop b)].
(* one end of the wire [a] is narrow and [b] is close in front of it *)
Definition end_to_wire (s : eolstmt) (a b : box) : Prop :=
  let dx := bright a - bleft a in let dy := btop a - bbottom a in
  let yrange := bbottom a - t_within s < btop b /\ bbottom b < btop a + t_within s in
  let xrange := bleft a - t_within s < bright b /\ bleft b < bright a + t_within s in
  (dy < t_width s /\ yrange /\ bright a <= bleft b < bright a + t_space s) \/
  (dy < t_width s /\ yrange /\ bleft a - t_space s < bright b <= bleft a) \/
  (dx < t_width s /\ xrange /\ btop a <= bbottom b < btop a + t_space s) \/
  (dx < t_width s /\ xrange /\ bbottom a - t_space s < btop b <= bbottom a).
