(* What LEF58_CORNERSPACING demands, seen from the two edges that meet at a corner.  [ahead e p] (EolSpec) is
   the distance of the point p on the side of the edge e without metal, negative on the metal's side. *)
From Verif Require Import Base Stl GeomModel TechSpec GcModel GcSpec EolModel EolSpec StepModel StepSpec CornModel.

(* a statement the check looks at: two numbers after every WIDTH, widths and spacings growing *)
Definition row2 (r : list Z) : Prop := exists w d, r = [w; d].
Definition good_cstmt (s : cstmt) : Prop :=
  q_rows s <> [] /\ Forall row2 (q_rows s) /\ sorted_le (map (fun r => nth 0 r 0) (q_rows s)) /\
  sorted_le (map (fun r => nth 1 r 0) (q_rows s)) /\ (forall w, q_eol s = Some w -> 0 <= w).
(* the spacing the statement asks for at a shape of the width: that of the last row with a smaller width, or
   of the first row *)
Definition asks (s : cstmt) (width d : Z) : Prop :=
  exists i, last_below (map (fun r => nth 0 r 0) (q_rows s)) width i /\ d = nth 1 (nth i (q_rows s) []) 0.

(* the outline turns to the metal's side, or away from it, where [n] follows [p] *)
Definition turns_in (p n : oedge) : Prop := ahead p (o_high n) < 0.
Definition turns_out (p n : oedge) : Prop := 0 < ahead p (o_high n).
(* [a] is a rectangle of metal whose own corner is the corner of the outline *)
Definition at_corner (p n : oedge) (a : box) : Prop :=
  inside (o_low n) a /\ forall q, In q (rect_points a) -> ahead p q <= 0 /\ ahead n q <= 0.
(* [b] does not extend to both sides of the line of the edge *)
Definition one_side (e : oedge) (b : box) : Prop :=
  ~ exists q q', In q (rect_points b) /\ In q' (rect_points b) /\ ahead e q < 0 /\ 0 < ahead e q'.
(* some point of [b] lies outside the corner and nearer than d, in both directions *)
Definition near (d : Z) (p n : oedge) (b : box) : Prop :=
  exists z, inside z b /\ 0 <= ahead p z < d /\ 0 <= ahead n z < d.
(* EXCEPTEOL: the corner is at the end of a shape narrower than w *)
Definition at_end (w : Z) (pp p n nn : oedge) : Prop :=
  (turns_in n nn /\ len n < w) \/ (turns_in pp p /\ len p < w).
(* the corner between [p] and [n], at the rectangle [a], and the rectangle [b] break the statement *)
Definition breaks_corner (s : cstmt) (pp p n nn : oedge) (a b : box) : Prop :=
  (if q_convex s then turns_in p n /\ one_side p b /\ one_side n b /\ forall w, q_eol s = Some w -> ~ at_end w pp p n nn
   else turns_out p n) /\
  ~ inside (o_low n) b /\ at_corner p n a /\ exists d, asks s (box_width a) d /\ near d p n b.
(* metal that is not fixed, of the rectangle r, within its width of the box *)
Definition routed_near (V : kenv) (m : box) (r : grect) : Prop :=
  exists x y, square_in x y (gbox r) /\ square_in x y (my_bloat m (box_width (gbox r))) /\
    ~ exists f, In f (kv_fixed V (gnet r)) /\ square_in x y f.
Definition routed_pair (V : kenv) (pt : point) (a b : grect) : Prop :=
  ~ (gfixed a = true /\ gfixed b = true) /\
  (routed_near V (between (pt_box pt) (gbox b)) a \/ routed_near V (between (pt_box pt) (gbox b)) b).
(* the report: the box between the corner and the rectangle *)
Definition corner_violation (V : kenv) (s : cstmt) (n : oedge) (b : grect) : marker :=
  mkMk (between (pt_box (o_low n)) (gbox b)) (kv_lnum V) (q_id s) (o_net n) (gnet b).
(* rectangles have positive width and height *)
Definition good_kenv (V : kenv) : Prop := forall r, In r (kv_rects V) -> bleft (gbox r) < bright (gbox r) /\ bbottom (gbox r) < btop (gbox r).

(* two rectangles that face each other diagonally, their gaps in both directions below d *)
Definition gap_x (a b : box) : Z := Z.max (bleft b - bright a) (bleft a - bright b).
Definition gap_y (a b : box) : Z := Z.max (bbottom b - btop a) (bbottom a - btop b).
Definition corner_to_corner (d : Z) (a b : box) : Prop :=
  0 <= gap_x a b < d /\ 0 <= gap_y a b < d /\ 0 < Z.max (gap_x a b) (gap_y a b).
