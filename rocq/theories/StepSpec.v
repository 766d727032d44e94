(* What the shape rules of a routing layer demand, in terms of unit squares of metal and of the edges along
   the outlines. *)
From Verif Require Import Base Stl GeomModel GcModel GcSpec EolModel EolSpec StepModel.

(* metal of the polygon, fixed and routed metal of its net, at the unit square with lower left corner x, y *)
Definition metal_at (P : spoly) (x y : Z) : Prop := exists b, In b (s_metal P) /\ square_in x y b.
Definition fixed_at (V : senv) (P : spoly) (x y : Z) : Prop := exists b, In b (sv_fixed V (s_net P)) /\ square_in x y b.
Definition routed_at (V : senv) (P : spoly) (x y : Z) : Prop := exists b, In b (sv_route V (s_net P)) /\ square_in x y b.

(* --- enclosed area: how often a closed line of points goes around a unit square, counted by the horizontal
   parts of the line above it --- *)
Definition passes (x y : Z) (p q : point) : Z :=
  if (y <? py p) && (py p =? py q) then
    if (px p <=? x) && (x <? px q) then 1 else if (px q <=? x) && (x <? px p) then -1 else 0
  else 0.
Fixpoint passes_all (x y : Z) (first p : point) (rest : list point) : Z :=
  match rest with [] => passes x y p first | q :: rest' => passes x y p q + passes_all x y first q rest' end.
Definition winding (pts : list point) (x y : Z) : Z :=
  match pts with [] => 0 | p :: rest => passes_all x y p p rest end.
(* a line that does not cross itself goes around once, in one direction *)
Definition simple_line (pts : list point) : Prop :=
  (forall x y, winding pts x y = 0 \/ winding pts x y = 1) \/ (forall x y, winding pts x y = 0 \/ winding pts x y = -1).
(* [n] unit squares are enclosed *)
Definition encloses (pts : list point) (n : Z) : Prop :=
  exists l : list (Z * Z), NoDup l /\ (forall x y, In (x, y) l <-> winding pts x y <> 0) /\ Z.of_nat (length l) = n.

(* What is relied on of boost::polygon.  Slabs cover the metal and end left and right (below and above) at
   its border; the maximal rectangles cover the metal, those of a window the metal inside it; outlines are
   closed, with metal on their left and none on their right; a hole's corners are those of a closed rectilinear line that does not cross
   itself. *)
Definition covers (l : list box) (M : Z -> Z -> Prop) : Prop :=
  forall x y, M x y <-> exists b, In b l /\ square_in x y b.
Definition nonempty (b : box) : Prop := bleft b < bright b /\ bbottom b < btop b.
Definition good_poly (P : spoly) : Prop :=
  covers (s_hslabs P) (metal_at P) /\ covers (s_vslabs P) (metal_at P) /\ covers (s_maxrects P) (metal_at P) /\
  (forall w, covers (s_max_in P w) (fun x y => metal_at P x y /\ square_in x y w)) /\
  (forall b, In b (s_hslabs P) -> nonempty b /\
     forall y, bbottom b <= y < btop b -> ~ metal_at P (bleft b - 1) y /\ ~ metal_at P (bright b) y) /\
  (forall b, In b (s_vslabs P) -> nonempty b /\
     forall x, bleft b <= x < bright b -> ~ metal_at P x (bbottom b - 1) /\ ~ metal_at P x (btop b)) /\
  (forall c, In c (s_outlines P) -> closed_outline c /\
     forall e x y, In e c -> (behind e x y -> metal_at P x y) /\ (window e 0 (len e) 0 1 x y -> ~ metal_at P x y)) /\
  (forall h, In h (s_holes P) -> rectilinear h /\ simple_line h).

(* a report of the layer on the net of the polygon *)
Definition report_on (V : senv) (P : spoly) (con : Z) (b : box) : marker :=
  mkMk b (sv_lnum V) con (s_net P) (s_net P).

(* --- width: the metal left and right (below and above) of the square extends over less than w --- *)
Definition thin_across (M : Z -> Z -> Prop) (w x y : Z) : Prop :=
  exists l r, l <= x < r /\ r - l < w /\ (forall x', l <= x' < r -> M x' y) /\ ~ M (l - 1) y /\ ~ M r y.
Definition thin (P : spoly) (w x y : Z) : Prop :=
  thin_across (metal_at P) w x y \/ thin_across (fun a b => metal_at P b a) w y x.

(* --- steps: edges around an outline, counted on beyond its end --- *)
Definition no_edge : oedge := mkOE 0 (mkPt 0 0) (mkPt 0 0) false.
Definition edge_at (c : list oedge) (i : nat) : oedge := nth (i mod length c) c no_edge.
Definition short_at (L : Z) (c : list oedge) (i : nat) : Prop := len (edge_at c i) < L.
(* [k] short edges in a row, after edge [i] *)
Definition short_row (L : Z) (c : list oedge) (i k : nat) : Prop := forall j, (1 <= j <= k)%nat -> short_at L c (i + j).
(* ... and not more: the edges before and behind are long, and they are two *)
Definition whole_row (L : Z) (c : list oedge) (i k : nat) : Prop :=
  (S k < length c)%nat /\ short_row L c i k /\ ~ short_at L c i /\ ~ short_at L c (i + S k).
(* at least two edges of the outline are long *)
Definition two_long (L : Z) (c : list oedge) : Prop :=
  exists p q, (p < length c)%nat /\ (q < length c)%nat /\ p <> q /\ ~ short_at L c p /\ ~ short_at L c q.
(* an edge of the row, or the long edge before or behind it, is not an edge of fixed metal *)
Definition row_routed (c : list oedge) (i k : nat) : Prop :=
  exists j, (j <= S k)%nat /\ o_fixed (edge_at c (i + j)) = false.
(* the smallest box around points *)
Definition inside (p : point) (b : box) : Prop := bleft b <= px p <= bright b /\ bbottom b <= py p <= btop b.
Definition hull (ps : list point) (b : box) : Prop :=
  (forall p, In p ps -> inside p b) /\
  (exists p, In p ps /\ px p = bleft b) /\ (exists p, In p ps /\ px p = bright b) /\
  (exists p, In p ps /\ py p = bbottom b) /\ (exists p, In p ps /\ py p = btop b).
(* the corners of the row *)
Definition row_corners (c : list oedge) (i k : nat) : list point :=
  map (fun j => o_high (edge_at c (i + j))) (seq 0 (S k)).

(* --- LEF58 NOBETWEENEOL: the end of a wire narrower than the given width, between two short edges --- *)
Definition eol_between (r : step58) (c : list oedge) (i : nat) : Prop :=
  let a := edge_at c i in let b := edge_at c (i + 1) in let d := edge_at c (i + 2) in
  len a < s8_len r /\ len b < s8_eol r /\ len d < s8_len r /\
  ahead b (o_low a) < 0 /\ ahead b (o_high d) < 0 /\
  ~ (o_fixed a = true /\ o_fixed b = true /\ o_fixed d = true).
Definition end_corners (c : list oedge) (i : nat) : list point :=
  [o_low (edge_at c i); o_high (edge_at c i); o_high (edge_at c (i + 1)); o_high (edge_at c (i + 2))].

(* --- RECTONLY: a corner at which the outline turns away from the metal --- *)
Definition concave (c : list oedge) (i : nat) : Prop := 0 < ahead (edge_at c i) (o_high (edge_at c (i + 1))).
Definition around (p : point) (w : Z) : box := mkBox (mkPt (px p - w) (py p - w)) (mkPt (px p + w) (py p + w)).

(* --- manufacturing grid --- *)
Definition on_grid (g x : Z) : Prop := exists k, x = k * g.
(* an edge of an outline that lies between two grid lines *)
Definition off_grid_edge (g : Z) (e : oedge) : Prop :=
  (px (o_low e) = px (o_high e) /\ ~ on_grid g (px (o_low e))) \/ (py (o_low e) = py (o_high e) /\ ~ on_grid g (py (o_low e))).

