(* Specification vocabulary for clips: centre lines, metal, what belongs to a clip.
   Points are given by doubled coordinates, so that half-integral points can be named. *)
From Verif Require Import Base GeomModel GeomSpec ClipModel.

(* an axis-parallel wire of positive length, from lower left to upper right *)
Definition proper (w : wire) : Prop :=
  (px (wb w) = px (we w) /\ py (wb w) < py (we w)) \/ (py (wb w) = py (we w) /\ px (wb w) < px (we w)).
(* the same, possibly of length zero *)
Definition straight (w : wire) : Prop :=
  (px (wb w) = px (we w) /\ py (wb w) <= py (we w)) \/ (py (wb w) = py (we w) /\ px (wb w) <= px (we w)).
Definition fig_proper (f : fig) : Prop := match f with FSeg w => proper w | _ => True end.
Definition fig_straight (f : fig) : Prop := match f with FSeg w => straight w | _ => True end.
Definition wlen (w : wire) : Z := px (we w) - px (wb w) + (py (we w) - py (wb w)).
(* the point lies on the centre line *)
Definition on_line (w : wire) (x y : Z) : Prop :=
  2 * px (wb w) <= x <= 2 * px (we w) /\ 2 * py (wb w) <= y <= 2 * py (we w).
(* the point lies on the metal *)
Definition in_box2 (b : box) (x y : Z) : Prop :=
  2 * bleft b <= x <= 2 * bright b /\ 2 * bbottom b <= y <= 2 * btop b.
Definition on_metal (w : wire) (x y : Z) : Prop := in_box2 (seg_box w) x y.
(* extensions and widths are not negative *)
Definition style_ok (w : wire) : Prop := 0 <= bExt (ws w) /\ 0 <= eExt (ws w) /\ 0 <= sWid (ws w).
(* the points a clip is responsible for: the closed box; in the first pass without its right and top edge *)
Definition owned (isInit : bool) (b : box) (x y : Z) : Prop :=
  in_box2 b x y /\ (isInit = true -> x < 2 * bright b /\ y < 2 * btop b).
(* where the wire crosses an edge of the box, its metal reaches at least half a default width further *)
Definition roomy (b : box) (h : Z) (w : wire) : Prop :=
  forall e, (px (wb w) = px (we w) -> (e = bbottom b \/ e = btop b) -> py (wb w) < e < py (we w) ->
               py (wb w) - bExt (ws w) + h <= e /\ e + h <= py (we w) + eExt (ws w)) /\
            (py (wb w) = py (we w) -> (e = bleft b \/ e = bright b) -> px (wb w) < e < px (we w) ->
               px (wb w) - bExt (ws w) + h <= e /\ e + h <= px (we w) + eExt (ws w)).

(* the centre lines, per layer, of a list of figures; its vias and patches *)
Definition lines (figs : list fig) (l x y : Z) : Prop := exists w, In (FSeg w) figs /\ wl w = l /\ on_line w x y.
Definition metals (figs : list fig) (l x y : Z) : Prop := exists w, In (FSeg w) figs /\ wl w = l /\ on_metal w x y.
Definition not_wire (f : fig) : bool := match f with FSeg _ => false | _ => true end.

(* two wires in line, the first ending where the second begins *)
Definition end_to_end (a c : wire) (p : point) : Prop :=
  we a = p /\ wb c = p /\ wl a = wl c /\ proper a /\ proper c /\
  ((px (wb a) = px (we a) /\ px (wb c) = px (we c)) \/ (py (wb a) = py (we a) /\ py (wb c) = py (we c))).
(* the wire from the begin of [a] to the end of [c] with the outer ends of both *)
Definition joined (a c : wire) : wire :=
  mkW (wl a) (wb a) (we c) (mkSt (bSty (ws a)) (bExt (ws a)) (eSty (ws c)) (eExt (ws c)) (sWid (ws a))).

(* the figure has a point of its centre line, or its origin, in the closed box *)
Definition meets (b : box) (f : fig) : Prop :=
  match f with
  | FSeg w => exists x y, on_line w x y /\ in_box2 b x y
  | FVia o _ _ _ | FPatch o _ _ => in_box2 b (2 * px o) (2 * py o)
  end.
(* some sub-net of the net was modified *)
Definition modified (subs : list subnet) (n : Z) : Prop := exists s, In s subs /\ sn_net s = n /\ sn_mod s = true.
(* the routing of the net in the clip, over all its sub-nets *)
Definition best_of (n : Z) (subs : list subnet) : list fig := flat_map sn_best (filter (fun s => sn_net s =? n) subs).
(* vias and patches whose origin the clip is responsible for *)
Definition owned_origin (isInit : bool) (b : box) (f : fig) : Prop :=
  match f with
  | FSeg _ => False
  | FVia o _ _ _ | FPatch o _ _ => owned isInit b (2 * px o) (2 * py o)
  end.
(* at every point where a wire of the net meets the edge of the box: no other wire of the layer goes through
   the point, no patch is there, and no pin of the net *)
Definition alone_at_edges (b : box) (pin_at : Z -> point -> Z -> bool) (n : Z) (F : list fig) : Prop :=
  forall F1 w F2 p, F = F1 ++ FSeg w :: F2 -> on_line w (2 * px p) (2 * py p) -> in_box2 b (2 * px p) (2 * py p) ->
    ~ in_interior2 (2 * px p) (2 * py p) b ->
    (forall w', In (FSeg w') (F1 ++ F2) -> wl w' = wl w -> ~ on_line w' (2 * px p) (2 * py p)) /\
    (forall o off, In (FPatch o (wl w) off) F -> o <> p) /\ pin_at n p (wl w) = false.
(* the states of the clip's routing after each round *)
Fixpoint after {St} (step : nat -> St -> St) (s : St) (k : nat) : St :=
  match k with O => step O s | S j => step (S j) (after step s j) end.
