(* Independent vocabulary for the guide properties: gcells met by guide rectangles, gcells covered by
   intervals, connection of gcells, connection of guides and pins. *)
From Verif Require Import Base GeomModel GCellModel ConnModel GuideModel.

Section Spec.
Variables xg yg : gpat.
Variable nlay : Z.
Variable horz : Z -> bool.
Variable va : Z.                          (* the layer on which no cross-gcell routing is allowed *)

Definition grid_pos : Prop := 0 < gspacing xg /\ 0 < gspacing yg.
(* routing directions of successive routing layers (two layer numbers apart) alternate *)
Definition alternating : Prop := forall l, horz (l + 2) = negb (horz l).

(* a guide rectangle as read: on a layer of the technology, with area *)
Definition rect_ok (r : Z * box) : Prop :=
  0 <= fst r < nlay /\ bleft (snd r) < bright (snd r) /\ bbottom (snd r) < btop (snd r).
Definition in_rect (p : point) (b : box) : Prop := bleft b <= px p < bright b /\ bbottom b <= py p < btop b.
(* gcell k has a point of the rectangle in it *)
Definition meets_rect (r : Z * box) (k : loc) : Prop :=
  snd k = fst r /\ exists p, in_rect p (snd r) /\ gcell_idx xg yg p = fst k.
Definition meets (rects : list (Z * box)) (k : loc) : Prop := exists r, In r rects /\ meets_rect r k.

(* gcell k lies in an interval of its track *)
Definition covered (v : intvs) (k : loc) : Prop :=
  exists t s b e, In (t, s) (v (snd k)) /\ In (b, e) s /\
    t = (if horz (snd k) then py (fst k) else px (fst k)) /\
    b <= (if horz (snd k) then px (fst k) else py (fst k)) <= e.
(* non-empty intervals in ascending order, at least one gcell between any two *)
Definition separate (s : iset) : Prop :=
  Forall (fun i => fst i <= snd i) s /\ ForallOrdPairs (fun i j => snd i + 1 < fst j) s.
Definition tidy (v : intvs) : Prop := forall l, NoDup (map fst (v l)) /\ Forall (fun e => separate (snd e)) (v l).

(* neighbour gcells of one layer, along / across the routing direction *)
Definition along (k k' : loc) : Prop :=
  snd k = snd k' /\
  (if horz (snd k) then py (fst k) = py (fst k') /\ Z.abs (px (fst k) - px (fst k')) = 1
   else px (fst k) = px (fst k') /\ Z.abs (py (fst k) - py (fst k')) = 1).
Definition across (k k' : loc) : Prop :=
  snd k = snd k' /\
  (if horz (snd k) then px (fst k) = px (fst k') /\ Z.abs (py (fst k) - py (fst k')) = 1
   else py (fst k) = py (fst k') /\ Z.abs (px (fst k) - px (fst k')) = 1).
Definition stacked (k k' : loc) : Prop := fst k = fst k' /\ (snd k' = snd k + 2 \/ snd k = snd k' + 2).

(* steps inside a set of gcells *)
Inductive connected (cells : loc -> Prop) (step : loc -> loc -> Prop) (k : loc) : loc -> Prop :=
| con_refl : cells k -> connected cells step k k
| con_step k1 k2 : connected cells step k k1 -> cells k2 -> step k1 k2 -> connected cells step k k2.
(* how guide rectangles connect: to neighbour gcells of the same layer, except on layer va, and up and down *)
Definition rect_step (k k' : loc) : Prop := (snd k <> va /\ (along k k' \/ across k k')) \/ stacked k k'.

(* guides and pins *)
Inductive gitem := Gd (g : Z * box) | Pn (q : nat).
(* the gcells at the two ends of a guide *)
Definition g_end (g : Z * box) (k : loc) : Prop := snd k = fst g /\ (fst k = ll (snd g) \/ fst k = ur (snd g)).
(* two guides share an end gcell (not on layer va), or have ends in the same gcell on layers two apart;
   a guide ends in a gcell in which the pin is tied *)
Definition joined (tie : nat -> loc -> Prop) (a b : gitem) : Prop :=
  match a, b with
  | Gd g, Gd h => exists k k', g_end g k /\ g_end h k' /\ fst k = fst k' /\
      ((snd k = snd k' /\ snd k <> va) \/ snd k' = snd k + 2 \/ snd k = snd k' + 2)
  | Gd g, Pn q | Pn q, Gd g => exists k, g_end g k /\ tie q k
  | Pn _, Pn _ => False
  end.
Definition present (gs : list (Z * box)) (npins : nat) (a : gitem) : Prop :=
  match a with Gd g => In g gs | Pn q => (q < npins)%nat end.
(* paths that start at pin 0; they pass through other pins only with feed-through *)
Inductive leads (gs : list (Z * box)) (npins : nat) (tie : nat -> loc -> Prop) (ft : bool) : gitem -> Prop :=
| leads_0 : (0 < npins)%nat -> leads gs npins tie ft (Pn 0)
| leads_s a b : leads gs npins tie ft a -> present gs npins b -> joined tie a b ->
    match a with Pn (S _) => ft = true | _ => True end -> leads gs npins tie ft b.
Definition pin_cells (pins : list (list loc)) (q : nat) (k : loc) : Prop := exists s, nth_error pins q = Some s /\ In k s.

(* every stretch of guide gcells along a track has a pin in it or a guide gcell above or below it *)
Definition no_stray (cells : loc -> Prop) (pins : list (list loc)) : Prop :=
  forall k, cells k -> exists k', connected cells along k k' /\
    ((exists q, pin_cells pins q k') \/ exists k'', cells k'' /\ stacked k' k'').
(* every pin has a gcell joined through the guide rectangles to a gcell of the first pin *)
Definition pins_joined (rects : list (Z * box)) (pins : list (list loc)) : Prop :=
  forall q, (q < length pins)%nat -> exists k0 k, pin_cells pins 0 k0 /\ pin_cells pins q k /\ connected (meets rects) rect_step k0 k.
(* the guide is a straight run, in the direction of its layer, of covered gcells *)
Definition covered_run (v : intvs) (g : Z * box) : Prop :=
  let '(l, b) := g in
  bleft b <= bright b /\ bbottom b <= btop b /\ (if horz l then bbottom b = btop b else bleft b = bright b) /\
  forall p, bleft b <= px p <= bright b -> bbottom b <= py p <= btop b -> covered v (p, l).
(* what is written for a net: guides out, and the gcells at which the pins are tied *)
Definition guides_ok (v : intvs) (pins : list (list loc)) (ft : bool) (out : list (Z * box)) (recs : list (nat * loc)) : Prop :=
  let tie := fun q k => In (q, k) recs in
  (* guides run over covered gcells and are all reached from pin 0 *)
  (forall g, In g out -> covered_run v g /\ leads out (length pins) tie ft (Gd g)) /\
  (* with two pins or more, every pin is reached from pin 0 *)
  ((length pins <> 1)%nat -> forall q, (q < length pins)%nat -> leads out (length pins) tie ft (Pn q)) /\
  (* a pin is tied at one of its own gcells, at the end of a guide *)
  (forall q k, In (q, k) recs -> pin_cells pins q k /\ exists g, In g out /\ g_end g k) /\
  (* no loose end: at both ends of a guide longer than one gcell there is a pin or another guide, in the
     same gcell, on the same layer or a neighbour layer *)
  (forall l1 g l2, out = l1 ++ g :: l2 -> ll (snd g) <> ur (snd g) -> forall k, g_end g k ->
     exists k', fst k' = fst k /\ (snd k' = snd k \/ snd k' = snd k + 2 \/ snd k' = snd k - 2) /\
       ((exists q, In (q, k') recs) \/ exists g', In g' (l1 ++ l2) /\ g_end g' k')).
End Spec.
