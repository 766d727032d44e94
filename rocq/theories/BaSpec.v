(* The shapes of a clip, and the wires that leave it. *)
From Verif Require Import Base GeomModel BaModel.

(* two boxes have a point in common *)
Definition share (a b : box) : Prop := exists x y, (bleft a <= x <= bright a /\ bbottom a <= y <= btop a) /\ (bleft b <= x <= bright b /\ bbottom b <= y <= btop b).
Definition sides (b : box) (l y r t : Z) : Prop := bleft b = l /\ bbottom b = y /\ bright b = r /\ btop b = t.
Definition upright (b : box) : Prop := bleft b <= bright b /\ bbottom b <= btop b.
(* figures as the router makes them: wires run along an axis towards larger numbers *)
Definition fig_ok (f : dfig) : Prop :=
  match f with
  | DSeg _ _ _ b e w x y => (px b = px e /\ py b <= py e \/ py b = py e /\ px b < px e) /\ 0 <= w /\ 0 <= x /\ 0 <= y
  | DPatch _ _ _ _ off => upright off
  | DVia _ _ _ d => Forall upright (bv_f1 d) /\ Forall upright (bv_f2 d) /\ Forall upright (bv_fc d)
  end.
(* the rectangles of a figure, by layer *)
Inductive shape : dfig -> Z -> box -> Prop :=
| sh_vert i n l x b e w p q r : sides r (x - w / 2) (b - p) (x + w / 2) (e + q) -> shape (DSeg i n l (mkPt x b) (mkPt x e) w p q) l r
| sh_horz i n l y b e w p q r : b <> e -> sides r (b - p) (y - w / 2) (e + q) (y + w / 2) -> shape (DSeg i n l (mkPt b y) (mkPt e y) w p q) l r
| sh_patch i n l o off r : sides r (px o + bleft off) (py o + bbottom off) (px o + bright off) (py o + btop off) -> shape (DPatch i n l o off) l r
| sh_via i n o d l fs b r : In (l, fs) [(bv_l1 d, bv_f1 d); (bv_l2 d, bv_f2 d); (bv_cut d, bv_fc d)] -> In b fs ->
    sides r (px o + bleft b) (py o + bbottom b) (px o + bright b) (py o + btop b) -> shape (DVia i n o d) l r.
(* figures put in and taken out: what is there in the end.  A figure has its own address and is taken out unchanged *)
Inductive history (fs : list dfig) : list rop -> list dfig -> Prop :=
| h_start : history fs [] fs
| h_add os live f : history fs os live -> ~ In (fig_id f) (map fig_id live) -> history fs (os ++ [OpAdd f]) (f :: live)
| h_remove os l1 f l2 : history fs os (l1 ++ f :: l2) -> history fs (os ++ [OpRemove f]) (l1 ++ l2).
(* wire area of a figure of the net that ends at the pin and leaves the box *)
Definition outside (rb : box) (p : point) : Prop := ~ (bleft rb <= px p <= bright rb /\ bbottom rb <= py p <= btop rb).
Inductive leaves (rb : box) (net l : Z) (pin : point) : dfig -> point -> Z -> Prop :=
| lv_begin i e w x y : outside rb e -> leaves rb net l pin (DSeg i net l pin e w x y) e ((Z.abs (px e - px pin) + Z.abs (py e - py pin)) * w)
| lv_end i b w x y : outside rb b -> leaves rb net l pin (DSeg i net l b pin w x y) b ((Z.abs (px pin - px b) + Z.abs (py pin - py b)) * w).
Inductive wire_area (rb : box) (net l : Z) (pin : point) : list dfig -> Z -> Prop :=
| wa_nil : wire_area rb net l pin [] 0
| wa_out f far a fs s : leaves rb net l pin f far a -> wire_area rb net l pin fs s -> wire_area rb net l pin (f :: fs) (a + s)
| wa_no f fs s : (forall far a, ~ leaves rb net l pin f far a) -> wire_area rb net l pin fs s -> wire_area rb net l pin (f :: fs) s.
(* the place of a via or patch *)
Definition placed_at (f : dfig) (p : point) : Prop := match f with DPatch _ _ _ o _ => o = p | DVia _ _ o _ => o = p | DSeg _ _ _ _ _ _ _ _ => False end.
