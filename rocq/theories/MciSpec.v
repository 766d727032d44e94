(* Minimum-cut rules and the pins of macros: which vias near a wide pin a rule concerns. *)
From Verif Require Import Base Stl GeomModel GeomSpec GridModel GridSpec CostModel CostSpec SetupModel.

(* the rule is one for a pin of this size, and for vias from this side *)
Definition rule_for (c : mcon) (b : box) (upper : bool) : Prop :=
  mc_width c < bright b - bleft b /\ mc_width c < btop b - bbottom b /\
  match mc_len c with Some (len, _) => len < bright b - bleft b \/ len < btop b - bbottom b | None => True end /\
  match mc_above c with Some above => above = upper | None => True end.
(* the interiors of the boxes meet *)
Definition meet (a b : box) : Prop := bleft a < bright b /\ bleft b < bright a /\ bbottom a < btop b /\ bbottom b < btop a.
(* [g]: how far the intervals are apart *)
Definition apart (lo hi lo' hi' g : Z) : Prop := 0 < g /\ (lo' - hi = g \/ lo - hi' = g).
(* a cut beyond a corner of the pin, nearer than [d] in the sum of the two distances *)
Definition beyond_corner (b cut : box) (d : Z) : Prop :=
  exists gx gy, apart (bleft b) (bright b) (bleft cut) (bright cut) gx /\ apart (bbottom b) (btop b) (bbottom cut) (btop cut) gy /\ gx + gy < d.
Definition charges (S : senv) (l : Z) (b cut : box) (upper : bool) (c : mcon) : Prop :=
  rule_for c b upper /\ match mc_len c with None => meet b cut | Some (_, dist) => beyond_corner b cut (dist + se_pitch S l) end.
(* [n] rules charge the via at [p] for the pin [b] on grid layer [z] *)
Definition mincut_hits (S : senv) (E : cenv) (g : gg) (b : box) (z : Z) (upper : bool) (p : midx) (n : Z) : Prop :=
  let l := getLayerNum g z in
  match ce_via E (if upper then l + 1 else l - 1) with
  | Some v => via_touches p z upper /\ tally (charges S l b (moved (cv_cutbb v) (getPoint g p)) upper) (se_mincut S l) n \/ ~ via_touches p z upper /\ n = 0
  | None => n = 0
  end.
Definition good_mcon (c : mcon) : Prop := 0 <= mc_width c /\ match mc_len c with Some (_, d) => 0 <= d | None => True end.
