(* Guides that meet, and the length of the wires that cross a guide. *)
From Verif Require Import Base GeomModel IrModel.

(* guide [n] of the same net, on the next routing layer below or above [g], covers the point [p] *)
Definition meets (brl nlay : Z) (g n : tguide) (p : point) : Prop :=
  tg_net n = tg_net g /\
  ((tg_layer n = tg_layer g - 2 /\ brl <= tg_layer g - 2) \/ (tg_layer n = tg_layer g + 2 /\ tg_layer g + 2 < nlay)) /\
  Z.min (px (tg_b n)) (px (tg_e n)) <= px p <= Z.max (px (tg_b n)) (px (tg_e n)) /\
  Z.min (py (tg_b n)) (py (tg_e n)) <= py p <= Z.max (py (tg_b n)) (py (tg_e n)).
(* the same as a test, and the guides that meet [g] at [p] *)
Definition meetsb (brl nlay : Z) (g n : tguide) (p : point) : bool :=
  (tg_net n =? tg_net g) &&
  (((tg_layer n =? tg_layer g - 2) && (brl <=? tg_layer g - 2)) || ((tg_layer n =? tg_layer g + 2) && (tg_layer g + 2 <? nlay))) &&
  ((Z.min (px (tg_b n)) (px (tg_e n)) <=? px p) && (px p <=? Z.max (px (tg_b n)) (px (tg_e n)))) &&
  ((Z.min (py (tg_b n)) (py (tg_e n)) <=? py p) && (py p <=? Z.max (py (tg_b n)) (py (tg_e n)))).
Definition met (brl nlay : Z) (guides : list tguide) (g : tguide) (p : point) : list tguide := filter (fun n => meetsb brl nlay g n p) guides.
(* the guide has been given a track: its only wire is on its layer at coordinate [c] of the other direction *)
Definition has_track (isH : bool) (n : tguide) (c : Z) : Prop :=
  exists w, tg_routes n = [w] /\ ts_layer w = tg_layer n /\ along isH (ts_b w) = c /\ along isH (ts_e w) = c.
(* no track yet; the guide runs across, at coordinate [c] *)
Definition no_track (isH : bool) (n : tguide) (c : Z) : Prop := tg_routes n = [] /\ along isH (tg_b n) = c /\ along isH (tg_e n) = c.
(* the point is on the wire *)
Definition on_wire (w : tseg) (p : point) : Prop :=
  Z.min (px (ts_b w)) (px (ts_e w)) <= px p <= Z.max (px (ts_b w)) (px (ts_e w)) /\
  Z.min (py (ts_b w)) (py (ts_e w)) <= py p <= Z.max (py (ts_b w)) (py (ts_e w)).
(* the length of the wire of [n] from its other end to the track [t] of a guide that it meets at [p]; the length of a
   wire that only passes does not depend on [t] *)
Definition cross_len (isH : bool) (p : point) (t : Z) (n : tguide) : Z :=
  match pt_same p (tg_b n), pt_same p (tg_e n) with
  | true, false => across isH (tg_e n) - t
  | false, true => t - across isH (tg_b n)
  | _, _ => 0
  end.
Definition zsum (l : list Z) : Z := fold_right Z.add 0 l.
