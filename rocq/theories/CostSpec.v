(* Specification of the cost of placed shapes: when two shapes are too close, when one enters the
   end-of-line region of the other, and how often that happens at a grid point. *)
From Coq Require Import Permutation.
From Verif Require Import Base Stl GeomModel GeomSpec GridModel GridSpec CostModel.

(* some point of one box and some point of the other are nearer than [d] *)
Definition nearer (a b : box) (d : Z) : Prop :=
  exists p q, in_box p a /\ in_box q b /\ dist2 p q < d * d.
(* the boxes share interior (points in half units, so that thin overlaps are seen) *)
Definition intrudes (a b : box) : Prop :=
  exists x2 y2, in_interior2 x2 y2 a /\ in_interior2 x2 y2 b.
(* the end of a wire of half width [h] at a point; a box moved to a point *)
Definition wire_end (h : Z) (pt : point) : box :=
  mkBox (mkPt (px pt - h) (py pt - h)) (mkPt (px pt + h) (py pt + h)).
Definition moved (b : box) (pt : point) : box :=
  mkBox (mkPt (bleft b + px pt) (bbottom b + py pt)) (mkPt (bright b + px pt) (btop b + py pt)).
Definition wide_enough (b : box) (w : Z) : Prop := w <= bright b - bleft b /\ w <= btop b - bbottom b.

(* 1 if the statement holds, 0 otherwise; number of elements of a list with a property *)
Definition one (P : Prop) (n : Z) : Prop := (P /\ n = 1) \/ (~ P /\ n = 0).
Inductive tally {A} (P : A -> Prop) : list A -> Z -> Prop :=
| tally_nil : tally P [] 0
| tally_yes x l n : P x -> tally P l n -> tally P (x :: l) (n + 1)
| tally_no x l n : ~ P x -> tally P l n -> tally P (x :: l) n.
Inductive sums {A} (R : A -> Z -> Prop) : list A -> Z -> Prop :=
| sums_nil : sums R [] 0
| sums_cons x l n m : R x n -> sums R l m -> sums R (x :: l) (n + m).

(* the end-of-line regions of a box: beyond each of the two ends of a direction in which the box is
   narrower than the rule's width, widened by the rule's within distance *)
Definition eol_regions (b : box) (c : ceol) : list box :=
  (if bright b - bleft b <? eo_width c then
     [mkBox (mkPt (bleft b - eo_within c) (btop b)) (mkPt (bright b + eo_within c) (btop b + eo_space c));
      mkBox (mkPt (bleft b - eo_within c) (bbottom b - eo_space c)) (mkPt (bright b + eo_within c) (bbottom b))]
   else []) ++
  (if btop b - bbottom b <? eo_width c then
     [mkBox (mkPt (bright b) (bbottom b - eo_within c)) (mkPt (bright b + eo_space c) (btop b + eo_within c));
      mkBox (mkPt (bleft b - eo_space c) (bbottom b - eo_within c)) (mkPt (bleft b) (btop b + eo_within c))]
   else []).
Definition all_regions (E : cenv) (l : Z) (b : box) : list box := flat_map (eol_regions b) (ce_eol E l).

(* which counter a kind of marking touches and in which direction: 0 take a DRC cost back, 1 add one,
   2 take a fixed-shape cost back, 3 add one *)
Definition kind_ok (type : Z) : Prop := 0 <= type <= 3.
Definition kind_sign (type : Z) : Z := if Z.odd type then 1 else -1.
Definition wire_counter (type : Z) : attr := if type <=? 1 then ADrcX else AShapeX.
Definition via_counter (type : Z) : attr := if type <=? 1 then ADrcU else AShapeU.

(* ---- what a shape on a layer costs a wire at a grid point ---- *)
Definition half_width (E : cenv) (l : Z) : Z := Z.quot (ce_width E l) 2.
(* required spacing between the shape and a wire of default width: the least value of the table for
   obstructions when the user asked for it, otherwise the value for the two widths and the length of
   the shape *)
Definition wire_spacing (E : cenv) (spc : Z -> Z -> Z -> Z) (l : Z) (b : box) (blk : bool) : Z :=
  if blk && ce_obsmin E then ce_min E l
  else spc (Z.min (bright b - bleft b) (btop b - bbottom b)) (ce_width E l)
           (Z.max (bright b - bleft b) (btop b - bbottom b)).
Definition wire_near (E : cenv) (g : gg) (b : box) (z : Z) (blk : bool) (p : midx) (n : Z) : Prop :=
  let l := getLayerNum g z in
  match ce_spc E l with
  | Some spc => mz p = z /\ one (nearer b (wire_end (half_width E l) (getPoint g p)) (wire_spacing E spc l b blk)) n
                \/ mz p <> z /\ n = 0
  | None => n = 0
  end.
(* end-of-line regions of the shape a wire end at the grid point would enter *)
Definition wire_eol (E : cenv) (g : gg) (b : box) (z : Z) (p : midx) (n : Z) : Prop :=
  let l := getLayerNum g z in
  mz p = z /\ tally (intrudes (wire_end (half_width E l) (getPoint g p))) (all_regions E l b) n
  \/ mz p <> z /\ n = 0.

(* ---- what a shape on a layer costs a via at a grid point ---- *)
(* the via from a grid point upwards touches the layer [z] from above ([upper]: the via goes up from
   the layer) or from below *)
Definition via_touches (p : midx) (z : Z) (upper : bool) : Prop := mz p = (if upper then z else z - 1).
Definition overlap (lo1 hi1 lo2 hi2 : Z) : Z := Z.min hi1 hi2 - Z.max lo1 lo2.
Definition overlap_x (a b : box) : Z := overlap (bleft a) (bright a) (bleft b) (bright b).
Definition overlap_y (a b : box) : Z := overlap (bbottom a) (btop a) (bbottom b) (btop b).
(* a via wider than the default width across the preferred direction *)
Definition fat (E : cenv) (l : Z) (vb : box) : bool :=
  ce_width E l <? (if ce_horz E l then btop vb - bbottom vb else bright vb - bleft vb).
(* least multiple of the manufacturing grid for which a wire of default width has the minimum area *)
Definition is_patch_length (E : cenv) (l m : Z) : Prop :=
  exists k, m = k * ce_manu E /\ ce_minarea E l <= m * ce_width E l /\
            (forall k', ce_minarea E l <= k' * ce_manu E * ce_width E l -> k <= k').
(* extent of the via in a direction, lengthened by the patch in the preferred direction *)
Definition ext_y (E : cenv) (l : Z) (vb : box) (patch : Z) : Z :=
  if ce_horz E l || fat E l vb then btop vb - bbottom vb else Z.max (btop vb - bbottom vb) patch.
Definition ext_x (E : cenv) (l : Z) (vb : box) (patch : Z) : Z :=
  if ce_horz E l && negb (fat E l vb) then Z.max (bright vb - bleft vb) patch else bright vb - bleft vb.
(* parallel run length of a shape and the via at [tb]: the actual one for a pin, via or obstruction,
   the longest possible for a wire that may still be extended *)
Definition run_length (E : cenv) (l : Z) (vb : box) (patch : Z) (ps : bool) (b tb : box) : Z :=
  let ox := overlap_x b tb in let oy := overlap_y b tb in
  if negb ps then Z.max ox oy
  else if (ox <=? oy) && (0 <=? oy) then ext_y E l vb patch
  else if 0 <=? ox then ext_x E l vb patch
  else Z.max ox oy.
Definition via_spacing (E : cenv) (spc : Z -> Z -> Z -> Z) (l : Z) (b vb : box) (blk : bool) (r : Z) : Z :=
  if blk && ce_obsmin E && negb (fat E l vb) then ce_min E l
  else spc (Z.min (bright b - bleft b) (btop b - bbottom b)) (Z.min (bright vb - bleft vb) (btop vb - bbottom vb)) r.
(* the via's box on the layer at a grid point *)
Definition via_box (E : cenv) (vb : box) (upper : bool) (p : midx) : box :=
  match ce_svia E p with Some s => if upper then cv_b1 s else cv_b2 s | None => vb end.
Definition layer_via (E : cenv) (l : Z) (upper : bool) : option box :=
  match ce_via E (if upper then l + 1 else l - 1) with
  | Some v => Some (if upper then cv_b1 v else cv_b2 v) | None => None end.
(* spacing, and the shape inside an end-of-line region of the via *)
Definition via_near (E : cenv) (g : gg) (b : box) (z : Z) (upper ps blk : bool) (p : midx) (n : Z) : Prop :=
  let l := getLayerNum g z in
  match layer_via E l upper, ce_spc E l with
  | Some vb, Some spc =>
    via_touches p z upper /\
    (exists patch n1 n2, is_patch_length E l patch /\
       let tb := moved (via_box E vb upper p) (getPoint g p) in
       one (nearer b tb (via_spacing E spc l b vb blk (run_length E l vb patch ps b tb))) n1 /\
       tally (intrudes b) (all_regions E l tb) n2 /\ n = n1 + n2)
    \/ ~ via_touches p z upper /\ n = 0
  | _, _ => n = 0
  end.
(* end-of-line regions of the shape the via would enter *)
Definition via_eol_hits (E : cenv) (g : gg) (b : box) (z : Z) (upper : bool) (p : midx) (n : Z) : Prop :=
  let l := getLayerNum g z in
  match layer_via E l upper with
  | Some vb => via_touches p z upper /\ tally (intrudes (moved (via_box E vb upper p) (getPoint g p))) (all_regions E l b) n
               \/ ~ via_touches p z upper /\ n = 0
  | None => n = 0
  end.

(* ---- cuts ---- *)
(* centre of a box in database units *)
Definition midpoint (b : box) : point := mkPt (Z.quot (bleft b + bright b) 2) (Z.quot (bbottom b + btop b) 2).
Definition area (b : box) : Z := (bright b - bleft b) * (btop b - bbottom b).
Definition cut_near (c : ccut) (a b : box) (d : Z) : Prop :=
  if cu_c2c c then dist2 (midpoint a) (midpoint b) < d * d else nearer a b d.
(* the two cuts violate the rule: rules for the same net or for another layer do not apply here; an
   adjacent-cuts rule counts every near cut (within its distance for an obstruction); a
   parallel-overlap rule needs a positive overlap; an area rule needs one of the cuts to be large *)
Definition cut_conflict (c : ccut) (blk : bool) (a b : box) : Prop :=
  cu_samenet c = false /\ cu_layer c = false /\
  (cu_adj c <> -1 -> cut_near c a b (if blk then cu_within c else cu_spc c)) /\
  (cu_adj c = -1 -> cut_near c a b (cu_spc c) /\
     (cu_prlo c = true -> 0 < Z.max (overlap_x a b) (overlap_y a b)) /\
     (cu_prlo c = false -> cu_area c <> -1 -> cu_area c <= Z.max (area a) (area b))).
Definition cut_hits (E : cenv) (g : gg) (b : box) (z : Z) (blk : bool) (p : midx) (n : Z) : Prop :=
  let l := getLayerNum g z + 1 in
  match ce_via E l with
  | Some v => mz p = z /\ tally (fun cf => exists c, In c (ce_cut E l) /\ cut_conflict c blk b (moved cf (getPoint g p))) (cv_cuts v) n
              \/ mz p <> z /\ n = 0
  | None => n = 0
  end.
(* a rule between the cut layer of the shape and the next one above or below *)
Definition inter_rule (E : cenv) (l1 l2 : Z) : option ccut :=
  match ce_inter E l1 l2 with Some c => Some c | None => ce_inter E l2 l1 end.
Definition inter_hits (E : cenv) (g : gg) (b : box) (z : Z) (upper : bool) (p : midx) (n : Z) : Prop :=
  let l1 := getLayerNum g z + 1 in
  let l2 := if upper then l1 + 2 else l1 - 2 in
  match ce_via E l2, inter_rule E l1 l2 with
  | Some v, Some c =>
    mz p = (if upper then z + 1 else z - 1) /\
    one (exists cf, In cf (cv_cuts v) /\ cut_near c b (moved cf (getPoint g p)) (cu_spc c)) n
    \/ mz p <> (if upper then z + 1 else z - 1) /\ n = 0
  | _, _ => n = 0
  end.

(* ---- the figures of a net ---- *)
(* a via placed on the wire, not at its far end, is forbidden by the technology *)
Definition forbidden_hits (E : cenv) (bi ei p : midx) (n : Z) : Prop :=
  let horz := my bi =? my ei in
  let on := if horz then my p = my bi /\ mx bi <= mx p < mx ei else mx p = mx bi /\ my bi <= my p < my ei in
  exists lo up, one (on /\ mz p = mz bi - 1 /\ ce_forb E (mz bi) true horz = true) lo /\
                one (on /\ mz p = mz bi /\ ce_forb E (mz bi) false horz = true) up /\ n = lo + up.
(* conflicts a default-width wire, resp. a via, at a grid point would have with a figure *)
Definition fig_wire (E : cenv) (g : gg) (p : midx) (f : cfig) (n : Z) : Prop :=
  match f with
  | CWire bi ei b => exists a e, wire_near E g b (mz bi) false p a /\
      (if Bool.eqb (ce_horz E (getLayerNum g (mz bi))) (my bi =? my ei) then wire_eol E g b (mz bi) p e else e = 0) /\
      n = a + e
  | CPatch z b => exists a e, wire_near E g b z false p a /\ wire_eol E g b z p e /\ n = a + e
  | CVia bi ei pt v => exists a1 e1 a2 e2,
      wire_near E g (moved (cv_b1 v) pt) (mz bi) false p a1 /\ wire_eol E g (moved (cv_b1 v) pt) (mz bi) p e1 /\
      wire_near E g (moved (cv_b2 v) pt) (mz ei) false p a2 /\ wire_eol E g (moved (cv_b2 v) pt) (mz ei) p e2 /\
      n = a1 + e1 + a2 + e2
  end.
Definition shape_via (E : cenv) (g : gg) (p : midx) (b : box) (z : Z) (ps eol : bool) (n : Z) : Prop :=
  exists a1 a2 e1 e2,
    via_near E g b z true ps false p a1 /\ via_near E g b z false ps false p a2 /\
    (if eol then via_eol_hits E g b z false p e1 /\ via_eol_hits E g b z true p e2 else e1 = 0 /\ e2 = 0) /\
    n = a1 + a2 + e1 + e2.
Definition cut_via (E : cenv) (g : gg) (p : midx) (z : Z) (cb : box) (n : Z) : Prop :=
  exists a u d, cut_hits E g cb z false p a /\ inter_hits E g cb z true p u /\ inter_hits E g cb z false p d /\
                n = a + u + d.
Definition fig_via (E : cenv) (g : gg) (p : midx) (f : cfig) (n : Z) : Prop :=
  match f with
  | CWire bi ei b => exists s k,
      shape_via E g p b (mz bi) true (Bool.eqb (ce_horz E (getLayerNum g (mz bi))) (my bi =? my ei)) s /\
      forbidden_hits E bi ei p k /\ n = s + k
  | CPatch z b => shape_via E g p b z true true n
  | CVia bi ei pt v => exists s1 s2 c,
      shape_via E g p (moved (cv_b1 v) pt) (mz bi) false true s1 /\
      shape_via E g p (moved (cv_b2 v) pt) (mz ei) false true s2 /\
      sums (cut_via E g p (mz bi)) (map (fun cf => moved cf pt) (cv_cuts v)) c /\ n = s1 + s2 + c
  end.

(* ---- histories: figures present after a sequence of additions and removals ---- *)
Inductive live : list chist -> list cfig -> Prop :=
| live_nil : live [] []
| live_add h l f : live h l -> live (h ++ [AddFig f]) (f :: l)
| live_sub h l f l' : live h l -> Permutation l (f :: l') -> live (h ++ [SubFig f]) l'.

(* ---- assumptions ---- *)
Definition good_box (b : box) : Prop := bleft b + 2 <= bright b /\ bbottom b + 2 <= btop b.
Definition good_rule (c : ceol) : Prop := 0 < eo_space c /\ 0 <= eo_within c.
Definition good_via (v : cvia) : Prop :=
  good_box (cv_b1 v) /\ good_box (cv_b2 v) /\ good_box (cv_cutbb v) /\
  Forall (fun c => solid c /\ bleft (cv_cutbb v) <= bleft c /\ bright c <= bright (cv_cutbb v) /\
                   bbottom (cv_cutbb v) <= bbottom c /\ btop c <= btop (cv_cutbb v)) (cv_cuts v).
(* spacings grow with the run length; positive sizes; end-of-line within distances do not exceed the
   least spacing (the code says so: "eolWithin always < minSpacing") *)
Record good_tech (E : cenv) : Prop := {
  gt_width : forall l, 2 <= ce_width E l;
  gt_manu : 0 < ce_manu E;
  gt_spc : forall l spc, ce_spc E l = Some spc ->
    0 <= ce_min E l /\ (forall w1 w2 r, 0 <= spc w1 w2 r) /\
    (forall w1 w2 r r', r <= r' -> spc w1 w2 r <= spc w1 w2 r') /\
    (forall c, In c (ce_eol E l) -> eo_within c <= ce_min E l /\ forall w1 w2 r, eo_within c <= spc w1 w2 r);
  gt_eol : forall l, Forall good_rule (ce_eol E l);
  gt_via : forall l v, ce_via E l = Some v -> good_via v;
  gt_cut : forall l, Forall (fun c => 0 <= cu_spc c /\ 0 <= cu_within c) (ce_cut E l);
  gt_inter : forall l1 l2 c, ce_inter E l1 l2 = Some c -> 0 <= cu_spc c }.
(* the layers of the grid are consecutive routing layers and no via leaves the grid *)
Definition good_stack (E : cenv) (g : gg) : Prop :=
  (forall z, 0 <= z < nz g -> getLayerNum g z = getLayerNum g 0 + 2 * z) /\
  ce_via E (getLayerNum g 0 - 1) = None /\
  (forall h, ce_forb E 0 true h = false).
Definition good_fig (E : cenv) (g : gg) (f : cfig) : Prop :=
  match f with
  | CWire bi ei b => valid g bi /\ valid g ei /\ good_box b
  | CPatch z b => 0 <= z < nz g /\ good_box b
  | CVia bi ei pt v => valid g bi /\ valid g ei /\ mz ei = mz bi + 1 /\ good_via v /\ Forall good_box (cv_cuts v)
  end.
(* the shapes of a figure are at least as wide as a wire of their layer *)
Definition fig_wide (E : cenv) (g : gg) (f : cfig) : Prop :=
  match f with
  | CWire bi _ b => wide_enough b (ce_width E (getLayerNum g (mz bi)))
  | CPatch z b => wide_enough b (ce_width E (getLayerNum g z))
  | CVia bi ei _ v => wide_enough (cv_b1 v) (ce_width E (getLayerNum g (mz bi))) /\
                      wide_enough (cv_b2 v) (ce_width E (getLayerNum g (mz ei)))
  end.
(* the special access vias are well formed; no cut spacing rule has an AREA *)
Definition svia_good (E : cenv) : Prop := forall q s, ce_svia E q = Some s -> good_via s.
Definition no_area (E : cenv) : Prop := forall l, Forall (fun c => cu_area c = -1) (ce_cut E l).
