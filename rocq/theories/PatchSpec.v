(* Specification vocabulary for minimum-area patches: stretches of a route, the metal of a stretch, areas. *)
From Verif Require Import Base Stl GeomModel GridModel PatchModel.

(* at least n unit squares, named by their lower left corners, belong to the region *)
Definition covers (n : Z) (S : Z -> Z -> Prop) : Prop :=
  exists l : list (Z * Z), NoDup l /\ (forall x y, In (x, y) l -> S x y) /\ n <= Z.of_nat (length l).
(* the unit square lies in the box *)
Definition sq_in (b : box) (x y : Z) : Prop := bleft b <= x /\ x + 1 <= bright b /\ bbottom b <= y /\ y + 1 <= btop b.
(* the unit square lies in the box, placed at the point *)
Definition sq_at (b : box) (o : point) (x y : Z) : Prop := sq_in b (x - px o) (y - py o).

(* [st] is a stretch of the route: all its points are on one layer, and those before and after are not *)
Definition stretch (pts pre st post : list midx) : Prop :=
  pts = pre ++ st ++ post /\ st <> [] /\
  exists z, (forall p, In p st -> mz p = z) /\
            (forall q pre', pre = pre' ++ [q] -> mz q <> z) /\ (forall q post', post = q :: post' -> mz q <> z).
(* two consecutive points of the list *)
Definition next_to (st : list midx) (p q : midx) : Prop := exists a b, st = a ++ p :: q :: b.
Fixpoint travelled (g : gg) (st : list midx) : Z :=
  match st with p :: (q :: _) as r => seg_dist g p q + travelled g r | _ => 0 end.

Section Metal.
Variables (E : penv) (g : gg).
(* the wire between two points, without extensions at its ends *)
Definition wire_box (w : Z) (a b : point) : box :=
  let h := Z.quot w 2 in
  if py a =? py b then mkBox (mkPt (Z.min (px a) (px b)) (py a - h)) (mkPt (Z.max (px a) (px b)) (py a + h))
  else mkBox (mkPt (px a - h) (Z.min (py a) (py b))) (mkPt (px a + h) (Z.max (py a) (py b))).
(* the metal of the default via between layer z and the layer z' above or below it, on layer z *)
Definition via_metal (z z' : Z) : box := if z' <? z then snd (pe_enc E (z - 1)) else fst (pe_enc E z).
(* the metal of a stretch on layer z: its wires, and the vias at its ends *)
Definition stretch_metal (pre st post : list midx) (x y : Z) : Prop :=
  (exists p q, next_to st p q /\ sq_in (wire_box (pl_width (pe_layer E (mz p))) (getPoint g p) (getPoint g q)) x y) \/
  (exists pre' q p st', pre = pre' ++ [q] /\ st = p :: st' /\ sq_at (via_metal (mz p) (mz q)) (getPoint g p) x y) \/
  (exists q post' p st', post = q :: post' /\ st = st' ++ [p] /\ sq_at (via_metal (mz p) (mz q)) (getPoint g p) x y).
Definition patch_metal (ps : list patch) (layer x y : Z) : Prop :=
  exists p, In p ps /\ pa_layer p = layer /\ sq_at (pa_off p) (pa_origin p) x y.
(* the points of the stretch are on one line, passed in order *)
Definition straight_stretch (st : list midx) : Prop :=
  forall p q a b, st = p :: a -> st = b ++ [q] -> travelled g st = seg_dist g p q /\
    ((forall r, In r st -> py (getPoint g r) = py (getPoint g p)) \/ (forall r, In r st -> px (getPoint g r) = px (getPoint g p))).
End Metal.

(* coordinates of the grid grow; the points of the route are points of the grid *)
Definition on_grid (g : gg) (p : midx) : Prop :=
  0 <= mx p < Z.of_nat (length (gxs g)) /\ 0 <= my p < Z.of_nat (length (gys g)).
Definition grid_ok (g : gg) : Prop := sorted_lt (gxs g) /\ sorted_lt (gys g).
(* widths are even, the via metal is centred and at least as wide as a wire of its layer *)
Definition centred (b : box) : Prop := bleft b = - bright b /\ bbottom b = - btop b.
Definition good_penv (E : penv) : Prop :=
  0 < pe_mgrid E /\
  forall z, 0 < pl_width (pe_layer E z) /\ Z.even (pl_width (pe_layer E z)) = true /\
    centred (fst (pe_enc E z)) /\ centred (snd (pe_enc E z)) /\
    pl_width (pe_layer E z) <= box_width (fst (pe_enc E z)) /\ pl_width (pe_layer E (z + 1)) <= box_width (snd (pe_enc E z)).

(* the area the router counts for a stretch, without patches: at the start of the route the area recorded
   there, or else as much as is asked for; at its end the area recorded there; half of the metal of the vias *)
Definition start_area (E : penv) (am : midx -> option Z) (pre st : list midx) : Z :=
  match st with
  | [] => 0
  | p :: _ => match rev pre with
              | [] => match am p with Some a => a | None => req_area E (mz p) end
              | q :: _ => half_area (via_metal E (mz p) (mz q))
              end
  end.
Definition end_area (E : penv) (am : midx -> option Z) (st post : list midx) : Z :=
  match rev st with
  | [] => 0
  | p :: _ => match post with
              | [] => match am p with Some a => a | None => 0 end
              | q :: _ => half_area (via_metal E (mz p) (mz q))
              end
  end.
Definition wire_area (E : penv) (g : gg) (st : list midx) : Z :=
  match st with [] => 0 | p :: _ => travelled g st * pl_width (pe_layer E (mz p)) end.
Definition counted (E : penv) (g : gg) (am : midx -> option Z) (pre st post : list midx) : Z :=
  start_area E am pre st + wire_area E g st + end_area E am st post.
(* the half enclosure of a via that a patch may cover: none at the start and the end of the route *)
Definition start_half (E : penv) (pre st : list midx) : Z :=
  match st, rev pre with p :: _, q :: _ => half_area (via_metal E (mz p) (mz q)) | _, _ => 0 end.
Definition end_half (E : penv) (st post : list midx) : Z :=
  match rev st, post with p :: _, q :: _ => half_area (via_metal E (mz p) (mz q)) | _, _ => 0 end.
(* the area missing, when the half enclosure under the patch is not counted *)
Definition missing (E : penv) (g : gg) (am : midx -> option Z) (pre st post : list midx) : Z :=
  match st with
  | [] => 0
  | p :: _ => req_area E (mz p) - (counted E g am pre st post - start_half E pre st - end_half E st post)
              - Z.min (start_half E pre st) (end_half E st post)
  end.
(* where the patch of a stretch may be: at its first or its last point, pointing away from the wire there; when
   the wire leaves across the preferred direction, away from the other end, or else to the right (up).  At a
   stretch of one point both sides are possible. *)
Definition along (horz : bool) (p : midx) : Z := if horz then mx p else my p.
Definition away (horz : bool) (p next other : midx) (left : bool) : Prop :=
  let v := along horz in
  left = true <-> v p < v next \/ (v p = v next /\ v p < v other).
Definition first_place (E : penv) (st : list midx) (p : midx) (left : bool) : Prop :=
  (st = [p] /\ left = true) \/
  (exists next mid other, st = p :: mid ++ [other] /\ hd_error (mid ++ [other]) = Some next /\
     away (pl_horz (pe_layer E (mz p))) p next other left).
Definition last_place (E : penv) (st : list midx) (p : midx) (left : bool) : Prop :=
  (st = [p] /\ left = false) \/
  (exists next mid other, st = other :: mid ++ [p] /\ hd_error (rev (other :: mid)) = Some next /\
     away (pl_horz (pe_layer E (mz p))) p next other left).
(* the patch at a place: a rectangle of the width of the layer that extends in the preferred direction, by
   the smallest multiple of the manufacturing grid that makes up for the missing area *)
Definition patch_at (E : penv) (g : gg) (area : Z) (p : midx) (left : bool) (P : patch) : Prop :=
  exists len,
    let w := pl_width (pe_layer E (mz p)) in let h := Z.quot w 2 in
    pa_layer P = getLayerNum g (mz p) /\ pa_origin P = getPoint g p /\
    (exists k, len = k * pe_mgrid E) /\ area <= len * w /\ (len - pe_mgrid E) * w < area /\
    pa_off P = if pl_horz (pe_layer E (mz p))
               then (if left then mkBox (mkPt (- len) (- h)) (mkPt 0 h) else mkBox (mkPt 0 (- h)) (mkPt len h))
               else (if left then mkBox (mkPt (- h) (- len)) (mkPt h 0) else mkBox (mkPt (- h) 0) (mkPt h len)).
Definition patch_for (E : penv) (g : gg) (st : list midx) (area : Z) (P : patch) : Prop :=
  exists p left, (first_place E st p left \/ last_place E st p left) /\ patch_at E g area p left P.
(* the areas recorded at grid points: the largest area among the access patterns there *)
Definition records (aps : list (midx * Z)) (am : midx -> option Z) : Prop :=
  forall p, match am p with
            | Some a => In (p, a) aps /\ forall b, In (p, b) aps -> b <= a
            | None => forall b, ~ In (p, b) aps
            end.
(* the stretch has too little area *)
Definition short (E : penv) (g : gg) (am : midx -> option Z) (s : list midx * list midx * list midx) : Prop :=
  match s with (pre, st, post) => exists p st', st = p :: st' /\ counted E g am pre st post < req_area E (mz p) end.

(* the middle of the far end of the patch is in the route box *)
Definition patch_tip (P : patch) (horz left : bool) : point :=
  let o := pa_origin P in let b := pa_off P in
  if horz then mkPt (px o + (if left then bleft b else bright b)) (py o)
  else mkPt (px o) (py o + (if left then bbottom b else btop b)).
(* no grid point under the middle line of the patch is charged on the edge that enters it from the left (from
   below) for a violation, for another net's shape or for a reported marker, as far as these cost anything now *)
Definition charged (E : penv) (g : gg) (p : midx) (d : dir) : Prop :=
  (hasDRCCost g p d = true /\ 0 < pe_drc E) \/ (hasShapeCost g p d = true /\ 0 < pe_shape E) \/
  (hasMarkerCost g p d = true /\ 0 < pe_marker E).
Definition clean_under (E : penv) (g : gg) (P : patch) (p : midx) (left : bool) : Prop :=
  let horz := pl_horz (pe_layer E (mz p)) in
  let o := pa_origin P in let t := patch_tip P horz left in
  if horz then
    forall i, 0 <= i -> i + 1 < Z.of_nat (length (gxs g)) ->
      Z.min (px o) (px t) <= nth (Z.to_nat (i + 1)) (gxs g) 0 <= Z.max (px o) (px t) ->
      ~ charged E g (mkMI i (my p) (mz p)) DE
  else
    forall i, 0 <= i -> i + 1 < Z.of_nat (length (gys g)) ->
      Z.min (py o) (py t) <= nth (Z.to_nat (i + 1)) (gys g) 0 <= Z.max (py o) (py t) ->
      ~ charged E g (mkMI (mx p) i (mz p)) DN.
Definition tip_inside (E : penv) (P : patch) (p : midx) (left : bool) : Prop :=
  let t := patch_tip P (pl_horz (pe_layer E (mz p))) left in
  bleft (pe_box E) <= px t <= bright (pe_box E) /\ bbottom (pe_box E) <= py t <= btop (pe_box E).
(* no sum of costs along a line of the grid reaches the largest int *)
Definition costs_fit (E : penv) (g : gg) : Prop :=
  0 <= pe_drc E /\ 0 <= pe_shape E /\ 0 <= pe_marker E /\
  forall l i j, l = gxs g \/ l = gys g -> (i < length l)%nat -> (j < length l)%nat ->
    (nth j l 0 - nth i l 0) * (pe_drc E + pe_shape E + pe_marker E) < int_max.
