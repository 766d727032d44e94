(* Specification of the fixed metal of a design in terms of the LEF and DEF files. *)
From Verif Require Import Base GeomModel GeomSpec FmModel.
From Coq Require Import String.
From Coq Require Import List.
Open Scope list_scope.

Definition between (a b x : Z) : Prop := Z.min a b <= x <= Z.max a b.
(* the box covers exactly the image of the rectangle with the two corners *)
Definition image (f : point -> point) (x1 y1 x2 y2 : Z) (b : box) : Prop :=
  normalised b /\ forall q, in_box q b <-> exists p, between x1 x2 (px p) /\ between y1 y2 (py p) /\ q = f p.
(* a rectangle among the items, under the last LAYER item before it *)
Definition rect_on (its : list litem) (n : string) (x1 y1 x2 y2 : Z) : Prop :=
  exists pre mid post, its = pre ++ LLayer n :: mid ++ LRect x1 y1 x2 y2 :: post /\ forall m, ~ In (LLayer m) mid.
(* the macro of a name: the last one *)
Definition macro_of (lib : list lmacro) (n : string) (m : lmacro) : Prop :=
  exists l1 l2, lib = l1 ++ m :: l2 /\ lm_name m = n /\ forall m', In m' l2 -> lm_name m' <> n.
(* LEF: the cell extends from -ORIGIN by SIZE *)
Definition cell (m : lmacro) : box := mkBox (mkPt (- lm_ox m) (- lm_oy m)) (mkPt (lm_sx m - lm_ox m) (lm_sy m - lm_oy m)).
(* DEF: the placed cell is the rotated cell, shifted such that its lower-left corner is at the location *)
Definition placement (c : dcomp) (m : lmacro) (v : point) : Prop :=
  let w := lm_sx m in let h := lm_sy m in
  forall q, in_box q (mkBox (mkPt (dc_x c) (dc_y c)) (if swaps (dc_ori c) then mkPt (dc_x c + h) (dc_y c + w) else mkPt (dc_x c + w) (dc_y c + h))) <->
            exists p, in_box p (cell m) /\ q = padd v (orient_map (dc_ori c) p).
Definition placed (c : dcomp) (m : lmacro) (x1 y1 x2 y2 : Z) (b : box) : Prop :=
  exists v, placement c m v /\ image (fun p => padd v (orient_map (dc_ori c) p)) x1 y1 x2 y2 b.
(* metal of a wire of a special net *)
Definition wire_box (b e : point) (w be ee : Z) (r : box) : Prop :=
  if px b =? px e then image (fun p => p) (px b - Z.quot w 2) (py b - be) (px e + Z.quot w 2) (py e + ee) r
  else image (fun p => p) (px b - be) (py b - Z.quot w 2) (px e + ee) (py e + Z.quot w 2) r.
(* a DEF blockage that restricts wires of every net on a known layer, with no further attribute *)
Definition plain_blk (lay : string -> option Z) (b : dblk) : bool :=
  match db_layer b with Some n => match lay n with Some _ => negb (db_attr b) | None => false end | None => false end.

Section Metal.
Variable lay : string -> option Z.
Variable (lib : list lmacro) (cs : list dcomp) (ps : list dpin) (ss : list snet) (bs : list dblk).
(* the rectangles of metal in the files, where they are on the die, and the object they belong to *)
Inductive metal (l : Z) (b : box) : owner -> Prop :=
| metal_pin i c m j P port n x1 y1 x2 y2 :
    nth_error cs i = Some c -> macro_of lib (dc_macro c) m -> nth_error (lm_pins m) j = Some P -> In port (lp_ports P) ->
    rect_on port n x1 y1 x2 y2 -> lay n = Some l -> placed c m x1 y1 x2 y2 b -> metal l b (OInstTerm i j)
| metal_obs i c m j its n x1 y1 x2 y2 :
    nth_error cs i = Some c -> macro_of lib (dc_macro c) m -> nth_error (lm_obs m) j = Some its ->
    rect_on its n x1 y1 x2 y2 -> lay n = Some l -> placed c m x1 y1 x2 y2 b -> metal l b (OInstBlk i j)
| metal_term j P n x1 y1 x2 y2 :
    nth_error ps j = Some P -> In (n, (x1, y1, x2, y2)) (dp_rects P) -> lay n = Some l ->
    image (fun p => padd (mkPt (dp_x P) (dp_y P)) (orient_map (dp_ori P) p)) x1 y1 x2 y2 b -> metal l b (OTerm j)
| metal_wire k N j p q w be ee :
    nth_error ss k = Some N -> nth_error (sn_shapes N) j = Some (SSeg l p q w be ee) -> wire_box p q w be ee b -> metal l b (OShape k j)
| metal_rect k N j :
    nth_error ss k = Some N -> nth_error (sn_shapes N) j = Some (SRect l b) -> metal l b (OShape k j)
| metal_via k N j v f :
    nth_error ss k = Some N -> nth_error (sn_vias N) j = Some v ->
    (In f (sv_f1 v) /\ l = sv_l1 v \/ In f (sv_f2 v) /\ l = sv_l2 v \/ In f (sv_fc v) /\ l = sv_cl v) ->
    image (padd (sv_pt v)) (bleft f) (bbottom f) (bright f) (btop f) b -> metal l b (OVia k j)
| metal_blk j B n x1 y1 x2 y2 :
    nth_error (filter (plain_blk lay) bs) j = Some B -> db_layer B = Some n -> lay n = Some l -> In (x1, y1, x2, y2) (db_rects B) ->
    image (fun p => p) x1 y1 x2 y2 b -> metal l b (OBlk j).

(* files the reader refuses *)
Definition known_use (u : option string) : Prop := u = None \/ exists s, u = Some s /\ In s ["SIGNAL"; "CLOCK"; "POWER"; "GROUND"]%string.
Definition readable : Prop :=
  (forall m P, In m lib -> In P (lm_pins m) -> known_use (lp_use P)) /\
  (forall c, In c cs -> exists m, In m lib /\ lm_name m = dc_macro c) /\ NoDup (map dc_id cs) /\
  (forall P, In P ps -> known_use (dp_use P) /\ dp_port P = false /\
     (forall n r, In (n, r) (dp_rects P) -> lay n <> None) /\ (forall n r, In (n, r) (dp_polys P) -> lay n <> None)).
(* the ORIGIN of the macros used is not beyond their SIZE *)
Definition origin_ok : Prop := forall c m, In c cs -> macro_of lib (dc_macro c) m -> lm_ox m <= lm_sx m /\ lm_oy m <= lm_sy m /\ 0 <= lm_sx m /\ 0 <= lm_sy m.
(* the layers of special nets and of the files are layers of the technology *)
Definition layers_in (numLayers : Z) : Prop :=
  let ok l := 0 <= l < numLayers in
  (forall n l, lay n = Some l -> ok l) /\
  (forall N, In N ss -> (forall s, In s (sn_shapes N) -> match s with SSeg l _ _ _ _ _ => ok l | SRect l b => ok l /\ normalised b | SOther => True end) /\
                        (forall v, In v (sn_vias N) -> ok (sv_l1 v) /\ ok (sv_l2 v) /\ ok (sv_cl v))).
End Metal.
