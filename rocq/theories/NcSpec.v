(* Specification of the costs while one net is routed. *)
From Verif Require Import Base Stl GeomModel GeomSpec GridModel GridSpec CostModel CostSpec SetupModel SetupSpec NcModel.

(* a default-width wire at the grid point would be too close to the shape, or its end in an end-of-line region of it *)
Definition near_wire (E : cenv) (g : gg) (q : midx) (b : box) (blk : bool) : Prop :=
  let l := getLayerNum g (mz q) in let w := wire_end (half_width E l) (getPoint g q) in
  (exists spc, ce_spc E l = Some spc /\ nearer b w (wire_spacing E spc l b blk)) \/
  (exists r, In r (all_regions E l b) /\ intrudes w r).
(* fixed shapes: obstructions, wires and vias of special nets; cell pins of every net on the lowest layer of the grid *)
Definition fixed_near (S : senv) (E : cenv) (g : gg) (q : midx) : Prop :=
  exists o, In o (found S (getLayerNum g (mz q))) /\
    match fo_kind o with
    | KBlk => near_wire E g q (fo_box o) true
    | KTerm _ _ => False
    | KInstTerm _ _ => mz q = 0 /\ near_wire E g q (fo_box o) true
    | KWire _ | KVia _ _ => near_wire E g q (fo_box o) false
    end.
(* the term of the net has a shape in the clip *)
Definition term_found (S : senv) (g : gg) (n t : Z) : Prop :=
  exists l o, se_bot S <= l <= se_top S /\ slot S g l <> None /\ In o (found S l) /\ (fo_kind o = KTerm n t \/ fo_kind o = KInstTerm n t).
Definition pin_near (S : senv) (E : cenv) (g : gg) (q : midx) (t : Z) : Prop :=
  exists b, In (getLayerNum g (mz q), b) (te_figs (se_term S t)) /\ near_wire E g q b false.

(* ---- the number of conflicts at a grid point ---- *)
Definition rect_wire (E : cenv) (g : gg) (q : midx) (z : Z) (b : box) (blk : bool) (n : Z) : Prop :=
  exists a e, wire_near E g b z blk q a /\ wire_eol E g b z q e /\ n = a + e.
Definition obj_wire (S : senv) (E : cenv) (g : gg) (q : midx) (lo : Z * fobj) (n : Z) : Prop :=
  let z := zof g (fst lo) in let b := fo_box (snd lo) in
  if se_rout S (fst lo) then
    match fo_kind (snd lo) with
    | KBlk => rect_wire E g q z b true n
    | KTerm _ _ => n = 0
    | KInstTerm _ _ => if z <=? 0 then rect_wire E g q z b true n else n = 0
    | KWire _ | KVia _ _ => rect_wire E g q z b false n
    end
  else n = 0.
Definition all_fixed (S : senv) : list (Z * fobj) := flat_map (fun l => map (pair l) (found S l)) (zrange (se_bot S) (se_top S)).
Definition term_wire (S : senv) (E : cenv) (g : gg) (q : midx) (t : Z) (n : Z) : Prop :=
  sums (fun lb m => if se_rout S (fst lb) then rect_wire E g q (zof g (fst lb)) (snd lb) false m else m = 0) (te_figs (se_term S t)) n.
(* at most 255 conflicts: the counter has eight bits *)
Definition few (S : senv) (E : cenv) (g : gg) (q : midx) : Prop :=
  forall F T, sums (obj_wire S E g q) (all_fixed S) F -> sums (term_wire S E g q) (map snd (terms_met S g)) T -> F + T <= 255.

(* ---- assumptions ---- *)
(* rectangles on routing layers are at least as wide as a wire of their layer; rectangles of terms are on layers of the grid *)
Definition rect_ok (E : cenv) (l : Z) (b : box) : Prop := good_box b /\ wide_enough b (ce_width E l).
Definition rects_ok (S : senv) (E : cenv) (g : gg) : Prop :=
  (forall l o, In o (found S l) -> se_rout S l = true -> rect_ok E l (fo_box o)) /\
  (forall n t l b, term_found S g n t -> In (l, b) (te_figs (se_term S t)) -> se_rout S l = true -> In l (gzs g) /\ rect_ok E l b).
(* the search and the writing of a path change neither the coordinates nor fixed-shape costs of wires *)
Definition search_ok (g : gg) (H : list gop) : Prop := Forall (op_safe g) H /\ forall o, In o H -> op_attr o <> AShapeX.
(* access points and outside wires of the net are on the grid *)
Definition net_ok (E : cenv) (g : gg) (N : dnet) : Prop :=
  (forall P a, In P (dn_pins N) -> In a (np_aps P) -> valid g (na_mi a)) /\ Forall (good_fig E g) (dn_ext N).

(* ---- access points ---- *)
Definition pin_access (N : dnet) (std : bool) (P : npin) (a : nap) : Prop := In P (dn_pins N) /\ np_std P = Some std /\ In a (np_aps P).
(* an access point that may be left upwards *)
Definition up_access (N : dnet) (q : midx) : Prop := exists std P a, pin_access N std P a /\ na_ok a DU = true /\ na_mi a = q.
(* the grid point [k] steps from [p]; the coordinate along the direction; its index is on the grid *)
Definition far (p : midx) (d : dir) (k : Z) : midx :=
  match d with
  | DE => mkMI (mx p + k) (my p) (mz p) | DW => mkMI (mx p - k) (my p) (mz p)
  | DN => mkMI (mx p) (my p + k) (mz p) | DS => mkMI (mx p) (my p - k) (mz p) | _ => p end.
Definition along (g : gg) (d : dir) (p : midx) : Z := match d with DE | DW => px (getPoint g p) | _ => py (getPoint g p) end.
Definition axis_in (g : gg) (d : dir) (p : midx) : Prop := match d with DE | DW => 0 <= mx p < nx g | _ => 0 <= my p < ny g end.
(* the points of a line: the first, and those whose next point is within the length of the second one *)
Definition in_line (g : gg) (p : midx) (d : dir) (len : Z) (q : midx) : Prop :=
  exists k, 0 <= k /\ q = far p d k /\
    (k = 0 \/ (axis_in g d (far p d (k + 1)) /\ Z.abs (along g d (far p d (k + 1)) - along g d (far p d 1)) <= len)).
(* lines that get cheaper for a net: from access points of macros and IO pins in the directions in which they may be
   left; and on the layer above, along its preferred direction, from access points that may be left upwards but are
   on no track of that layer, unless the pin (of a standard cell) has an access point that is on one *)
Definition on_upper_track (E : cenv) (a : nap) : Prop := if ce_horz E (na_lay a + 2) then na_onx a = true else na_ony a = true.
Definition access_line (S : senv) (E : cenv) (N : dnet) (p : midx) (d : dir) (len : Z) : Prop :=
  exists std P a, pin_access N std P a /\
    ((std = false /\ planar d = true /\ na_ok a d = true /\ p = na_mi a /\ len = 10 * ce_width E (na_lay a)) \/
     (na_ok a DU = true /\ na_lay a + 2 <= se_top S /\ ~ on_upper_track E a /\
      (std = true -> forall a', In a' (np_aps P) -> na_ok a' DU = true -> ~ on_upper_track E a') /\
      p = mkMI (mx (na_mi a)) (my (na_mi a)) (mz (na_mi a) + 1) /\
      (if ce_horz E (na_lay a + 2) then d = DW \/ d = DE else d = DN \/ d = DS) /\
      len = 10 * ce_width E (na_lay a + 2))).
(* an edge of a point of such a line: along it, or a via *)
Definition access_edge (S : senv) (E : cenv) (g : gg) (N : dnet) (x : midx) (e : dir) : Prop :=
  exists p d len q e', access_line S E N p d len /\ in_line g p d len q /\ (e' = d \/ e' = DD \/ e' = DU) /\ at_end x e q e'.
