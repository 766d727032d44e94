(* Specification of the set-up of a clip: which edges are blocked. *)
From Verif Require Import Base Stl GeomModel GeomSpec GridModel GridSpec CostModel CostSpec SetupModel.

(* one of the two ends of the edge leaving [p] in direction [d], with the direction of the edge seen from there *)
Definition at_end (p : midx) (d : dir) (q : midx) (e : dir) : Prop := (q = p /\ e = d) \/ (q = step p d /\ e = opp d).
(* the grid point lies on a shape of the fixed objects found on its own layer *)
Definition lies_on (S : senv) (g : gg) (q : midx) (o : fobj) : Prop :=
  In o (found S (getLayerNum g (mz q))) /\ in_box (getPoint g q) (fo_box o).
Definition touches (S : senv) (g : gg) (p : midx) (d : dir) (o : fobj) : Prop := exists q e, at_end p d q e /\ lies_on S g q o.
Definition is_blk (o : fobj) : Prop := fo_kind o = KBlk.
Definition is_io (o : fobj) : Prop := exists n t, fo_kind o = KTerm n t.
Definition is_pin (o : fobj) : Prop := exists n t, fo_kind o = KInstTerm n t.
Definition is_power_wire (o : fobj) : Prop := fo_kind o = KWire true.
Definition is_power_via (o : fobj) : Prop := exists c, fo_kind o = KVia true c.

(* an IO pin may only be left along its longer side *)
Definition io_forbids (S : senv) (g : gg) (p : midx) (d : dir) : Prop :=
  exists q e o, at_end p d q e /\ lies_on S g q o /\ is_io o /\
    (planar e = false \/
     (bright (fo_box o) - bleft (fo_box o) > btop (fo_box o) - bbottom (fo_box o) /\ (e = DN \/ e = DS)) \/
     (bright (fo_box o) - bleft (fo_box o) <= btop (fo_box o) - bbottom (fo_box o) /\ (e = DE \/ e = DW))).
(* the last access point at an end of the edge, with the direction of the edge from there *)
Definition last_access (aps : list apat) (p : midx) (d : dir) (a : apat) (e : dir) : Prop :=
  exists l1 l2, aps = l1 ++ a :: l2 /\ at_end p d (a_mi a) e /\ forall a' e', In a' l2 -> ~ at_end p d (a_mi a') e'.
Definition no_access (aps : list apat) (p : midx) (d : dir) : Prop := forall a e, In a aps -> ~ at_end p d (a_mi a) e.

(* a wire edge: an obstruction and no pin of an instance, or a power wire with no such pin after it *)
Definition fixed_forbids_wire (S : senv) (g : gg) (p : midx) (d : dir) : Prop :=
  (exists o, is_blk o /\ touches S g p d o) /\ (forall o, touches S g p d o -> ~ is_pin o) \/
  (exists l1 o l2, found S (getLayerNum g (mz p)) = l1 ++ o :: l2 /\ is_power_wire o /\ touches S g p d o /\
                   forall o', In o' l2 -> touches S g p d o' -> ~ is_pin o').
(* a cut of a power via that already violates an adjacent-cuts rule with another power cut, near the edge *)
Definition crowded (S : senv) (E : cenv) (g : gg) (q : midx) : Prop :=
  let l := getLayerNum g (mz q) + 1 in
  exists o o' cuts c, In o (found S l) /\ fo_kind o = KVia true cuts /\ In c (ce_cut E l) /\ cu_adj c <> -1 /\
    In o' (se_q S l (box_bloat cuts (cu_within c))) /\ is_power_via o' /\ fo_box o' <> fo_box o /\
    cut_near c (fo_box o) (fo_box o') (cu_spc c) /\
    (if cu_c2c c then Z.abs (px (getPoint g q) - px (midpoint (fo_box o))) <= cu_spc c /\ Z.abs (py (getPoint g q) - py (midpoint (fo_box o))) <= cu_spc c
     else let w := cu_spc c + Z.quot (ce_width E l) 2 in
          bleft (fo_box o) - w <= px (getPoint g q) <= bright (fo_box o) + w /\ bbottom (fo_box o) - w <= py (getPoint g q) <= btop (fo_box o) + w).
(* a via edge *)
Definition fixed_forbids_via (S : senv) (E : cenv) (g : gg) (p : midx) (d : dir) : Prop :=
  (exists o, (is_blk o \/ is_power_wire o) /\ touches S g p d o) \/ (exists q, (q = p \/ q = step p d) /\ mz q = Z.min (mz p) (mz (step p d)) /\ crowded S E g q).
Definition fixed_forbids (S : senv) (E : cenv) (g : gg) (p : midx) (d : dir) : Prop :=
  if planar d then fixed_forbids_wire S g p d else fixed_forbids_via S E g p d.
(* IO pins decide first, then the access points, then the fixed shapes *)
Definition forbidden (S : senv) (E : cenv) (g : gg) (aps : list apat) (p : midx) (d : dir) : Prop :=
  io_forbids S g p d \/
  (~ io_forbids S g p d /\ exists a e, last_access aps p d a e /\ a_ok a e = false) \/
  (~ io_forbids S g p d /\ no_access aps p d /\ fixed_forbids S E g p d).

(* ---- assumptions ---- *)
(* the layers of the grid are the routing layers of the technology, with one cut layer above each but the last *)
Definition layers_ok (S : senv) (g : gg) : Prop :=
  (forall l, In l (gzs g) <-> se_bot S <= l <= se_top S /\ se_rout S l = true) /\
  (forall l, se_cutl S l = true -> se_rout S l = false) /\
  (forall z, 0 <= z -> z + 1 < nz g -> se_cutl S (getLayerNum g z + 1) = true /\ getLayerNum g z + 1 <= se_top S).
(* shapes are rectangles given by their corners; wires are on routing layers *)
Definition shapes_ok (S : senv) (E : cenv) : Prop :=
  (forall l b o, In o (se_q S l b) -> normalised (fo_box o)) /\
  (forall l o pg, In o (found S l) -> fo_kind o = KWire pg -> se_rout S l = true) /\
  (forall l, Forall (fun c => 0 <= cu_spc c) (ce_cut E l)) /\ (forall l, 0 <= ce_width E l).
(* nothing is blocked before *)
Definition unblocked (g : gg) : Prop := forall q, valid g q -> read g q ABlockE = 0 /\ read g q ABlockN = 0 /\ read g q ABlockU = 0.
(* the last access point with a via at a grid point *)
Definition last_via (aps : list apat) (q : midx) (v : cvia) : Prop :=
  exists l1 a l2, aps = l1 ++ a :: l2 /\ a_mi a = q /\ a_via a = Some v /\ forall a', In a' l2 -> a_mi a' = q -> a_via a' = None.
