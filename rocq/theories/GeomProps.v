(* Property theorems C01-C06.  Specification vocabulary: GeomSpec.v. *)
From Verif Require Import Base GeomModel GeomSpec GeomProofs.
From Coq Require Import String.

(* ---- C01 ---- *)
(* A placement is "offset + the plane map its orientation is named after". *)
Theorem C01_transform_is_named_map : forall p t,
  pt_transform p t = padd (mkPt (xo t) (yo t)) (orient_map (ori t) p).
Proof. exact transform_spec. Qed.
Print Assumptions C01_transform_is_named_map.

Theorem C01_transform_revert_inverse : forall p t,
  pt_transform (pt_transform p t) (xf_revert t) = p /\
  pt_transform (pt_transform p (xf_revert t)) t = p.
Proof. exact (fun p t => conj (transform_revert p t) (revert_transform p t)). Qed.
Print Assumptions C01_transform_revert_inverse.

Theorem C01_transform_isometry : forall p q t,
  dist2 (pt_transform p t) (pt_transform q t) = dist2 p q.
Proof. exact transform_isometry. Qed.
Print Assumptions C01_transform_isometry.

Example C01_example :
  pt_transform (mkPt 3 5) (mkXf 100 200 R90) = mkPt 95 203 /\
  pt_transform (mkPt 95 203) (xf_revert (mkXf 100 200 R90)) = mkPt 3 5.
Proof. split; reflexivity. Qed.

(* ---- C02 ---- *)
Theorem C02_box_of_corners : forall a b,
  normalised (box_of_pts a b) /\ in_box a (box_of_pts a b) /\ in_box b (box_of_pts a b) /\
  (forall c, normalised c -> in_box a c -> in_box b c ->
     forall p, in_box p (box_of_pts a b) -> in_box p c).
Proof. exact box_of_pts_covers. Qed.
Print Assumptions C02_box_of_corners.

Theorem C02_box_transform_exact : forall b t, normalised b ->
  normalised (box_transform b t) /\
  (forall p, in_box p (box_transform b t) <-> exists q, in_box q b /\ p = pt_transform q t) /\
  box_width (box_transform b t) = box_width b /\ box_length (box_transform b t) = box_length b.
Proof.
  exact (fun b t H => conj (box_transform_normalised b t)
          (conj (fun p => box_transform_points b t p H) (box_transform_dims b t H))).
Qed.
Print Assumptions C02_box_transform_exact.

Example C02_example :
  normalised (box_of_pts (mkPt 7 1) (mkPt 2 9)) /\
  box_transform (box_of_pts (mkPt 7 1) (mkPt 2 9)) (mkXf 10 0 R90) =
    mkBox (mkPt 1 2) (mkPt 9 7).
Proof. split; [unfold normalised; cbn; lia | reflexivity]. Qed.

(* ---- C03 ---- *)
Theorem C03_contains_exact : forall a b p, normalised b ->
  (box_contains_pt a p true = true <-> in_box p a) /\
  (box_contains_pt a p false = true <-> in_interior2 (2 * px p) (2 * py p) a) /\
  (box_contains_box a b true = true <-> (forall q, in_box q b -> in_box q a)) /\
  (box_contains_box a b false = true <->
     (forall q, in_box q b -> in_interior2 (2 * px q) (2 * py q) a)).
Proof.
  exact (fun a b p H => conj (proj1 (contains_pt_spec a p)) (conj (proj2 (contains_pt_spec a p))
          (contains_box_spec a b H))).
Qed.
Print Assumptions C03_contains_exact.

Theorem C03_overlaps_exact : forall a b, normalised a -> normalised b ->
  (box_overlaps a b true = true <-> exists p, in_box p a /\ in_box p b) /\
  (solid a -> solid b ->
    (box_overlaps a b false = true <->
     exists x2 y2, in_interior2 x2 y2 a /\ in_interior2 x2 y2 b)).
Proof. exact (fun a b Ha Hb => conj (overlaps_inc_spec a b Ha Hb) (overlaps_exc_spec a b)). Qed.
Print Assumptions C03_overlaps_exact.

Theorem C03_distance_exact : forall a b p, normalised a -> normalised b ->
  is_min_dist2 (fun q => in_box q a) (fun q => in_box q b) (box2boxDistSquare a b) /\
  is_min_dist2 (fun q => in_box q a) (fun q => in_box q b) (box2boxDistSquareNew a b) /\
  is_min_dist2 (fun q => q = p) (fun q => in_box q b) (pt2boxDistSquare p b) /\
  (box2boxDistSquare a b = 0 <-> box_overlaps a b true = true).
Proof.
  exact (fun a b p Ha Hb => conj (box2box_spec a b Ha Hb) (conj (box2box_spec a b Ha Hb)
          (conj (pt2box_spec p b Hb) (box2box_zero a b Ha Hb)))).
Qed.
Print Assumptions C03_distance_exact.

Theorem C03_bloat_exact : forall b d p, normalised b -> 0 <= d ->
  (in_box p (box_bloat b d) <->
   exists q, in_box q b /\ Z.abs (px p - px q) <= d /\ Z.abs (py p - py q) <= d).
Proof. exact bloat_spec. Qed.
Print Assumptions C03_bloat_exact.

Example C03_example :
  let a := box_set 0 0 4 4 in let b := box_set 7 8 9 9 in
  normalised a /\ normalised b /\ solid a /\ solid b /\
  box2boxDistSquare a b = 25 /\ box_overlaps a b true = false /\
  box_overlaps a (box_set 4 0 9 9) true = true /\ box_overlaps a (box_set 4 0 9 9) false = false.
Proof. unfold normalised, solid; cbn; repeat split; lia. Qed.

(* ---- C04 ---- *)
Theorem C04_placed_at_location : forall sx sy t, 0 <= sx -> 0 <= sy ->
  inst_bbox (mkBox (mkPt 0 0) (mkPt sx sy)) t =
  mkBox (mkPt (xo t) (yo t))
        (if swaps (ori t) then mkPt (xo t + sy) (yo t + sx) else mkPt (xo t + sx) (yo t + sy)).
Proof. exact inst_bbox_ll. Qed.
Print Assumptions C04_placed_at_location.

(* The law fails as soon as the macro's box does not start at (0,0) (LEF ORIGIN /= 0 gives such
   boxes, src/io/io.cpp:4120-4126). *)
Theorem C04_nonzero_origin_refuted : exists ref t,
  normalised ref /\ ll (inst_bbox ref t) <> mkPt (xo t) (yo t).
Proof.
  exists (mkBox (mkPt 5 0) (mkPt 15 10)), (mkXf 100 100 R0).
  split; [unfold normalised; cbn; lia | intros H; vm_compute in H; discriminate H].
Qed.
Print Assumptions C04_nonzero_origin_refuted.

Example C04_example :
  inst_bbox (mkBox (mkPt 0 0) (mkPt 30 7)) (mkXf 1000 2000 MYR90) =
  mkBox (mkPt 1000 2000) (mkPt 1007 2030).
Proof. reflexivity. Qed.

(* ---- C05 ---- *)
Theorem C05_orient_names : 
  (forall o, orient_of_name (orient_name o) = o) /\
  (forall a b, orient_name a = orient_name b -> a = b) /\
  (forall s, (forall o, s <> orient_name o) -> orient_of_name s = R0).
Proof. exact (conj orient_name_roundtrip (conj orient_name_inj orient_of_name_unknown)). Qed.
Print Assumptions C05_orient_names.
Example C05_example : orient_of_name "frcMXR90" = MXR90 /\
  (forall o, "N"%string <> orient_name o) /\ orient_of_name "N" = R0.
Proof. split; [reflexivity|split; [destruct o; discriminate|reflexivity]]. Qed.

(* ---- C06 ---- *)
Theorem C06_key_orders :
  strict_total_order pt_lt /\ strict_total_order box_lt /\ strict_total_order mi_lt.
Proof. exact (conj pt_lt_sto (conj box_lt_sto mi_lt_sto)). Qed.
Print Assumptions C06_key_orders.
Example C06_example : pt_lt (mkPt 1 9) (mkPt 2 0) = true /\ pt_lt (mkPt 2 0) (mkPt 2 1) = true.
Proof. split; reflexivity. Qed.
