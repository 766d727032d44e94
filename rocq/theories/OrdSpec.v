(* The order of the nets of a clip. *)
From Verif Require Import Base GeomModel OrdModel.

Definition inside (b : box) (p : point) : Prop := bleft b <= px p <= bright b /\ bbottom b <= py p <= btop b.
(* the smallest box around points *)
Definition hull (b : box) (ps : list point) : Prop :=
  (forall p, In p ps -> inside b p) /\
  (exists p, In p ps /\ px p = bleft b) /\ (exists p, In p ps /\ px p = bright b) /\
  (exists p, In p ps /\ py p = bbottom b) /\ (exists p, In p ps /\ py p = btop b).
(* the place of a pin: its first access pattern without cost, or its first *)
Inductive at_point : opin -> point -> Prop :=
| at_free aps1 p aps2 : Forall (fun a => snd a <> 0) aps1 -> at_point (mkOP (aps1 ++ (p, 0) :: aps2)) p
| at_first p c aps : Forall (fun a => snd a <> 0) ((p, c) :: aps) -> at_point (mkOP ((p, c) :: aps)) p.
(* how many of these points are inside *)
Inductive count_inside (b : box) : list point -> Z -> Prop :=
| ci_nil : count_inside b [] 0
| ci_in p ps n : inside b p -> count_inside b ps n -> count_inside b (p :: ps) (n + 1)
| ci_out p ps n : ~ inside b p -> count_inside b ps n -> count_inside b (p :: ps) n.
Definition area (b : box) : Z := (bright b - bleft b) * (btop b - bbottom b).
(* fewer pins first, then the smaller area, then the smaller number *)
Definition before (a b : oinfo) : Prop :=
  oi_num a < oi_num b \/
  oi_num a = oi_num b /\ (area (oi_box a) < area (oi_box b) \/ area (oi_box a) = area (oi_box b) /\ on_id (oi_net a) < on_id (oi_net b)).
