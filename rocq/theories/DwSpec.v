(* What of a DEF file survives being copied. *)
From Coq Require Import String.
From Verif Require Import Base DwModel.
Local Open Scope string_scope.
Local Open Scope Z_scope.
Local Open Scope list_scope.

(* a number of at most six significant digits *)
Definition six_digits (n : Z) : Prop := exists m k, 0 <= k /\ Z.abs m < 1000000 /\ n = m * 10 ^ k.
Definition is_name (s : string) : Prop := ~ In s [";"; "+"; "-"; "("; ")"].
Definition is_orient (o : Z) : Prop := 0 <= o < 8.

(* statements the parser accepts; masks are numbered from 1 *)
Definition track_wf (t : track) : Prop :=
  t_layers t <> [] /\ (forall l, In l (t_layers t) -> is_name l) /\ 0 <= t_mask t /\ (t_same t = true -> t_mask t <> 0).
Definition row_wf (w : row) : Prop := is_name (r_name w) /\ is_name (r_site w) /\ is_orient (r_orient w).
Definition stmt_wf (s : stmt) : Prop := match s with STrack t => track_wf t | SRow w => row_wf w | SGrid _ => True end.
(* statements whose numbers the writer can print *)
Definition stmt_short (s : stmt) : Prop :=
  match s with
  | STrack t => six_digits (t_x t) /\ six_digits (t_num t) /\ six_digits (t_step t)
  | SGrid g => six_digits (gg_step g)
  | SRow w => match r_do w with
              | None => True
              | Some (nx, ny, None) => six_digits nx /\ six_digits ny
              | Some (nx, ny, Some (sx, sy)) => six_digits nx /\ six_digits ny /\ six_digits sx /\ six_digits sy
              end
  end.
Definition no_row_properties (s : stmt) : Prop := match s with SRow w => r_props w = [] | _ => True end.

(* a component the parser accepts *)
Definition place_wf (p : place) : Prop := match p with Fixed _ _ o => is_orient o | Cover _ _ o => is_orient o | Placed _ _ o => is_orient o | _ => True end.
Definition comp_wf (c : comp) : Prop :=
  is_name (c_id c) /\ is_name (c_model c) /\ (forall n, In n (c_nets c) -> is_name n) /\
  (forall s, c_source c = Some s -> In s ["NETLIST"; "DIST"; "USER"; "TIMING"]) /\ place_wf (c_place c) /\
  (forall a b, c_gen c = Some (a, b) -> is_name a /\ is_name b) /\
  (forall s, c_eeq c = Some s -> is_name s) /\ (forall s, c_region c = Some s -> is_name s) /\ (forall s, c_mask c = Some s -> is_name s) /\
  (forall d a b, c_rhalo c = Some (d, a, b) -> is_name a /\ is_name b) /\
  forall p, In p (c_props c) -> is_name (fst (fst p)) /\ is_name (snd (fst p)).
Definition is_cover (c : comp) : Prop := match c_place c with Cover _ _ _ => True | _ => False end.
