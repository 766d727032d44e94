(* Specification vocabulary for clips, batches and schedules. *)
From Verif Require Import Base GeomModel GeomSpec BatchModel.

(* every point of the first box is a point of the second *)
Definition box_within (a b : box) : Prop := forall p, in_box p a -> in_box p b.
(* no point belongs to both boxes, edges included *)
Definition no_common_point (a b : box) : Prop := forall p, in_box p a -> in_box p b -> False.
(* no interior point (in half units) belongs to both boxes *)
Definition no_common_interior (a b : box) : Prop :=
  forall x2 y2, in_interior2 x2 y2 a -> in_interior2 x2 y2 b -> False.
(* the boxes are at least [gx] apart along x or at least [gy] apart along y *)
Definition apart (gx gy : Z) (a b : box) : Prop :=
  bright a + gx <= bleft b \/ bright b + gx <= bleft a \/
  btop a + gy <= bbottom b \/ btop b + gy <= bbottom a.
(* the offsets a pass may start from: no clip lies entirely before the first gcell *)
Definition offset_ok (size offset : Z) : Prop := 0 < size /\ - size < offset <= 0.

(* a parallel run of [n] steps: at each step some unfinished worker advances *)
Inductive par_steps {D L : Type} (w_step : D -> L -> option L) (d : D) : nat -> list L -> list L -> Prop :=
| ps_refl ls : par_steps w_step d 0 ls ls
| ps_step n ls i l l' ls' :
    nth_error ls i = Some l -> w_step d l = Some l' ->
    par_steps w_step d n (set_nth i l' ls) ls' -> par_steps w_step d (S n) ls ls'.
