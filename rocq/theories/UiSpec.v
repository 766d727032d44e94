(* When two instances may share access points, and what the rows should be, without the keys and maps of the model. *)
From Verif Require Import Base GeomModel ApModel UiModel.

(* the sides of a box, and the placement coordinate, across the tracks of t *)
Definition side_lo (t : track) (b : box) : Z := if tp_vert t then bleft b else bbottom b.
Definition side_hi (t : track) (b : box) : Z := if tp_vert t then bright b else btop b.
Definition org (t : track) (i : inst) : Z := if tp_vert t then xo (i_xf i) else yo (i_xf i).
Definition coord (t : track) (p : point) : Z := if tp_vert t then px p else py p.
Definition last_track (t : track) : Z := tp_start t + (tp_num t - 1) * tp_space t.
(* c is on a track of pattern t *)
Definition on_pattern (t : track) (c : Z) : Prop := exists k, 0 <= k < tp_num t /\ c = tp_start t + k * tp_space t.

(* pattern t belongs to its layer's preferred direction *)
Definition preferred (E : uenv) (t : track) : Prop := In t (u_tracks E) /\ tp_vert t = negb (u_horz E (tp_layer t)).
(* the stretch from the first to the last track meets the instance *)
Definition reaches (E : uenv) (t : track) (i : inst) : Prop :=
  tp_start t <= side_hi t (inst_box E i) /\ side_lo t (inst_box E i) <= last_track t.
(* neither end of the pattern is in the instance (up to less than a pitch) *)
Definition spans (E : uenv) (t : track) (i : inst) : Prop :=
  tp_start t - tp_space t < side_lo t (inst_box E i) /\ side_hi t (inst_box E i) < last_track t + tp_space t.
(* the layers considered for a master: from the lowest pin shape to the routing layer above the highest *)
Definition seen_layer (E : uenv) (m l : Z) : Prop :=
  exists a b, In a (u_figs E m) /\ In b (u_figs E m) /\ u_bottom E <= a /\ a <= l <= b + 2 /\ l <= u_nlayers E.

(* the two instances lie in the same way with respect to the tracks *)
Definition same_view (E : uenv) (i j : inst) : Prop :=
  i_master i = i_master j /\ ori (i_xf i) = ori (i_xf j) /\
  forall t, preferred E t -> seen_layer E (i_master i) (tp_layer t) ->
    (reaches E t i <-> reaches E t j) /\ (reaches E t i -> (tp_space t | org t i - org t j)).

Definition in_box (p : point) (b : box) : Prop := bleft b <= px p <= bright b /\ bbottom b <= py p <= btop b.
Definition norm (b : box) : Prop := bleft b <= bright b /\ bbottom b <= btop b.

(* pitches are positive, layer numbers are small, masters have their own pins *)
Definition wf (E : uenv) : Prop :=
  (forall t, In t (u_tracks E) -> 0 < tp_space t /\ 0 < tp_num t /\ tp_layer t < INT_MAX) /\
  (forall m l, In l (u_figs E m) -> INT_MIN <= l <= INT_MAX) /\
  (forall m, NoDup (u_pins E m)) /\
  (forall m m' p, In p (u_pins E m) -> In p (u_pins E m') -> m = m').
(* the placement of an instance is not negative (and fits an int) *)
Definition placed_nonneg (i : inst) : Prop := 0 <= xo (i_xf i) <= INT_MAX /\ 0 <= yo (i_xf i) <= INT_MAX.

(* consecutive elements of a list *)
Definition consecutive {A} (x y : A) (l : list A) : Prop := exists l1 l2, l = l1 ++ x :: y :: l2.
(* b continues the row of a *)
Definition continues (E : uenv) (a b : inst) : Prop :=
  yo (i_xf a) = yo (i_xf b) /\ xo (i_xf b) <= bright (inst_box E a).
