(* Pins of cells and their access points. *)
From Verif Require Import Base GeomModel PiModel.

(* a standard cell: core, tie or antenna cell *)
Definition standard_cell (i : pinst) : Prop := In (pi_class i) [MCore; MTieHigh; MTieLow; MAntenna].
(* signal and clock terminals *)
Definition signal (t : pterm) : Prop := pt_type t = TNormal \/ pt_type t = TClock.
(* the pins of the signal terminals, terminal by terminal *)
Inductive pins_in_order : list pterm -> list ppin -> Prop :=
| pio_nil : pins_in_order [] []
| pio_signal t ts ps : signal t -> pins_in_order ts ps -> pins_in_order (t :: ts) (pt_pins t ++ ps)
| pio_other t ts ps : ~ signal t -> pins_in_order ts ps -> pins_in_order (t :: ts) ps.
Inductive sum_of_x : list point -> Z -> Prop :=
| sx_nil : sum_of_x [] 0
| sx_cons p ps s : sum_of_x ps s -> sum_of_x (p :: ps) (px p + s).
(* the mean of x without its fraction *)
Definition mean_is (p : ppin) (m : Z) : Prop :=
  pp_aps p <> [] /\ exists s, sum_of_x (pp_aps p) s /\ let n := Z.of_nat (length (pp_aps p)) in
  (0 <= s -> n * m <= s < n * (m + 1) /\ 0 <= m) /\ (s < 0 -> n * (m - 1) < s <= n * m /\ m <= 0).
