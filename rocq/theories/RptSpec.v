(* What a DRC report says. *)
From Verif Require Import Base GeomModel RptModel.
From Coq Require Import String Ascii.

(* [m] units of [10^k] micrometres differ from [x / dbu] by at most half such a unit; are equal to it *)
Definition scaled (x k : Z) : Z := x * 10 ^ (Z.max 0 (- k)).
Definition near (dbu x : Z) (d : decimal) : Prop :=
  let '(m, k) := d in 2 * Z.abs (scaled x k - m * scaled dbu (- k)) <= scaled dbu (- k).
Definition equals (dbu x : Z) (d : decimal) : Prop := let '(m, k) := d in scaled x k = m * scaled dbu (- k).
(* six digits: the unit is at most a hundred thousandth of the number *)
Definition six_digits (dbu x : Z) (d : decimal) : Prop := let '(m, k) := d in 100000 * scaled dbu (- k) <= Z.abs (scaled x k).
(* [x / dbu] can be written with at most six digits *)
Definition short_number (dbu x : Z) : Prop := exists m k, Z.abs m < 1000000 /\ equals dbu x (m, k).

(* the names under which the rules appear *)
Inductive appears : ctype -> ltype -> string -> Prop :=
| ap_short : appears KShort LRouting "Short" | ap_cut_short : appears KShort LCut "CShort"
| ap_width l : appears KMinWidth l "MinWid" | ap_spacing l : appears KSpacing l "MetSpc" | ap_prl l : appears KTablePrl l "MetSpc"
| ap_samenet l : appears KSamenet l "MetSpc" | ap_eol l : appears KEol l "EOLSpc" | ap_cut l : appears KCutSpacing l "CutSpc"
| ap_cut8 l : appears KL58CutSpacing l "CutSpc" | ap_step l : appears KMinStep l "MinStp" | ap_step8 l : appears KL58MinStep l "MinStp"
| ap_nsm l : appears KNonSufficientMetal l "NSMet" | ap_grid l : appears KOffGrid l "OffGrid" | ap_hole l : appears KMinEnclosedArea l "MinHole"
| ap_area l : appears KArea l "MinArea" | ap_corner l : appears KL58Corner l "CornerSpc" | ap_rect l : appears KRectOnly l "RectOnly"
| ap_way l : appears KRightWay l "RightWayOnGridOnly".
(* the names of nets, pins and obstructions *)
Inductive named : source -> string -> Prop :=
| nm_net n : named (SNet n) n
| nm_inst_term i t : named (SInstTerm i t) (i ++ "/" ++ t)
| nm_term t : named (STerm t) ("PIN/" ++ t)
| nm_inst_obs i : named (SInstBlk i) (i ++ "/OBS")
| nm_obs : named SBlk "PIN/OBS".
