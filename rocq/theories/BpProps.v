(* Properties C129, C130: the boundary pins of routing clips. *)
From Verif Require Import Base GeomModel GeomSpec GCellModel GCellSpec GridModel BatchModel ClipModel ClipSpec BpModel BpSpec BpProofs BpProofs2.

(* C129: in the first pass a clip gets exactly these pins: the places, on its edge, where a track-assigned wire
   reaches a line between the global cells of the clip *)
Theorem C129_first_pass_pins_exact : forall die xg yg size ws c n p l, grid_ok die xg yg -> 0 < size ->
  In c (clips xg yg 0 size) -> (forall w, In w ws -> real_wire die w) ->
  In (n, p, l) (first_pins die xg yg size ws c) <->
  on_clip_edge die xg yg size c p /\
  exists w, In w ws /\ tw_net w = n /\ tw_layer w = l /\
    ((crosses_x w p /\ clip_line xg (bleft die) (bright die) (c_i c) size (px p) /\ in_cells yg (bbottom die) (btop die) (c_j c) size (py p)) \/
     (crosses_y w p /\ clip_line yg (bbottom die) (btop die) (c_j c) size (py p) /\ in_cells xg (bleft die) (bright die) (c_i c) size (px p))).
Proof. intros. apply first_exact; assumption. Qed.
Print Assumptions C129_first_pass_pins_exact.

(* C129: the edges the pins lie on are those of the clip's route box *)
Theorem C129_clip_edges : forall die xg yg size c p, grid_ok die xg yg -> 0 < size -> In c (clips xg yg 0 size) ->
  let r := route_box die xg yg size c in
  on_clip_edge die xg yg size c p <-> px p = bleft r \/ px p = bright r \/ py p = bbottom r \/ py p = btop r.
Proof.
  intros die xg yg size c p ok Hs I r. destruct (route_box_lines die xg yg ok size c Hs I) as (E1 & E2 & E3 & E4 & _).
  unfold r. rewrite E1, E2, E3, E4. reflexivity.
Qed.
Print Assumptions C129_clip_edges.

(* C129: a wire that crosses the common edge of two neighbouring clips gives both the same pin *)
Theorem C129_crossing_in_both : forall die xg yg size ws c1 c2 w p, grid_ok die xg yg -> 0 < size ->
  In c1 (clips xg yg 0 size) -> In c2 (clips xg yg 0 size) -> (forall w', In w' ws -> real_wire die w') -> In w ws ->
  ((c_j c1 = c_j c2 /\ c_i c2 = c_i c1 + size /\ crosses_x w p /\
    px p = line xg (bleft die) (bright die) (c_i c2) /\ in_cells yg (bbottom die) (btop die) (c_j c1) size (py p)) \/
   (c_i c1 = c_i c2 /\ c_j c2 = c_j c1 + size /\ crosses_y w p /\
    py p = line yg (bbottom die) (btop die) (c_j c2) /\ in_cells xg (bleft die) (bright die) (c_i c1) size (px p))) ->
  In (tw_net w, p, tw_layer w) (first_pins die xg yg size ws c1) /\ In (tw_net w, p, tw_layer w) (first_pins die xg yg size ws c2).
Proof. intros die xg yg size ws c1 c2 w p ok Hs I1 I2 R Hw [(A & B & C & D & E)|(A & B & C & D & E)]; [apply both_x|apply both_y]; assumption. Qed.
Print Assumptions C129_crossing_in_both.

(* C129: neighbouring clips have the same pins on their common edge, unless a wire runs along the edge *)
Theorem C129_neighbours_agree : forall die xg yg size ws c1 c2 n p l, grid_ok die xg yg -> 0 < size ->
  In c1 (clips xg yg 0 size) -> In c2 (clips xg yg 0 size) -> (forall w, In w ws -> real_wire die w) ->
  ((c_j c1 = c_j c2 /\ c_i c2 = c_i c1 + size /\ px p = line xg (bleft die) (bright die) (c_i c2) /\
    forall w, In w ws -> tw_net w = n -> tw_layer w = l -> px (tw_b w) = px (tw_e w) -> px (tw_b w) <> px p) \/
   (c_i c1 = c_i c2 /\ c_j c2 = c_j c1 + size /\ py p = line yg (bbottom die) (btop die) (c_j c2) /\
    forall w, In w ws -> tw_net w = n -> tw_layer w = l -> py (tw_b w) = py (tw_e w) -> py (tw_b w) <> py p)) ->
  In (n, p, l) (first_pins die xg yg size ws c1) <-> In (n, p, l) (first_pins die xg yg size ws c2).
Proof. intros die xg yg size ws c1 c2 n p l ok Hs I1 I2 R [(A & B & C & D)|(A & B & C & D)]; [apply agree_x|apply agree_y]; assumption. Qed.
Print Assumptions C129_neighbours_agree.

(* a die of 103 by 90 in cells of 10, the last of them larger and the lowest smaller *)
Definition ex_die := mkBox (mkPt 0 0) (mkPt 103 90).
Definition ex_xg := mkGP 0 10 10.
Definition ex_yg := mkGP (-4) 10 9.
Definition ex_c1 := mkClip 0 0 0 0.
Definition ex_c2 := mkClip 3 0 1 0.
Definition ex_w := mkTW 7 2 (mkPt 5 15) (mkPt 45 15).
Definition ex_v := mkTW 8 4 (mkPt 30 5) (mkPt 30 55).

(* C129 is false without the exception: a wire that runs along the common edge gives pins, at the lines between the
   cells, to the upper clip only, although it does not cross the edge there *)
Theorem C129_one_sided_pins_refuted : exists die xg yg size ws c1 c2 n p l, grid_ok die xg yg /\ 0 < size /\
  In c1 (clips xg yg 0 size) /\ In c2 (clips xg yg 0 size) /\ (forall w, In w ws -> real_wire die w) /\
  c_j c1 = c_j c2 /\ c_i c2 = c_i c1 + size /\ px p = line xg (bleft die) (bright die) (c_i c2) /\
  line yg (bbottom die) (btop die) (c_j c1) < py p < line yg (bbottom die) (btop die) (c_j c1 + size) /\
  In (n, p, l) (first_pins die xg yg size ws c2) /\ ~ In (n, p, l) (first_pins die xg yg size ws c1) /\
  (forall w, In w ws -> ~ crosses_x w p).
Proof.
  exists ex_die, ex_xg, ex_yg, 3, [ex_v], ex_c1, ex_c2, 8, (mkPt 30 16), 4.
  assert (R : forall w, In w [ex_v] -> real_wire ex_die w) by (intros w [<-|[]]; unfold real_wire, ex_die, ex_v, bleft, bright, bbottom, btop; cbn; lia).
  split; [unfold grid_ok, axis_ok, ex_die, bleft, bright, bbottom, btop; cbn; lia|]. split; [lia|].
  split; [vm_compute; tauto|]. split; [vm_compute; tauto|]. split; [exact R|]. do 3 (split; [reflexivity|]). split; [vm_compute; auto|].
  split; [vm_compute; tauto|]. split; [vm_compute; tauto|]. intros w [<-|[]] (A & _). discriminate A.
Qed.
Print Assumptions C129_one_sided_pins_refuted.

Example C129_meets : grid_ok ex_die ex_xg ex_yg /\ In ex_c1 (clips ex_xg ex_yg 0 3) /\ In ex_c2 (clips ex_xg ex_yg 0 3) /\
  real_wire ex_die ex_w /\ real_wire ex_die ex_v /\ crosses_x ex_w (mkPt 30 15) /\ 30 = line ex_xg 0 103 (c_i ex_c2) /\
  in_cells ex_yg 0 90 0 3 15 /\
  first_pins ex_die ex_xg ex_yg 3 [ex_w; ex_v] ex_c1 = [(7, mkPt 30 15, 2)] /\
  first_pins ex_die ex_xg ex_yg 3 [ex_w; ex_v] ex_c2 =
    [(7, mkPt 30 15, 2); (8, mkPt 30 6, 4); (8, mkPt 30 6, 4); (8, mkPt 30 16, 4); (8, mkPt 30 16, 4); (8, mkPt 30 26, 4)].
Proof.
  split; [unfold grid_ok, axis_ok, ex_die, bleft, bright, bbottom, btop; cbn; lia|].
  split; [vm_compute; tauto|]. split; [vm_compute; tauto|].
  split; [unfold real_wire, ex_die, ex_w, bleft, bright, bbottom, btop; cbn; lia|].
  split; [unfold real_wire, ex_die, ex_v, bleft, bright, bbottom, btop; cbn; lia|].
  split; [unfold crosses_x; cbn; lia|]. split; [reflexivity|]. split; [unfold in_cells; vm_compute; split; [discriminate|left; reflexivity]|].
  split; vm_compute; reflexivity.
Qed.

(* C130: in later passes the pins are exactly the places where the routing that is kept outside meets the clip *)
Theorem C130_pins_where_kept_routing_meets : forall b lw figs p l, solid b -> (forall w, In (FSeg w) figs -> proper w) ->
  In (p, l) (later_pins b (loaded false b lw Ext figs)) <->
  lines (loaded false b lw Ext figs) l (2 * px p) (2 * py p) /\ in_box2 b (2 * px p) (2 * py p).
Proof. intros. apply later_meets; assumption. Qed.
Print Assumptions C130_pins_where_kept_routing_meets.

(* C130: no meeting point is missed: each of them is a point of the database grid *)
Theorem C130_every_meeting_has_pin : forall b lw figs l x y, solid b -> (forall w, In (FSeg w) figs -> proper w) ->
  lines (loaded false b lw Ext figs) l x y -> in_box2 b x y ->
  exists p, x = 2 * px p /\ y = 2 * py p /\ In (p, l) (later_pins b (loaded false b lw Ext figs)).
Proof.
  intros b lw figs l x y S P L I. destruct (meets_even b lw S figs l x y P L I) as (p & -> & ->). exists p. do 2 (split; [reflexivity|]).
  apply later_meets; auto.
Qed.
Print Assumptions C130_every_meeting_has_pin.

(* C130: in terms of the wires of the net: a pin exactly where a wire enters or leaves the box through an edge, or
   comes from outside and ends on it *)
Theorem C130_pins_of_wires_exact : forall b lw figs p l, solid b -> (forall w, In (FSeg w) figs -> proper w) ->
  In (p, l) (later_pins b (loaded false b lw Ext figs)) <->
  in_box p b /\ exists w, In (FSeg w) figs /\ wl w = l /\
    ((px (wb w) = px (we w) /\ px p = px (wb w) /\
      ((py p = btop b /\ py (wb w) <= btop b < py (we w)) \/ (py p = bbottom b /\ py (wb w) < bbottom b <= py (we w)))) \/
     (py (wb w) = py (we w) /\ py p = py (wb w) /\
      ((px p = bright b /\ px (wb w) <= bright b < px (we w)) \/ (px p = bleft b /\ px (wb w) < bleft b <= px (we w))))).
Proof. intros. apply later_wires; assumption. Qed.
Print Assumptions C130_pins_of_wires_exact.

Definition ex_b := mkBox (mkPt 0 0) (mkPt 100 100).
Definition ex_st := mkSt StExtend 5 StExtend 5 10.
Definition ex_f := [FSeg (mkW 2 (mkPt (-40) 20) (mkPt 140 20) ex_st); FSeg (mkW 4 (mkPt 50 100) (mkPt 50 180) ex_st);
                    FVia (mkPt 50 20) 2 4 1; FSeg (mkW 4 (mkPt 50 20) (mkPt 50 100) ex_st)].
Example C130_meets : solid ex_b /\ (forall w, In (FSeg w) ex_f -> proper w) /\
  later_pins ex_b (loaded false ex_b (fun _ => 10) Ext ex_f) = [(mkPt 0 20, 2); (mkPt 100 20, 2); (mkPt 50 100, 4)] /\
  lines (loaded false ex_b (fun _ => 10) Ext ex_f) 4 100 200 /\ in_box2 ex_b 100 200.
Proof.
  split; [unfold solid, ex_b, bleft, bright, bbottom, btop; cbn; lia|].
  split. { intros w H. cbn in H. destruct H as [H|[H|[H|[H|[]]]]]; try discriminate H; injection H as <-; unfold proper; cbn; lia. }
  split; [vm_compute; reflexivity|]. split.
  - exists (mkW 4 (mkPt 50 100) (mkPt 50 180) ex_st). split; [vm_compute; tauto|]. split; [reflexivity|]. unfold on_line. cbn. lia.
  - unfold in_box2, ex_b, bleft, bright, bbottom, btop. cbn. lia.
Qed.
