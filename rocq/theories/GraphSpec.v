(* Specification of the tracks of a region and of the routing grid of a clip. *)
From Verif Require Import Base Stl GeomModel GeomSpec GridModel GridSpec GraphModel.

(* --- tracks ------------------------------------------------------------------------------ *)
(* "TRACKS X|Y start DO num STEP step": the coordinates start, start+step, ..., num of them *)
Definition on_pattern (tp : tpat) (c : Z) : Prop :=
  exists k, 0 <= k < tp_num tp /\ c = tp_start tp + k * tp_step tp.
Definition in_range (incl : bool) (low high c : Z) : Prop := low <= c /\ (if incl then c <= high else c < high).
(* tracks along the direction of the layer: x coordinates for a vertical layer, y for a horizontal one *)
Definition along (tp : tpat) (horz : bool) : Prop := tp_isX tp = negb horz.
Definition steps_positive (tps : list tpat) : Prop := forall tp, In tp tps -> 0 < tp_step tp.

(* --- which coordinates of the grid carry a track of a layer -------------------------------- *)
Definition layer_in (T : tech) (l : Z) : Prop := exists L, In L (t_layers T) /\ l_num L = l.
(* layer numbers increase; they lie between the lowest and the highest layer *)
Definition tech_ok (T : tech) : Prop :=
  sorted_lt (map l_num (t_layers T)) /\
  (forall L, In L (t_layers T) -> t_bot T <= l_num L <= t_top T /\ 0 <= l_num L).
(* a track of the design at coordinate c on layer l, inside the extended box *)
Definition design_track (T : tech) (tps : list tpat) (ebox : box) (isx : bool) (c l : Z) : Prop :=
  layer_in T l /\
  exists tp, In tp tps /\ tp_isX tp = isx /\ tp_layer tp = l /\ on_pattern tp c /\
    (t_nonpref T = true -> along tp (is_horz T l)) /\
    in_range false (if isx then bleft ebox else bbottom ebox) (if isx then bright ebox else btop ebox) c.
(* a track made for the shapes already there *)
Inductive shape_track (T : tech) (nets : list dnet) : bool -> Z -> Z -> Prop :=
(* a wire along its layer *)
| st_v_wire n bp ep l : In n nets -> In (CSeg bp ep l) (fst n) -> px bp = px ep -> is_horz T l = false ->
    shape_track T nets true (px bp) l
| st_h_wire n bp ep l : In n nets -> In (CSeg bp ep l) (fst n) -> px bp <> px ep -> is_horz T l = true ->
    shape_track T nets false (py bp) l
(* its ends, on the neighbouring layer *)
| st_v_ends n bp ep l l' c : In n nets -> In (CSeg bp ep l) (fst n) -> px bp = px ep -> is_horz T l = false ->
    other_layer T l = Some l' -> c = py bp \/ c = py ep -> shape_track T nets false c l'
| st_h_ends n bp ep l l' c : In n nets -> In (CSeg bp ep l) (fst n) -> px bp <> px ep -> is_horz T l = true ->
    other_layer T l = Some l' -> c = px bp \/ c = px ep -> shape_track T nets true c l'
(* a wire across its layer *)
| st_v_wrong n bp ep l l' : In n nets -> In (CSeg bp ep l) (fst n) -> px bp = px ep -> is_horz T l = true ->
    other_layer T l = Some l' -> shape_track T nets true (px bp) l'
| st_h_wrong n bp ep l l' : In n nets -> In (CSeg bp ep l) (fst n) -> px bp <> px ep -> is_horz T l = false ->
    other_layer T l = Some l' -> shape_track T nets false (py bp) l'
| st_v_wrong_ends n bp ep l c : In n nets -> In (CSeg bp ep l) (fst n) -> px bp = px ep -> is_horz T l = true ->
    c = py bp \/ c = py ep -> shape_track T nets false c l
| st_h_wrong_ends n bp ep l c : In n nets -> In (CSeg bp ep l) (fst n) -> px bp <> px ep -> is_horz T l = false ->
    c = px bp \/ c = px ep -> shape_track T nets true c l
(* a via, on both its layers *)
| st_via n o l1 l2 l : In n nets -> In (CVia o l1 l2) (fst n) -> l = l1 \/ l = l2 ->
    shape_track T nets (negb (is_horz T l)) (if is_horz T l then py o else px o) l
(* an access point, on its layer and the neighbouring one *)
| st_ap n pt l l' : In n nets -> In (pt, l) (snd n) ->
    l' = l \/ l' = match other_layer T l with Some k => k | None => 0 end ->
    shape_track T nets (negb (is_horz T l')) (if is_horz T l' then py pt else px pt) l'.

Definition track T tps nets ebox isx c l : Prop :=
  design_track T tps ebox isx c l \/ shape_track T nets isx c l.
(* the coordinates of the grid *)
Definition box_side (b : box) (isx : bool) (c : Z) : Prop :=
  c = (if isx then bleft b else bbottom b) \/ c = (if isx then bright b else btop b).
Definition grid_coord T tps nets rbox ebox isx c : Prop :=
  (exists l, track T tps nets ebox isx c l) \/ box_side rbox isx c \/ box_side ebox isx c.

(* --- edges ------------------------------------------------------------------------------- *)
Definition routable (T : tech) (l : Z) : Prop := t_rbot T <= l <= t_rtop T.
(* a layer with the right-way-on-grid-only rule takes only tracks of the design *)
Definition usable T tps nets ebox isx c l : Prop :=
  track T tps nets ebox isx c l /\ (rightway T l = true -> design_track T tps ebox isx c l).
(* the coordinate that fixes an edge along x (a y coordinate) or along y (an x coordinate) *)
Definition edge_coord g p (horz : bool) : Z := if horz then py (getPoint g p) else px (getPoint g p).
(* planar edge, east (horz) or north, of a layer *)
Definition planar_edge T tps nets ebox g p (horz : bool) : Prop :=
  let l := getLayerNum g (mz p) in let c := edge_coord g p horz in
  routable T l /\
  (if Bool.eqb horz (is_horz T l) then usable T tps nets ebox (negb horz) c l
   else t_nonpref T = true /\ track T tps nets ebox (negb horz) c (nonpref_layer T l)).
(* via edge from layer l to layer l+2: a track along l here and a crossing one of l+2 *)
Definition via_edge T tps nets ebox g p : Prop :=
  let l := getLayerNum g (mz p) in let h := is_horz T l in
  let c := edge_coord g p h in let c2 := edge_coord g p (negb h) in
  track T tps nets ebox (negb h) c l /\ track T tps nets ebox h c2 (l + 2) /\
  (rightway T l = true -> design_track T tps ebox (negb h) c l) /\
  (rightway T (nonpref_layer T l) = true -> design_track T tps ebox h c2 (l + 2)).
Definition grid_edge T tps nets ebox g p (d : dir) : Prop :=
  match d with
  | DE => planar_edge T tps nets ebox g p true
  | DN => planar_edge T tps nets ebox g p false
  | _ => via_edge T tps nets ebox g p
  end.
(* off the tracks of the design, or across the layer *)
Definition off_track T tps ebox g p (d : dir) : Prop :=
  let l := getLayerNum g (mz p) in let h := is_horz T l in
  let off isx c l := ~ design_track T tps ebox isx c l in
  match d with
  | DE => if h then off false (py (getPoint g p)) l else True
  | DN => if h then True else off true (px (getPoint g p)) l
  | _ => off (negb h) (edge_coord g p h) l \/ off h (edge_coord g p (negb h)) (l + 2)
  end.
