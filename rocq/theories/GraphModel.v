(* Track coordinates and the construction of the routing grid graph of a clip:
   src/ta/FlexTA_init.cpp, src/dr/FlexDR_init.cpp, src/dr/FlexGridGraph.cpp. *)
From Verif Require Import Base Stl GeomModel GridModel.

(* --- track patterns ---------------------------------------------------------------------- *)
(* src/db/obj/frTrackPattern.h; [tp_isX] = isHorizontal(): DEF "TRACKS X", a list of x coordinates *)
Record tpat := mkTP { tp_layer : Z; tp_isX : bool; tp_start : Z; tp_num : Z; tp_step : Z }.

(* the block shared by src/ta/FlexTA_init.cpp:60-69, src/dr/FlexDR_init.cpp:1312-1318 and
   src/dr/FlexGridGraph.cpp:374-380: index of the first track not below [low]; C++ division truncates *)
Definition first_track (tp : tpat) (low : Z) : Z :=
  let k := Z.quot (low - tp_start tp) (tp_step tp) in
  let k := if k <? 0 then 0 else k in
  if k * tp_step tp + tp_start tp <? low then k + 1 else k.
(* the loop that follows; [incl]: compared with <= (FlexDR_init.cpp:1319-1322) or < (the other two);
   the track index grows up to the number of tracks, which is the fuel *)
Fixpoint track_loop (fuel : nat) (tp : tpat) (k high : Z) (incl : bool) : list Z :=
  match fuel with
  | O => []
  | S fuel' =>
      let c := k * tp_step tp + tp_start tp in
      if (k <? tp_num tp) && (if incl then c <=? high else c <? high)
      then c :: track_loop fuel' tp (k + 1) high incl else []
  end.
(* None: integer division by zero *)
Definition pattern_tracks (tp : tpat) (low high : Z) (incl : bool) : option (list Z) :=
  if tp_step tp =? 0 then None
  else Some (track_loop (Z.to_nat (tp_num tp)) tp (first_track tp low) high incl).

(* std::set<frCoord>::insert *)
Fixpoint set_ins (c : Z) (l : list Z) : list Z :=
  match l with
  | [] => [c]
  | a :: r => if c <? a then c :: l else if c =? a then l else a :: set_ins c r
  end.
Definition set_ins_all (cs l : list Z) : list Z := fold_left (fun s c => set_ins c s) cs l.

(* src/ta/FlexTA_init.cpp:34-90 initTracks, one layer: [horz] the worker's direction (equal to the
   layer's), [low] and [high] the route box across it *)
Fixpoint ta_tracks (tps : list tpat) (layer : Z) (horz : bool) (low high : Z) (acc : list Z)
  {struct tps} : option (list Z) :=
  match tps with
  | [] => Some acc
  | tp :: r =>
      if (tp_layer tp =? layer) && ((horz && negb (tp_isX tp)) || (negb horz && tp_isX tp)) then
        match pattern_tracks tp low high false with
        | None => None
        | Some cs => ta_tracks r layer horz low high (set_ins_all cs acc)
        end
      else ta_tracks r layer horz low high acc
  end.
(* src/dr/FlexDR_init.cpp:1307-1335 getTrackLocs: closed range; the argument isHorzTracks has no
   effect (every coordinate is inserted before it is tested) *)
Fixpoint dr_track_locs (tps : list tpat) (layer : Z) (horz : bool) (low high : Z) (acc : list Z)
  {struct tps} : option (list Z) :=
  match tps with
  | [] => Some acc
  | tp :: r =>
      if (tp_layer tp =? layer) && ((tp_isX tp && negb horz) || (negb (tp_isX tp) && horz)) then
        match pattern_tracks tp low high true with
        | None => None
        | Some cs => dr_track_locs r layer horz low high (set_ins_all cs acc)
        end
      else dr_track_locs r layer horz low high acc
  end.

(* --- coordinate maps --------------------------------------------------------------------- *)
(* std::map<frCoord, std::map<frLayerNum, frTrackPattern*>>; the flag: pointer not null *)
Definition tmap := list (Z * list (Z * bool)).
Fixpoint sub_set (s : list (Z * bool)) (l : Z) (v : bool) : list (Z * bool) :=
  match s with
  | [] => [(l, v)]
  | (l', v') :: r => if l =? l' then (l, v) :: r else (l', v') :: sub_set r l v
  end.
Fixpoint tm_set (m : tmap) (c l : Z) (v : bool) : tmap :=
  match m with
  | [] => [(c, [(l, v)])]
  | (c', s) :: r =>
      if c <? c' then (c, [(l, v)]) :: m
      else if c =? c' then (c', sub_set s l v) :: r
      else (c', s) :: tm_set r c l v
  end.
Fixpoint sub_get (s : list (Z * bool)) (l : Z) : option bool :=
  match s with [] => None | (l', v) :: r => if l =? l' then Some v else sub_get r l end.

(* an assignment to one of the two maps *)
Record tentry := mkTE { te_x : bool; te_c : Z; te_l : Z; te_v : bool }.
Definition apply_entry (mm : tmap * tmap) (e : tentry) : tmap * tmap :=
  if te_x e then (tm_set (fst mm) (te_c e) (te_l e) (te_v e), snd mm)
  else (fst mm, tm_set (snd mm) (te_c e) (te_l e) (te_v e)).

(* --- technology -------------------------------------------------------------------------- *)
(* routing layers in order, lowest and highest layer number, the routing range (BOTTOM_ROUTING_LAYER,
   TOP_ROUTING_LAYER) and the global USENONPREFTRACKS *)
Record rlayer := mkRL { l_num : Z; l_horz : bool; l_rightway : bool }.
Record tech := mkTech { t_layers : list rlayer; t_bot : Z; t_top : Z;
                        t_rbot : Z; t_rtop : Z; t_nonpref : bool }.
Definition find_layer (T : tech) (l : Z) : option rlayer := find (fun x => l_num x =? l) (t_layers T).
Definition is_horz (T : tech) (l : Z) : bool := match find_layer T l with Some x => l_horz x | None => false end.
Definition rightway (T : tech) (l : Z) : bool := match find_layer T l with Some x => l_rightway x | None => false end.

(* --- existing shapes --------------------------------------------------------------------- *)
(* src/dr/FlexDR_init.cpp:1855-1863 and the like: the next layer up, else the next one down, else
   nothing (the code prints an error) *)
Definition other_layer (T : tech) (l : Z) : option Z :=
  if l + 2 <=? t_top T then Some (l + 2) else if l - 2 >=? t_bot T then Some (l - 2) else None.
Definition on_other (T : tech) (isx : bool) (cs : list Z) (l : Z) : list tentry :=
  match other_layer T l with Some l' => map (fun c => mkTE isx c l' false) cs | None => [] end.

Inductive cfig := CSeg (bp ep : point) (l : Z) | CVia (o : point) (l1 l2 : Z) | CPatch.
(* src/dr/FlexDR_init.cpp:1837-1934 initTrackCoords_route, one object *)
Definition fig_entries (T : tech) (f : cfig) : list tentry :=
  match f with
  | CSeg bp ep l =>
      if px bp =? px ep then
        if is_horz T l then
          on_other T true [px bp] l ++ [mkTE false (py bp) l false; mkTE false (py ep) l false]
        else mkTE true (px bp) l false :: on_other T false [py bp; py ep] l
      else
        if negb (is_horz T l) then
          on_other T false [py bp] l ++ [mkTE true (px bp) l false; mkTE true (px ep) l false]
        else mkTE false (py bp) l false :: on_other T true [px bp; px ep] l
  | CVia o l1 l2 =>
      [if is_horz T l1 then mkTE false (py o) l1 false else mkTE true (px o) l1 false;
       if is_horz T l2 then mkTE false (py o) l2 false else mkTE true (px o) l2 false]
  | CPatch => []
  end.
(* src/dr/FlexDR_init.cpp:1936-1974 initTrackCoords_pin, one access point.  Without a neighbouring layer
   the code continues with layer 0 after printing an error. *)
Definition ap_entries (T : tech) (pt : point) (l : Z) : list tentry :=
  let l2 := match other_layer T l with Some l' => l' | None => 0 end in
  [if is_horz T l then mkTE false (py pt) l false else mkTE true (px pt) l false;
   if is_horz T l2 then mkTE false (py pt) l2 false else mkTE true (px pt) l2 false].
(* src/dr/FlexDR_init.cpp:1976-1995 initTrackCoords; a net: its shapes and its access points *)
Definition dnet := (list cfig * list (point * Z))%type.
Definition box_entries (b : box) : list tentry :=
  [mkTE false (bbottom b) (-10) false; mkTE false (btop b) (-10) false;
   mkTE true (bleft b) (-10) false; mkTE true (bright b) (-10) false].
Definition coord_entries (T : tech) (rbox ebox : box) (nets : list dnet) : list tentry :=
  box_entries rbox ++ box_entries ebox ++
  flat_map (fun n => flat_map (fig_entries T) (fst n) ++
                     flat_map (fun a => ap_entries T (fst a) (snd a)) (snd n)) nets.

(* src/dr/FlexGridGraph.cpp:353-400 initTracks; note the test of USENONPREFTRACKS *)
Fixpoint pattern_entries (T : tech) (tps : list tpat) (b : box) : option (list tentry) :=
  match tps with
  | [] => Some []
  | tp :: r =>
      match find_layer T (tp_layer tp) with
      | None => pattern_entries T r b          (* not a routing layer *)
      | Some L =>
          if (if t_nonpref T then (tp_isX tp && negb (l_horz L)) || (negb (tp_isX tp) && l_horz L) else true) then
            match pattern_tracks tp (if tp_isX tp then bleft b else bbottom b)
                    (if tp_isX tp then bright b else btop b) false, pattern_entries T r b with
            | Some cs, Some es => Some (map (fun c => mkTE (tp_isX tp) c (tp_layer tp) true) cs ++ es)
            | _, _ => None
            end
          else pattern_entries T r b
      end
  end.

(* --- the graph --------------------------------------------------------------------------- *)
(* src/dr/FlexGridGraph.cpp:38-107 initGrids: coordinates, cleared attributes (A* costs and heights
   left out; guides are all zero or all one) *)
Definition init_grids (T : tech) (xm ym : tmap) (follow : bool) : gg :=
  mkGG (map fst xm) (map fst ym) (map l_num (t_layers T)) (map l_horz (t_layers T))
    (fun _ => 0) (fun _ => false) (fun _ => false) (fun _ => false) (fun _ => negb follow).

(* FlexGridGraph.cpp:122-129 *)
Definition nonpref_layer (T : tech) (l : Z) : Z :=
  match other_layer T l with Some l' => l' | None => l end.
(* FlexGridGraph.cpp:109-316 initEdges, body of the loops for one grid point *)
Definition cell_ops (T : tech) (L : rlayer) (xs ys : list (Z * bool)) (p : midx) (b : box) (initDR : bool)
  : list gop :=
  let l := l_num L in
  let np := nonpref_layer T l in
  let inrange := (l >=? t_rbot T) && (l <=? t_rtop T) in
  (if l_horz L then
     match sub_get ys l with
     | None => []
     | Some yv =>
         (if inrange && (negb (rightway T l) || yv)
          then AddEdge p DE b initDR :: (if negb yv then [SetGridCostE p] else []) else []) ++
         match sub_get xs (l + 2) with
         | None => []
         | Some xv2 =>
             if (rightway T l && negb yv) || (rightway T np && negb xv2) then []
             else AddEdge p DU b initDR :: (if negb yv || negb xv2 then [SetGridCostU p] else [])
         end
     end
   else
     match sub_get xs l with
     | None => []
     | Some xv =>
         (if inrange && (negb (rightway T l) || xv)
          then AddEdge p DN b initDR :: (if negb xv then [SetGridCostN p] else []) else []) ++
         match sub_get ys (l + 2) with
         | None => []
         | Some yv2 =>
             if (rightway T l && negb xv) || (rightway T np && negb yv2) then []
             else AddEdge p DU b initDR :: (if negb yv2 || negb xv then [SetGridCostU p] else [])
         end
     end) ++
  (if t_nonpref T && inrange then
     if l_horz L then
       match sub_get xs np with None => [] | Some _ => [AddEdge p DN b initDR; SetGridCostN p] end
     else
       match sub_get ys np with None => [] | Some _ => [AddEdge p DE b initDR; SetGridCostE p] end
   else []).
(* the three loops: layers, y, x *)
Definition enum {A} (l : list A) : list (Z * A) := combine (map Z.of_nat (seq 0 (length l))) l.
Definition init_ops (T : tech) (xm ym : tmap) (b : box) (initDR : bool) : list gop :=
  flat_map (fun zl => flat_map (fun yl => flat_map (fun xl =>
      cell_ops T (snd zl) (snd (snd xl)) (snd (snd yl)) (mkMI (fst xl) (fst yl) (fst zl)) b initDR)
    (enum xm)) (enum ym)) (enum (t_layers T)).
(* FlexGridGraph.cpp:320-351 init and src/dr/FlexDR_init.cpp:1997-2005 initGridGraph *)
Definition build_graph (T : tech) (tps : list tpat) (nets : list dnet) (rbox ebox : box)
  (initDR follow : bool) : option (tmap * tmap * gg) :=
  match pattern_entries T tps ebox with
  | None => None
  | Some pes =>
      let mm := fold_left apply_entry (coord_entries T rbox ebox nets ++ pes) ([], []) in
      Some (mm, grun (init_grids T (fst mm) (snd mm) follow) (init_ops T (fst mm) (snd mm) rbox initDR))
  end.

(* src/dr/FlexDR_init.cpp:2007-2050 initMazeIdx_connFig, path segments: ends clipped to the extended box *)
Definition clip_low (e : box) (p : point) : point := mkPt (Z.max (px p) (bleft e)) (Z.max (py p) (bbottom e)).
Definition clip_high (e : box) (p : point) : point := mkPt (Z.min (px p) (bright e)) (Z.min (py p) (btop e)).
Definition seg_has_idx (g : gg) (e : box) (bp ep : point) (l : Z) : bool :=
  hasMazeIdx g (clip_low e bp) l && hasMazeIdx g (clip_high e ep) l.
