(* What changes in the grid while one net is routed: src/dr/FlexDR_maze.cpp mazeNetInit, mazeNetEnd and the
   helpers they call in src/dr/FlexDR_init.cpp.  Only fixMode 9 (route_queue) is modelled, in which
   initMazeCost_via_helper is not called (1758). *)
From Verif Require Import Base Stl GeomModel GridModel CostModel SetupModel.

(* FlexGridGraph.h:291-310 getEdgeLength in a planar direction; None: a read outside the coordinate vector *)
Definition edge_len (g : gg) (p : midx) (d : dir) : option Z :=
  let '(p, d) := correct p d in
  match d with
  | DE => if (0 <=? mx p) && (mx p + 1 <? nx g) then Some (nth (Z.to_nat (mx p + 1)) (gxs g) 0 - nth (Z.to_nat (mx p)) (gxs g) 0) else None
  | DN => if (0 <=? my p) && (my p + 1 <? ny g) then Some (nth (Z.to_nat (my p + 1)) (gys g) 0 - nth (Z.to_nat (my p)) (gys g) 0) else None
  | _ => Some 0
  end.
(* --x, ++x, --y, ++y *)
Definition move (p : midx) (d : dir) : midx :=
  match d with
  | DW => mkMI (mx p - 1) (my p) (mz p) | DE => mkMI (mx p + 1) (my p) (mz p)
  | DS => mkMI (mx p) (my p - 1) (mz p) | DN => mkMI (mx p) (my p + 1) (mz p)
  | _ => p end.
(* FlexDR_init.cpp:2121-2165 initMazeCost_ap_planarGrid_helper: the points it visits.  [fuel] bounds the loop;
   None: the loop reads outside the coordinate vector (or the fuel ends, which does not happen with enough) *)
Fixpoint walk (fuel : nat) (g : gg) (p : midx) (d : dir) (len cur : Z) : option (list midx) :=
  if cur >? len then Some []
  else match fuel with
       | O => None
       | S f => let p' := move p d in
                match edge_len g p' d with
                | None => None
                | Some e => if e =? 0 then Some [p]
                            else match walk f g p' d len (cur + e) with Some l => Some (p :: l) | None => None end
                end
       end.
Definition fuel_of (g : gg) : nat := length (gxs g) + length (gys g) + 2.

(* drAccessPattern as mazeNetInit reads it: grid point, layer, allowed directions, isOnTrack(true), isOnTrack(false) *)
Record nap := mkNA { na_mi : midx; na_lay : Z; na_ok : dir -> bool; na_onx : bool; na_ony : bool }.
(* drPin: None without a term; Some true: pin of a standard cell, Some false: of a macro, pad, ring or IO *)
Record npin := mkNP { np_std : option bool; np_aps : list nap }.
(* drNet: the net it belongs to, its pins, the wires and vias outside the clip, its guides *)
Record dnet := mkDN { dn_net : Z; dn_pins : list npin; dn_ext : list cfig; dn_guides : list (box * Z) }.

(* 2244-2258: an access point that may be left upwards and is on a track of the layer above.  Every layer is
   taken to have one of the two preferred directions. *)
Definition upper_on_track (E : cenv) (a : nap) : bool :=
  na_ok a DU && (if ce_horz E (na_lay a + 2) then na_onx a else na_ony a).
(* what initMazeCost_ap_helper (2212-2312) does, in order: walks along a line of the grid, and the flag that
   hides fixed-shape costs of the via *)
Inductive item := Line (p : midx) (d : dir) (len : Z) | Over (p : midx).
Definition above (p : midx) : midx := mkMI (mx p) (my p) (mz p + 1).
Definition ap_items (S : senv) (E : cenv) (std has : bool) (a : nap) : list item :=
  let l := na_lay a in
  (if na_ok a DU then
     (if (l + 2 <=? se_top S) && negb has then
        let len := 10 * ce_width E (l + 2) in
        if ce_horz E (l + 2) then (if na_onx a then [] else [Line (above (na_mi a)) DW len; Line (above (na_mi a)) DE len])
        else (if na_ony a then [] else [Line (above (na_mi a)) DN len; Line (above (na_mi a)) DS len])
      else []) ++ [Over (na_mi a)]
   else []) ++
  (if std then [] else flat_map (fun d => if na_ok a d then [Line (na_mi a) d (10 * ce_width E l)] else []) [DW; DE; DS; DN]).
Definition pin_items (S : senv) (E : cenv) (P : npin) : list item :=
  match np_std P with
  | None => []
  | Some std => flat_map (ap_items S E std (std && existsb (upper_on_track E) (np_aps P))) (np_aps P)
  end.
Definition line_ops (add : bool) (d : dir) (pts : list midx) : list gop :=
  flat_map (fun q => if add then [SetGridCost q d; SetGridCost q DD; SetGridCost q DU]
                     else [ResetGridCost q d; ResetGridCost q DD; ResetGridCost q DU]) pts.
Fixpoint item_ops (g : gg) (add : bool) (its : list item) : option (list gop) :=
  match its with
  | [] => Some []
  | Over p :: r => match item_ops g add r with Some l => Some ((if add then ResetOverrideVia p else SetOverrideVia p) :: l) | None => None end
  | Line p d len :: r =>
    match walk (fuel_of g) g p d len 0, item_ops g add r with
    | Some pts, Some l => Some (line_ops add d pts ++ l) | _, _ => None end
  end.
(* 3918-3944 initMazeCost_minCut_helper *)
Definition mincut_ops (S : senv) (E : cenv) (g : gg) (type : Z) (f : cfig) : list gop :=
  match f with
  | CVia bi ei pt v =>
    mod_mincut S E g type (at_pt (cv_b1 v) pt) (mz bi) true ++ mod_mincut S E g type (at_pt (cv_b1 v) pt) (mz bi) false ++
    mod_mincut S E g type (at_pt (cv_b2 v) pt) (mz ei) true ++ mod_mincut S E g type (at_pt (cv_b2 v) pt) (mz ei) false
  | _ => []
  end.
Definition net_items (S : senv) (E : cenv) (N : dnet) : list item := flat_map (pin_items S E) (dn_pins N).
(* FlexDR_maze.cpp:1752-1768 mazeNetInit (add = false) and 1770-1780 mazeNetEnd (add = true): the operations on the
   cells of the grid, before and after the guide marks.  [E] has the special vias of the clip. *)
Definition net_ops1 (S : senv) (E : cenv) (g : gg) (N : dnet) (add : bool) : list gop :=
  flat_map (term_ops S E g add true) (terms_of S g (dn_net N)).
Definition net_ops2 (S : senv) (E : cenv) (g : gg) (N : dnet) (add : bool) : option (list gop) :=
  match item_ops g add (net_items S E N) with
  | None => None
  | Some ap => Some (flat_map (mincut_ops S E g (if add then 0 else 1)) (dn_ext N) ++ ap ++
                     flat_map (mod_path E g (if add then 1 else 0)) (dn_ext N))
  end.
Definition net_begin (S : senv) (E : cenv) (follow : bool) (g : gg) (N : dnet) : option gg :=
  match net_ops2 S E g N false with
  | None => None
  | Some ops =>
    let g1 := grun (resetStatus g) (net_ops1 S E g N false) in
    Some (grun (if follow then guide_helper g1 (dn_guides N) true else g1) ops)
  end.
Definition net_end (S : senv) (E : cenv) (follow : bool) (g : gg) (N : dnet) : option gg :=
  match net_ops2 S E g N true with
  | None => None
  | Some ops =>
    let g1 := grun g (net_ops1 S E g N true) in
    Some (grun (if follow then guide_helper g1 (dn_guides N) false else g1) ops)
  end.
(* one net after the other: begin, what the search and the writing of the path do to the cells, end *)
Fixpoint rounds (S : senv) (E : cenv) (follow : bool) (g : gg) (l : list (dnet * list gop)) : option gg :=
  match l with
  | [] => Some g
  | (N, H) :: r =>
    match net_begin S E follow g N with
    | None => None
    | Some g1 => match net_end S E follow (grun g1 H) N with None => None | Some g2 => rounds S E follow g2 r end
    end
  end.
