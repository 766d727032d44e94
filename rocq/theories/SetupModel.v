(* Set-up of the routing grid of a clip from the fixed shapes of the design and the access points of
   the pins: which edges are blocked, and what the fixed shapes cost.
   src/dr/FlexDR_init.cpp:3507-3515 initMazeCost, 3537-3670 initMazeCost_fixedObj, 3671-3794
   initMazeCost_terms, 2314-2375 initMazeCost_ap, 3835-3850 initMazeCost_connFig, 3796-3834
   initMazeCost_planarTerm; src/dr/FlexDR_maze.cpp:150-186, 583-722, 1105-1185.
   As in CostModel, every function returns the list of grid operations in the order of the code. *)
From Verif Require Import Base Stl GeomModel GridModel CostModel.

(* an object of a fixed-shape query, by its typeId:  frcBlockage and frcInstBlockage; the shape of an IO
   pin (frcTerm) and of a pin of an instance (frcInstTerm), with the net it belongs to and a number
   standing for the address of the term; a wire of a special net, telling whether the net is a power or
   ground net; a metal or cut shape of a via of a special net, with the bounding box of its cuts *)
Inductive fkind :=
| KBlk | KTerm (net t : Z) | KInstTerm (net t : Z) | KWire (pg : bool) | KVia (pg : bool) (cuts : box).
Record fobj := mkFO { fo_box : box; fo_kind : fkind }.
(* a term: whether it belongs to a macro (BLOCK, PAD, PAD_POWER or RING instance, 3777-3780), and its
   pin rectangles after placement, with layer numbers (3675-3686, 3727-3742) *)
Record term := mkTerm { te_macro : bool; te_figs : list (Z * box) }.
(* frMinimumcutConstraint (src/db/tech/frConstraint.h): width; length and distance if given; connection
   restriction: Some true FROMABOVE, Some false FROMBELOW *)
Record mcon := mkMC { mc_width : Z; mc_len : option (Z * Z); mc_above : option bool }.
(* what set-up reads: layer range and types, the region query of the fixed shapes of a layer in a box,
   the extended box of the clip, the terms by address number, minimum-cut rules and pitch by layer *)
Record senv := mkSE {
  se_bot : Z; se_top : Z; se_rout : Z -> bool; se_cutl : Z -> bool;
  se_q : Z -> box -> list fobj; se_ext : box; se_term : Z -> term;
  se_mincut : Z -> list mcon; se_pitch : Z -> Z }.
(* result.clear(); query(getExtBox(), layerNum, result) *)
Definition found (S : senv) (l : Z) : list fobj := se_q S l (se_ext S).

(* FlexDR_maze.cpp:150-169 modBlockedPlanar *)
Definition blk_planar (g : gg) (b : box) (z : Z) (set : bool) : list gop :=
  flat_map (fun p => map (fun d => if set then SetBlocked p d else ResetBlocked p d) [DE; DN; DW; DS]) (window g b z).
(* 171-186 modBlockedVia; always called with setBlock *)
Definition blk_via (g : gg) (b : box) (z : Z) : list gop :=
  flat_map (fun p => [SetBlocked p DU; SetBlocked p DD]) (window g b z).
(* FlexGridGraph.h:166-168 getMazeZIdx *)
Definition zof (g : gg) (l : Z) : Z := Z.of_nat (lower_bound (gzs g) l).

(* 583-722 modMinimumcutCostVia: a via on a wide pin, or close to it where the rule has a length, costs.
   The via is judged by the box of its cuts; the special access via of the grid point replaces the
   default via in the test but not in the window. *)
Definition mincut_applies (S : senv) (c : mcon) (b : box) (upper : bool) : bool :=
  match mc_len c with Some (len, _) => box_length b >? len | None => true end &&
  (box_width b >? mc_width c) &&
  match mc_above c with None => true | Some a => Bool.eqb a upper end.
Definition mincut_dist (S : senv) (c : mcon) (l : Z) : Z :=
  match mc_len c with Some (_, d) => d + se_pitch S l | None => 0 end.
Definition mincut_hit (S : senv) (c : mcon) (l : Z) (b tb : box) : bool :=
  let dx := box2boxDxNew b tb in let dy := box2boxDyNew b tb in
  match mc_len c with
  | None => (dx <=? 0) && (dy <=? 0)
  | Some _ => (dx >? 0) && (dy >? 0) && (dx + dy <? mincut_dist S c l)
  end.
Definition mod_mincut (S : senv) (E : cenv) (g : gg) (type : Z) (b : box) (z : Z) (upper : bool) : list gop :=
  let l := getLayerNum g z in
  match via_of E l upper with
  | None => []
  | Some v =>
    flat_map (fun c =>
      if mincut_applies S c b upper then
        let d := mincut_dist S c l in let vb := cv_cutbb v in
        flat_map (fun p =>
          let q := via_pt p upper in
          let tb := at_pt (match ce_svia E q with Some s => cv_cutbb s | None => vb end) (getPoint g p) in
          if mincut_hit S c l b tb then mk_via type q else [])
          (window g (box_set (bleft b - d - bright vb + 1) (bbottom b - d - btop vb + 1)
                             (bright b + d + (0 - bleft vb) - 1) (btop b + d + (0 - bbottom vb) - 1)) z)
      else []) (se_mincut S l)
  end.

(* 1105-1185 modAdjCutSpacingCost_fixedObj: a cut of a power or ground via that already has a power cut
   nearer than an adjacent-cuts rule's spacing: no via in the box around it.  The cut layer of the via is
   the layer the cut was found on; its lower metal layer is the one below. *)
Definition adj_rule_viol (S : senv) (l : Z) (b cuts : box) (c : ccut) : bool :=
  existsb (fun o => match fo_kind o with
                    | KVia true _ =>
                      negb (box_eq b (fo_box o)) &&
                      ((if cu_c2c c then c2c_square b (fo_box o) else box2boxDistSquareNew b (fo_box o)) <? cu_spc c * cu_spc c)
                    | _ => false end)
          (se_q S l (box_bloat cuts (cu_within c))).
Definition adj_box (E : cenv) (l : Z) (b : box) (c : ccut) : box :=
  if cu_c2c c then box_set (px (centre b) - cu_spc c) (py (centre b) - cu_spc c) (px (centre b) + cu_spc c) (py (centre b) + cu_spc c)
  else box_bloat b (cu_spc c + Z.quot (ce_width E l) 2).
Definition mod_adj (S : senv) (E : cenv) (g : gg) (l : Z) (b : box) (pg : bool) (cuts : box) : list gop :=
  if negb pg then []
  else flat_map (fun c =>
    if cu_adj c =? -1 then []
    else if adj_rule_viol S l b cuts c then map (fun p => SetBlocked p DU) (window g (adj_box E l b c) (zof g (l - 1)))
    else []) (ce_cut E l).

(* 3547-3559: the grid layer a layer's shapes are charged to; a cut layer goes with the metal below it *)
Definition slot (S : senv) (g : gg) (l : Z) : option (bool * Z) :=
  if se_rout S l then Some (true, zof g l)
  else if se_cutl S l then
    if (se_bot S <=? l - 1) && se_rout S (l - 1) then Some (false, zof g (l - 1)) else None
  else None.
(* the cost calls for a cut shape, e.g. 3572-3574 *)
Definition cut_cost (E : cenv) (g : gg) (b : box) (z : Z) (blk : bool) : list gop :=
  mod_cut E g 3 b z blk ++ mod_inter E g 3 b z true ++ mod_inter E g 3 b z false.
(* 3562-3593 first pass: obstructions *)
Definition pass1 (E : cenv) (g : gg) (r : bool) (z : Z) (o : fobj) : list gop :=
  let b := fo_box o in
  match fo_kind o with
  | KBlk =>
    if r then mod_planar E g 3 b z true ++ mod_via E g 3 b z true false true ++ mod_via E g 3 b z false false true ++
              mod_eol E g 3 b z false ++ blk_planar g b z true ++ blk_via g b z
    else cut_cost E g b z true
  | _ => []
  end.
(* 3595-3655 second pass: pins, wires and vias of special nets.  VIA_ACCESS_LAYERNUM is 2 *)
Definition pass2 (S : senv) (E : cenv) (g : gg) (l : Z) (r : bool) (z : Z) (o : fobj) : list gop :=
  let b := fo_box o in
  match fo_kind o with
  | KBlk | KTerm _ _ => []
  | KInstTerm _ _ =>
    if r then blk_planar g b z false ++
              (if z <=? Z.quot 2 2 - 1 then mod_planar E g 3 b z true ++ mod_eol E g 3 b z false else [])
    else cut_cost E g b z true
  | KWire pg =>
    mod_planar E g 3 b z false ++ mod_via E g 3 b z true true false ++ mod_via E g 3 b z false true false ++
    mod_eol E g 3 b z false ++ (if pg then blk_planar g b z true ++ blk_via g b z else [])
  | KVia pg cuts =>
    if r then mod_planar E g 3 b z false ++ mod_via E g 3 b z true false false ++ mod_via E g 3 b z false false false ++
              mod_eol E g 3 b z false
    else mod_adj S E g l b pg cuts ++ cut_cost E g b z false
  end.
(* 3598-3602 frNet2Terms: every term met, once, with its net.  The code keeps sets ordered by address;
   here the terms are in the order in which they are first met. *)
Definition term_key (o : fobj) : list (Z * Z) :=
  match fo_kind o with KTerm n t | KInstTerm n t => [(n, t)] | _ => [] end.
Definition key_dec (a b : Z * Z) : {a = b} + {a <> b}.
Proof. decide equality; apply Z.eq_dec. Defined.
Definition terms_met (S : senv) (g : gg) : list (Z * Z) :=
  nodup key_dec (flat_map (fun l => match slot S g l with
                                    | Some _ => flat_map term_key (found S l) | None => [] end)
                          (zrange (se_bot S) (se_top S))).
Definition terms_of (S : senv) (g : gg) (n : Z) : list term :=
  map (fun k => se_term S (snd k)) (filter (fun k => fst k =? n) (terms_met S g)).
(* 3671-3794 initMazeCost_terms of one term: its rectangles on routing layers *)
Definition term_ops (S : senv) (E : cenv) (g : gg) (add skipvia : bool) (t : term) : list gop :=
  let type := if add then 3 else 2 in
  flat_map (fun lb =>
    if se_rout S (fst lb) then
      let z := zof g (fst lb) in let b := snd lb in
      mod_planar E g type b z false ++
      (if skipvia then [] else mod_via E g type b z true false false ++ mod_via E g type b z false false false) ++
      mod_eol E g type b z false ++
      (if te_macro t then mod_mincut S E g type b z true ++ mod_mincut S E g type b z false else [])
    else []) (te_figs t).
(* no grid point has a special via yet *)
Definition no_svia (E : cenv) : cenv :=
  mkCE (ce_width E) (ce_horz E) (ce_spc E) (ce_min E) (ce_via E) (fun _ => None) (ce_eol E) (ce_minarea E) (ce_manu E)
       (ce_cut E) (ce_inter E) (ce_forb E) (ce_obsmin E).
(* 3537-3670 initMazeCost_fixedObj; runs before initMazeCost_ap, so there are no special vias yet *)
Definition fixed_ops (S : senv) (E : cenv) (g : gg) : list gop :=
  let E := no_svia E in
  flat_map (fun l => match slot S g l with
                     | Some (r, z) => flat_map (pass1 E g r z) (found S l) ++ flat_map (pass2 S E g l r z) (found S l)
                     | None => [] end)
           (zrange (se_bot S) (se_top S)) ++
  flat_map (fun k => term_ops S E g true false (se_term S (snd k))) (terms_met S g).

(* drAccessPattern (src/db/drObj/drAccessPattern.h): its grid point, the directions in which the pin may
   be left, and the via to be used upwards *)
Record apat := mkAP { a_mi : midx; a_ok : dir -> bool; a_via : option cvia }.
(* 2314-2375 initMazeCost_ap; [aps]: the access patterns of all pins of all nets, in order *)
Definition ap_ops (aps : list apat) : list gop :=
  flat_map (fun a =>
    map (fun d => if a_ok a d then ResetBlocked (a_mi a) d else SetBlocked (a_mi a) d) [DE; DW; DN; DS; DU; DD] ++
    (match a_via a with Some _ => [SetSVia (a_mi a)] | None => [] end)) aps.
(* apSVia[mi] = ap *)
Definition svia_of (aps : list apat) (q : midx) : option cvia :=
  fold_left (fun m a => match a_via a with
                        | Some v => if (mx q =? mx (a_mi a)) && (my q =? my (a_mi a)) && (mz q =? mz (a_mi a)) then Some v else m
                        | None => m end) aps None.
Definition with_svia (E : cenv) (aps : list apat) : cenv :=
  mkCE (ce_width E) (ce_horz E) (ce_spc E) (ce_min E) (ce_via E) (svia_of aps) (ce_eol E) (ce_minarea E) (ce_manu E)
       (ce_cut E) (ce_inter E) (ce_forb E) (ce_obsmin E).
(* 3796-3834 initMazeCost_planarTerm *)
Definition io_ops (g : gg) (z : Z) (o : fobj) : list gop :=
  match fo_kind o with
  | KTerm _ _ =>
    let b := fo_box o in
    flat_map (fun p => [SetBlocked p DU; SetBlocked p DD] ++
      (if bright b - bleft b >? btop b - bbottom b then [SetBlocked p DN; SetBlocked p DS] else [SetBlocked p DW; SetBlocked p DE]))
      (window g b z)
  | _ => []
  end.
Definition planar_term_ops (S : senv) (g : gg) : list gop :=
  flat_map (fun l => if se_rout S l then flat_map (io_ops g (zof g l)) (found S l) else []) (zrange (se_bot S) (se_top S)).
(* 3507-3515 initMazeCost; [figs]: the wires and vias of all nets, outside and inside the clip (3835-3850) *)
Definition setup_ops (S : senv) (E : cenv) (g : gg) (aps : list apat) (figs : list cfig) : list gop :=
  fixed_ops S E g ++ ap_ops aps ++ flat_map (mod_path (with_svia E aps) g 1) figs ++ planar_term_ops S g.
Definition setup (S : senv) (E : cenv) (g : gg) (aps : list apat) (figs : list cfig) : gg :=
  grun g (setup_ops S E g aps figs).
