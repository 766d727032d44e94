(* Fixed metal: reading macros (LEF) and components, pins and blockages (DEF), and the index of fixed shapes that all
   later steps query (src/io/io.cpp callbacks, src/frRegionQuery.cpp).  The text of the files (scanner) is not
   modelled; coordinates of LEF are taken in database units (the rounding of `x * DBU` is not modelled). *)
From Verif Require Import Base GeomModel.
From Coq Require Import String.
From Coq Require Import List.
Open Scope list_scope.

(* items of a LEF port or obstruction: lefiGeomLayerE, RectE, PolygonE, LayerMinSpacingE, LayerRuleWidthE, others *)
Inductive litem := LLayer (n : string) | LRect (xl yl xh yh : Z) | LPoly (pts : list point) | LMinSpc (s : Z) | LRuleW (w : Z) | LOther.
Record lpin := mkLP { lp_name : string; lp_use : option string; lp_ports : list (list litem) }.
Record lmacro := mkLM { lm_name : string; lm_ox : Z; lm_oy : Z; lm_sx : Z; lm_sy : Z; lm_pins : list lpin; lm_obs : list (list litem) }.
(* DEF *)
Record dcomp := mkDC { dc_id : string; dc_macro : string; dc_x : Z; dc_y : Z; dc_ori : orient }.
Record dpin := mkDP { dp_use : option string; dp_port : bool; dp_x : Z; dp_y : Z; dp_ori : orient;
                      dp_rects : list (string * (Z * Z * Z * Z)); dp_polys : list (string * list point) }.
(* blockage: its layer if given, whether it has one of COMPONENT, SLOTS, FILLS, PUSHDOWN, EXCEPTPGNET, MASK, SPACING,
   DESIGNRULEWIDTH, whether it is a placement blockage *)
Record dblk := mkDB { db_layer : option string; db_attr : bool; db_place : bool; db_rects : list (Z * Z * Z * Z); db_polys : list (list point) }.

(* frPinFig of a pin or blockage *)
Inductive mfig := MRect (l : Z) (b : box) | MPoly (l : Z) (pts : list point).
(* shapes of special nets: path segment (frShape.h frPathSeg), rectangle, other *)
Inductive sshape := SSeg (l : Z) (b e : point) (w be ee : Z) | SRect (l : Z) (b : box) | SOther.
(* frVia and its frViaDef: origin; figures and layers *)
Record svia := mkSV { sv_pt : point; sv_l1 : Z; sv_l2 : Z; sv_cl : Z; sv_f1 : list box; sv_f2 : list box; sv_fc : list box }.
Record snet := mkSN { sn_shapes : list sshape; sn_vias : list svia }.

(* frBlock of a macro; frInst; the top block *)
Record rblock := mkRB { rb_name : string; rb_box : box; rb_terms : list (list (list mfig)); rb_blks : list (list mfig) }.
Record finst := mkFI { fi_ref : rblock; fi_x : Z; fi_y : Z; fi_ori : orient }.
Record fdesign := mkFD { fd_insts : list finst; fd_terms : list (list mfig); fd_snets : list snet; fd_blks : list (list mfig) }.

Section Fm.
Variable lay : string -> option Z.      (* frTechObject::name2layer, getLayerNum *)
Variable numLayers : Z.                 (* getLayers().size() *)

(* io.cpp:4232-4322 (getLefPins) and 4362-4447 (getLefObs): the items of one port or obstruction; the current layer
   is None for layerNum = -1 *)
Fixpoint read_items (its : list litem) (cur : option Z) : list mfig :=
  match its with
  | [] => []
  | LLayer n :: r => read_items r (lay n)
  | LRect xl yl xh yh :: r => (match cur with Some l => [MRect l (box_set xl yl xh yh)] | None => [] end) ++ read_items r cur
  | LPoly pts :: r => (match cur with Some l => [MPoly l pts] | None => [] end) ++ read_items r cur
  | _ :: r => read_items r cur
  end.
(* 4200-4217, 911-925: USE; anything else ends the program *)
Definition use_ok (u : option string) : bool :=
  match u with
  | None => true
  | Some s => (s =? "SIGNAL")%string || (s =? "CLOCK")%string || (s =? "POWER")%string || (s =? "GROUND")%string
  end.
(* 4101-4132 getLefMacros: the boundary has the corners (ORIGIN, SIZE) *)
Definition macro_box (m : lmacro) : box := box_set (lm_ox m) (lm_oy m) (lm_sx m) (lm_sy m).
Definition read_macro (m : lmacro) : option rblock :=
  if forallb (fun p => use_ok (lp_use p)) (lm_pins m) then
    Some (mkRB (lm_name m) (macro_box m)
               (map (fun p => map (fun its => read_items its None) (lp_ports p)) (lm_pins m))
               (map (fun its => read_items its None) (lm_obs m)))
  else None.
Fixpoint omap {A B} (f : A -> option B) (l : list A) : option (list B) :=
  match l with
  | [] => Some []
  | x :: r => match f x, omap f r with Some y, Some ys => Some (y :: ys) | _, _ => None end
  end.
(* frDesign.h addRefBlock: name2refBlock[name] = block, so the last macro of a name is found *)
Definition find_block (lib : list rblock) (n : string) : option rblock :=
  find (fun b => (rb_name b =? n)%string) (rev lib).
(* 413-480 getDefComponents; [seen]: names of the instances read before *)
Fixpoint read_comps (lib : list rblock) (seen : list string) (cs : list dcomp) : option (list finst) :=
  match cs with
  | [] => Some []
  | c :: r =>
    match find_block lib (dc_macro c) with
    | None => None
    | Some b =>
      if existsb (fun s => (s =? dc_id c)%string) seen then None
      else match read_comps lib (dc_id c :: seen) r with
           | Some l => Some (mkFI b (dc_x c) (dc_y c) (dc_ori c) :: l)
           | None => None end
    end
  end.
(* 900-1018 getDefTerminals *)
Definition read_dpin (p : dpin) : option (list mfig) :=
  if negb (use_ok (dp_use p)) || dp_port p then None
  else
    let t := mkXf (dp_x p) (dp_y p) (dp_ori p) in
    match omap (fun r => match lay (fst r) with
                         | Some l => let '(xl, yl, xh, yh) := snd r in Some (MRect l (box_transform (box_set xl yl xh yh) t))
                         | None => None end) (dp_rects p),
          omap (fun r => match lay (fst r) with
                         | Some l => Some (MPoly l (map (fun q => pt_transform q t) (snd r)))
                         | None => None end) (dp_polys p) with
    | Some a, Some b => Some (a ++ b)
    | _, _ => None
    end.
(* 72-167 getDefBlockages: None: the blockage is skipped.  A blockage with neither LAYER nor PLACEMENT is not DEF. *)
Definition read_dblk (b : dblk) : option (list mfig) :=
  match db_layer b with
  | Some n => match lay n with
              | None => None
              | Some l => if db_attr b then None else Some (map (fun '(xl, yl, xh, yh) => MRect l (box_set xl yl xh yh)) (db_rects b))
              end
  | None => None
  end.
Definition somes {A B} (f : A -> option B) (l : list A) : list B := flat_map (fun x => match f x with Some y => [y] | None => [] end) l.
(* one run of the reader; None: it ends the program *)
Definition read_design (lib : list lmacro) (cs : list dcomp) (ps : list dpin) (ss : list snet) (bs : list dblk) : option fdesign :=
  match omap read_macro lib with
  | None => None
  | Some rl => match read_comps rl [] cs, omap read_dpin ps with
               | Some il, Some tl => Some (mkFD il tl ss (somes read_dblk bs))
               | _, _ => None end
  end.

(* ---- frRegionQuery.cpp ---- *)
(* the object an entry points to *)
Inductive owner := OInstTerm (i t : nat) | OInstBlk (i b : nat) | OTerm (t : nat) | OShape (n s : nat) | OVia (n v : nat) | OBlk (b : nat).
(* 205-226, 228-245, 247-268, 270-285: a figure of a pin; anything but a path segment or a rectangle is left out *)
Definition fig_entry (t : xform) (o : owner) (f : mfig) : list (Z * box * owner) :=
  match f with MRect l b => [(l, box_transform b t, o)] | MPoly _ _ => [] end.
Definition fig_entry0 (o : owner) (f : mfig) : list (Z * box * owner) :=
  match f with MRect l b => [(l, b, o)] | MPoly _ _ => [] end.
(* frShape.h:519-537 frPathSeg::getBBox *)
Definition seg_box (b e : point) (w be ee : Z) : box :=
  if px b =? px e then box_set (px b - Z.quot w 2) (py b - be) (px e + Z.quot w 2) (py e + ee)
  else box_set (px b - be) (py b - Z.quot w 2) (px e + ee) (py e + Z.quot w 2).
(* 82-90 *)
Definition shape_entry (o : owner) (s : sshape) : list (Z * box * owner) :=
  match s with SSeg l b e w be ee => [(l, seg_box b e w be ee, o)] | SRect l b => [(l, b, o)] | SOther => [] end.
(* 142-183 *)
Definition via_entry (o : owner) (v : svia) : list (Z * box * owner) :=
  let t := mkXf (px (sv_pt v)) (py (sv_pt v)) R0 in
  map (fun b => (sv_l1 v, box_transform b t, o)) (sv_f1 v) ++ map (fun b => (sv_l2 v, box_transform b t, o)) (sv_f2 v) ++
  map (fun b => (sv_cl v, box_transform b t, o)) (sv_fc v).
Fixpoint number {A} (n : nat) (l : list A) : list (nat * A) := match l with [] => [] | x :: r => (n, x) :: number (S n) r end.
Definition each {A B} (f : nat -> A -> list B) (l : list A) : list B := flat_map (fun ix => f (fst ix) (snd ix)) (number 0 l).
(* 371-477 init: all entries, with their layers *)
Definition inst_entries (i : nat) (I : finst) : list (Z * box * owner) :=
  let t := inst_updated_xform (rb_box (fi_ref I)) (mkXf (fi_x I) (fi_y I) (fi_ori I)) false in
  each (fun j pins => flat_map (flat_map (fig_entry t (OInstTerm i j))) pins) (rb_terms (fi_ref I)) ++
  each (fun j figs => flat_map (fig_entry t (OInstBlk i j)) figs) (rb_blks (fi_ref I)).
Definition snet_entries (n : nat) (N : snet) : list (Z * box * owner) :=
  each (fun j s => shape_entry (OShape n j) s) (sn_shapes N) ++ each (fun j v => via_entry (OVia n j) v) (sn_vias N).
Definition entries (D : fdesign) : list (Z * box * owner) :=
  each inst_entries (fd_insts D) ++ each (fun j figs => flat_map (fig_entry0 (OTerm j)) figs) (fd_terms D) ++
  each snet_entries (fd_snets D) ++ each (fun j figs => flat_map (fig_entry0 (OBlk j)) figs) (fd_blks D).
(* allShapes.at(layer): a layer outside the vector is an exception *)
Definition init (D : fdesign) : option (list (Z * box * owner)) :=
  if forallb (fun e => (0 <=? fst (fst e)) && (fst (fst e) <? numLayers)) (entries D) then Some (entries D) else None.
(* 306-309 query; boost's `intersects`: the boxes share a point *)
Definition query (ix : list (Z * box * owner)) (q : box) (l : Z) : list (box * owner) :=
  map (fun e => (snd (fst e), snd e)) (filter (fun e => (fst (fst e) =? l) && box_overlaps (snd (fst e)) q true) ix).
End Fm.
