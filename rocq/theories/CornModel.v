(* Corner spacing of the design-rule checker: src/gc/FlexGC_main.cpp checkMetalCornerSpacing for one routing
   layer, the corners of src/gc/FlexGC_init.cpp, and the rule as read from the property LEF58_CORNERSPACING
   (src/io/io.cpp). *)
From Verif Require Import Base Stl GeomModel TechModel GcModel EolModel StepModel.

(* --- the rule ------------------------------------------------------------------------------ *)
(* one CORNERSPACING statement, numbers already scaled.  [q_convex]: CONVEXCORNER (else CONCAVECORNER);
   [q_eol]: EXCEPTEOL; [q_exceptnet]: EXCEPTSAMENET; [q_rows]: for every WIDTH the numbers up to the next
   keyword WIDTH, without the word SPACING.  The other options are stored and read nowhere. *)
Record cstmt := mkCS { q_id : Z; q_convex : bool; q_eol : option Z; q_exceptnet : bool; q_rows : list (list Z) }.
(* src/db/tech/frConstraint.h:1704-1855 frLef58CornerSpacingConstraint, the fields set by the reader *)
Record crule := mkCR { k_id : Z; k_convex : bool; k_eol : Z; k_exceptnet : bool;
                       k_widths : list Z; k_spcx : list Z; k_spcy : list Z; k_samexy : bool }.
(* io.cpp:3344-3361 numSpacingEntry: set when the second WIDTH is met; a later row of another size, except
   the last one, is an error.  None: the statement is given up. *)
Definition entries (rows : list (list Z)) : option Z :=
  match rows with
  | r :: (_ :: _) as rest =>
      let num := Z.min (Z.of_nat (length r)) 3 in
      if forallb (fun r' => Z.of_nat (length r') =? num) (removelast rest) then Some num else None
  | _ => Some 0
  end.
(* io.cpp:3430-3500; a row with fewer numbers than are read makes the code read outside a vector (here 0) *)
Definition lef_corner (s : cstmt) : option crule :=
  match entries (q_rows s) with
  | None => None
  | Some num =>
      Some (mkCR (q_id s) (q_convex s)
                 (match q_eol s with Some w => if q_convex s then w else -1 | None => -1 end) (q_exceptnet s)
                 (map (fun r => nth 0 r 0) (q_rows s)) (map (fun r => nth 1 r 0) (q_rows s))
                 (map (fun r => nth (if num =? 3 then 2%nat else 1%nat) r 0) (q_rows s)) (negb (num =? 3)))
  end.
(* io.cpp:3624-3627, 3497-3498 the rules of a layer *)
Definition layer_corner (stmts : list cstmt) : list crule :=
  flat_map (fun s => match lef_corner s with Some r => [r] | None => [] end) stmts.
(* frConstraint.h:1777-1788 find, findMax; reading an empty table is undefined in the code (here 0) *)
Definition k_find (r : crule) (width : Z) : Z := match find1 (k_widths r) (k_spcx r) width with Some v => v | None => 0 end.
Definition k_max (r : crule) (isHorz : bool) : Z :=
  match find1_max (if isHorz then k_spcx r else k_spcy r) with Some v => v | None => 0 end.

(* --- corners -------------------------------------------------------------------------------- *)
(* a corner is given by four consecutive edges of a contour: it lies between the second and the third; the
   corners before and after it between the first two and the last two *)
Record corner := mkK { c_pp : oedge; c_p : oedge; c_n : oedge; c_nn : oedge }.
(* FlexGC_init.cpp:582-661 the corners of one contour *)
Definition corners (c : list oedge) : list corner :=
  map (fun t => mkK (fst (fst (fst t))) (snd (fst (fst t))) (snd (fst t)) (snd t))
      (combine (combine (combine (with_prev (with_prev c)) (with_prev c)) c) (with_next c)).
Inductive ckind := Convex | Concave | Straight.
(* FlexGC_init.cpp:600-607 *)
Definition kind (p n : oedge) : ckind :=
  let o := orientation p n in if o =? 1 then Convex else if o =? -1 then Concave else Straight.
Inductive cdir := NE | NW | SW | SE | NoDir.
(* FlexGC_init.cpp:609-621 *)
Definition cdir_of (p n : oedge) : cdir :=
  match seg_dir p, seg_dir n with
  | EN, EW | EW, EN => NE
  | EW, ES | ES, EW => NW
  | ES, EE | EE, ES => SW
  | EE, EN | EN, EE => SE
  | _, _ => NoDir
  end.
Definition c_pt (k : corner) : point := o_low (c_n k).
Definition c_kind (k : corner) : ckind := kind (c_p k) (c_n k).
Definition c_dir (k : corner) : cdir := cdir_of (c_p k) (c_n k).
(* FlexGC_main.cpp:36-94 isCornerOverlap *)
Definition corner_overlap (k : corner) (b : box) : bool :=
  let x := px (c_pt k) in let y := py (c_pt k) in
  match c_dir k with
  | NE => (x =? bright b) && (y =? btop b)
  | SE => (x =? bright b) && (y =? bbottom b)
  | SW => (x =? bleft b) && (y =? bbottom b)
  | NW => (x =? bleft b) && (y =? btop b)
  | NoDir => false
  end.

(* --- the check ------------------------------------------------------------------------------- *)
(* the layer: its rules, the maximal rectangles of all nets, and the fixed metal of every net *)
Record kenv := mkKV { kv_lnum : Z; kv_rules : list crule; kv_rects : list grect; kv_fixed : Z -> list box }.
(* FlexGC_main.cpp:122-134 checkMetalCornerSpacing_getMaxSpcVal *)
Definition max_corner (V : kenv) (isHorz : bool) : Z :=
  fold_left (fun m r => Z.max m (k_max r isHorz)) (kv_rules V) 0.
(* FlexGC_main.cpp:149-185 checkMetalCornerSpacing_getQueryBox *)
Definition corner_query (V : kenv) (k : corner) : box :=
  let x := px (c_pt k) in let y := py (c_pt k) in
  let mx := max_corner V true in let my := max_corner V false in
  match c_dir k with
  | NE => mkBox (mkPt x y) (mkPt (x + mx) (y + my))
  | SE => mkBox (mkPt x (y - my)) (mkPt (x + mx) y)
  | SW => mkBox (mkPt (x - mx) (y - my)) (mkPt x y)
  | NW => mkBox (mkPt (x - mx) y) (mkPt x (y + my))
  | NoDir => mkBox (mkPt x y) (mkPt x y)
  end.
(* queryMaxRectangle: touching included *)
Definition query_max (V : kenv) (q : box) : list grect := filter (fun r => box_overlaps q (gbox r) true) (kv_rects V).
(* gtl::contains of a point, border included *)
Definition contains_pt (b : box) (p : point) : bool :=
  (bleft b <=? px p) && (px p <=? bright b) && (bbottom b <=? py p) && (py p <=? btop b).
(* FlexGC_main.cpp:796-803 positive parallel run length *)
Definition corner_prl (k : corner) (b : box) : bool :=
  (bleft b <? px (c_pt k)) && (px (c_pt k) <? bright b) || (bbottom b <? py (c_pt k)) && (py (c_pt k) <? btop b).
Definition is_convex (k : ckind) : bool := match k with Convex => true | _ => false end.
(* FlexGC_main.cpp:805-814 EXCEPTEOL *)
Definition corner_exempt (k : corner) (con : crule) : bool :=
  negb (k_eol con =? -1) && is_convex (c_kind k) &&
  (is_convex (kind (c_n k) (c_nn k)) && (seg_length (c_n k) <? k_eol con) ||
   is_convex (kind (c_pp k) (c_p k)) && (seg_length (c_p k) <? k_eol con)).
(* FlexGC_main.cpp:848-863, 865-881 metal of [r] near the marker that is not fixed *)
Definition near_routed (V : kenv) (m : box) (r : grect) : bool :=
  let w := box_and (my_bloat m (rwidth r)) (gbox r) in
  Nat.ltb (area_in w (kv_fixed V (gnet r))) (length (cells w)).
(* FlexGC_main.cpp:824-952 the loop over the rectangles at the corner, with return after a marker *)
Fixpoint corner_loop (V : kenv) (k : corner) (r : grect) (con : crule) (objs : list grect) (ms : list marker) : list marker :=
  match objs with
  | [] => ms
  | a :: rest =>
      if negb (gnet a =? o_net (c_n k)) then corner_loop V k r con rest ms
      else if negb (corner_overlap k (gbox a)) then corner_loop V k r con rest ms
      else
        let m := gen_intersect (pt_box (c_pt k)) (gbox r) in
        if k_samexy con then
          if k_find con (rwidth a) <=? Z.max (deltaX m) (deltaY m) then corner_loop V k r con rest ms
          else if gfixed r && gfixed a then corner_loop V k r con rest ms
          else if negb (near_routed V m a || near_routed V m r) then corner_loop V k r con rest ms
          else add_marker ms (mkMk m (kv_lnum V) (k_id con) (o_net (c_n k)) (gnet r))
        else corner_loop V k r con rest ms
  end.
(* FlexGC_main.cpp:780-956 checkMetalCornerSpacing_main of a corner and a rectangle *)
Definition corner_rect (V : kenv) (k : corner) (r : grect) (ms : list marker) (con : crule) : list marker :=
  let wanted := if k_convex con then Convex else Concave in
  if negb (match wanted, c_kind k with Convex, Convex | Concave, Concave => true | _, _ => false end) then ms
  else if contains_pt (gbox r) (c_pt k) then ms
  else if k_convex con && corner_prl k (gbox r) then ms
  else if corner_exempt k con then ms
  else corner_loop V k r con (query_max V (pt_box (c_pt k))) ms.
(* FlexGC_main.cpp:1093-1111 one corner *)
Definition check_corner (V : kenv) (ms : list marker) (k : corner) : list marker :=
  fold_left (fun ms r => fold_left (corner_rect V k r) (kv_rules V) ms) (query_max V (corner_query V k)) ms.
(* FlexGC_main.cpp:1113-1154 all corners of the checked nets on the layer; a layer without rules is skipped *)
Definition check_corners (V : kenv) (pins : list (list (list oedge))) (ms : list marker) : list marker :=
  match kv_rules V with
  | [] => ms
  | _ => fold_left (fun ms pin => fold_left (fun ms c => fold_left (check_corner V) (corners c) ms) pin ms) pins ms
  end.
