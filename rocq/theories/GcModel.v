(* The design-rule checker's metal spacing and short checks (src/gc), and the spacing rules the LEF
   reader hands to it.  One layer; its number is a parameter of the environment. *)
From Verif Require Import Base Stl GeomModel TechModel.

(* --- rules ------------------------------------------------------------------------------- *)
(* src/db/tech/frLayer.h hasMinSpacing/getMinSpacing and the three constraint classes it may hold.
   A two-width table is kept as rows of (width, run length), see [find_tw] below. *)
Inductive rule :=
| NoRule
| PrlTable (rows cols : list Z) (vals : list (list Z))
| TwTable (hdr : list (Z * Z)) (vals : list (list Z)).

(* src/io/io.cpp:3782-3796 the LEF reader turns a plain SPACING rule into a 1x1 run-length table *)
Definition rule_of_spacing (v : Z) : rule := PrlTable [0] [0] [[v]].

(* src/db/tech/frConstraint.h:1000-1007 frSpacingTableTwRowType::operator< *)
Definition tw_lt (a b : Z * Z) : bool := (fst a <? fst b) || (snd a <? snd b).
(* src/db/tech/frLookupTbl.h:229-238 lower_bound with that operator, as the standard library's
   binary search performs it on [len] elements from [first] on; fuel [len] suffices *)
Fixpoint tw_lower_bound (hdr : list (Z * Z)) (v : Z * Z) (first len fuel : nat) : nat :=
  match fuel with
  | O => first
  | S fuel' =>
      match len with
      | O => first
      | _ => let half := Nat.div2 len in
             let mid := (first + half)%nat in
             if tw_lt (nth mid hdr (0, 0)) v
             then tw_lower_bound hdr v (mid + 1) (len - half - 1) fuel'
             else tw_lower_bound hdr v first half fuel'
      end
  end.
(* frLookupTbl.h:229-238 getRowIdx/getColIdx (both headers are the same list, io.cpp:3889-3890) *)
Definition tw_idx (hdr : list (Z * Z)) (v : Z * Z) : nat :=
  (tw_lower_bound hdr v 0 (length hdr) (length hdr) - 1)%nat.
(* src/db/tech/frConstraint.h:1016-1018 frSpacingTableTwConstraint::find *)
Definition find_tw (hdr : list (Z * Z)) (vals : list (list Z)) (w1 w2 prl : Z) : option Z :=
  match nth_error vals (tw_idx hdr (w1, prl)) with
  | Some row => nth_error row (tw_idx hdr (w2, prl))
  | None => None
  end.

(* --- shapes ------------------------------------------------------------------------------ *)
(* what owns the shapes of a gcNet (src/gc/FlexGC_init.cpp getNet): nothing, a blockage, or a net or
   terminal, which may be a power/ground one *)
Inductive nkind := KFloating | KObs | KSignal (pg : bool).
(* src/db/gcObj/gcShape.h:264-330 gcRect: a maximal rectangle of a net's metal.  [gid] stands for its
   address, [gnet] for its net (0 = the net with no owner). *)
Record grect := mkGR { gid : Z; gbox : box; gnet : Z; gfixed : bool }.
(* src/db/gcObj/gcShape.h gcSegment: directed polygon edge.  Metal lies to its left. *)
Inductive edir := EE | EW | EN | ES.
Record gedge := mkGE { enet : Z; edr : edir; elow : point; ehigh : point }.
(* The checker's state for one layer: the rule, default width, minimum width, same-net rule (value,
   PG only), the option USEMINSPACING_OBS, owners of nets, per net the fixed and the routed shapes,
   and the maximal rectangles Boost computes for the fixed ones, all maximal rectangles and edges. *)
Record genv := mkEnv {
  e_lnum : Z; e_rule : rule; e_width : Z; e_minwidth : Z; e_same : option (Z * bool);
  e_minobs : bool; e_kind : Z -> nkind;
  e_fixed : Z -> list box; e_route : Z -> list box; e_fixedmax : Z -> list box;
  e_rects : list grect; e_edges : list gedge }.

(* --- geometry (boost::polygon) ----------------------------------------------------------- *)
(* euclidean_distance of two intervals: 0 when they intersect or touch, else the gap *)
Definition ivl_dist (a b c d : Z) : Z :=
  if (c <=? b) && (a <=? d) then 0 else if b <? c then c - b else a - d.
(* generalized_intersect of two intervals: the middle two of the four sorted coordinates *)
Fixpoint insert_z (x : Z) (l : list Z) : list Z :=
  match l with [] => [x] | y :: r => if x <=? y then x :: l else y :: insert_z x r end.
Definition mid_two (a b c d : Z) : Z * Z :=
  let s := insert_z a (insert_z b (insert_z c (insert_z d []))) in
  (nth 1 s 0, nth 2 s 0).
Definition gen_intersect (a b : box) : box :=
  let x := mid_two (bleft a) (bright a) (bleft b) (bright b) in
  let y := mid_two (bbottom a) (btop a) (bbottom b) (btop b) in
  mkBox (mkPt (fst x) (fst y)) (mkPt (snd x) (snd y)).
Definition deltaX (b : box) : Z := bright b - bleft b.
Definition deltaY (b : box) : Z := btop b - bbottom b.

(* src/gc/FlexGC_main.cpp:96-101 myBloat *)
Definition my_bloat (b : box) (v : Z) : box :=
  mkBox (mkPt (bleft b - v) (bbottom b - v)) (mkPt (bright b + v) (btop b + v)).
(* src/gc/FlexGC_rq.cpp queryMaxRectangle: R-tree intersects, touching included *)
Definition query_rects (E : genv) (q : box) : list grect :=
  filter (fun r => box_overlaps q (gbox r) true) (e_rects E).
(* src/gc/FlexGC_rq.cpp queryPolygonEdge *)
Definition query_edges (E : genv) (q : box) : list gedge :=
  filter (fun e => box_overlaps q (box_of_pts (elow e) (ehigh e)) true) (e_edges E).

(* area of the part of [w] covered by [shapes], counted in unit cells *)
Definition zrange (a b : Z) : list Z := map (fun k => a + Z.of_nat k) (seq 0 (Z.to_nat (b - a))).
Definition cells (b : box) : list (Z * Z) :=
  flat_map (fun x => map (fun y => (x, y)) (zrange (bbottom b) (btop b))) (zrange (bleft b) (bright b)).
Definition cell_in (c : Z * Z) (b : box) : bool :=
  (bleft b <=? fst c) && (fst c <? bright b) && (bbottom b <=? snd c) && (snd c <? btop b).
Definition area_in (w : box) (shapes : list box) : nat :=
  length (filter (fun c => existsb (cell_in c) shapes) (cells w)).
Definition box_and (a b : box) : box :=
  mkBox (mkPt (Z.max (bleft a) (bleft b)) (Z.max (bbottom a) (bbottom b)))
        (mkPt (Z.min (bright a) (bright b)) (Z.min (btop a) (btop b))).

(* --- spacing ----------------------------------------------------------------------------- *)
(* src/gc/FlexGC_main.cpp:103-120 checkMetalSpacing_getMaxSpcVal *)
Definition max_spc (E : genv) : option Z :=
  match e_rule E with
  | NoRule => Some 0
  | PrlTable rows cols vals => find2_max vals
  | TwTable _ _ => Some 0
  end.

Definition is_obs (E : genv) (n : Z) : bool := match e_kind E n with KObs => true | _ => false end.
Definition rwidth (r : grect) : Z := box_width (gbox r).

(* FlexGC_main.cpp:187-253 checkMetalSpacing_prl_getReqSpcVal; None = read outside the table or the
   owner of a net without owner *)
Definition req_spc (E : genv) (r1 r2 : grect) (prl : Z) : option Z :=
  let obs1 := is_obs E (gnet r1) in
  let obs2 := is_obs E (gnet r2) in
  let width1 := if obs1 && e_minobs E then e_width E else rwidth r1 in
  let width2 := if obs2 && e_minobs E then e_width E else rwidth r2 in
  match e_rule E with
  | PrlTable rows cols vals =>
      match find2 rows cols vals (Z.max width1 width2) prl with
      | None => None
      | Some v =>
          if negb (obs1 || obs2) && (gnet r1 =? gnet r2) then
            match e_same E with
            | None => Some v
            | Some (same, pgonly) =>
                let over := match find2_min vals with
                            | Some lo => Some (Z.max same lo) | None => None end in
                if negb pgonly then over
                else match e_kind E (gnet r1) with
                     | KFloating => None
                     | KSignal true => over
                     | _ => Some v
                     end
            end
          else Some v
      end
  | _ => Some 0
  end.

(* FlexGC_main.cpp:258-321 checkMetalSpacing_prl_hasPolyEdge *)
Record eflags := mkEF { fL : bool; fR : bool; fB : bool; fT : bool }.
Definition edge_flag (m : box) (prl : Z) (f : eflags) (e : gedge) : eflags :=
  let x := px (elow e) in
  let y := py (elow e) in
  if prl <=? 0 then
    match edr e with
    | EW => if y =? bbottom m then mkEF (fL f) (fR f) true (fT f) else f
    | EE => if y =? btop m then mkEF (fL f) (fR f) (fB f) true else f
    | EN => if x =? bleft m then mkEF true (fR f) (fB f) (fT f) else f
    | ES => if x =? bright m then mkEF (fL f) true (fB f) (fT f) else f
    end
  else
    match edr e with
    | EW => if (y >=? bbottom m) && (y <? btop m) &&
               negb ((x <=? bleft m) || (px (ehigh e) >=? bright m))
            then mkEF (fL f) (fR f) true (fT f) else f
    | EE => if (y >? bbottom m) && (y <=? btop m) &&
               negb ((px (ehigh e) <=? bleft m) || (x >=? bright m))
            then mkEF (fL f) (fR f) (fB f) true else f
    | EN => if (x >=? bleft m) && (x <? bright m) &&
               negb ((py (ehigh e) <=? bbottom m) || (y >=? btop m))
            then mkEF true (fR f) (fB f) (fT f) else f
    | ES => if (x >? bleft m) && (x <=? bright m) &&
               negb ((y <=? bbottom m) || (py (ehigh e) >=? btop m))
            then mkEF (fL f) true (fB f) (fT f) else f
    end.
Definition has_poly_edge (E : genv) (n1 n2 : Z) (m : box) (type prl : Z) : bool :=
  let es := filter (fun e => (enet e =? n1) || (enet e =? n2)) (query_edges E m) in
  let f := fold_left (edge_flag m prl) es (mkEF false false false false) in
  if ((type =? 0) || (type =? 2)) && (fB f && fT f) then true
  else ((type =? 1) || (type =? 2)) && (fL f && fR f).

(* FlexGC_main.cpp:354-371 and 372-390: the part of [r] within its width of the marker is not covered
   by fixed shapes of its net *)
Definition has_route (E : genv) (m : box) (r : grect) : bool :=
  let w := box_and (my_bloat m (rwidth r)) (gbox r) in
  Nat.ltb (area_in w (e_fixed E (gnet r))) (length (cells w)).

(* frMarker: box, layer, rule (0 spacing, 1 short, 2 non-sufficient metal), sources in insertion
   order; victims and aggressors are not kept *)
Record marker := mkMk { mbox : box; mlayer : Z; mcon : Z; msrc1 : Z; msrc2 : Z }.

(* FlexGC_main.cpp:323-455 checkMetalSpacing_prl; None = undefined behaviour *)
Definition check_prl (E : genv) (r1 r2 : grect) (m : box) (prl distX distY : Z) : option (option marker) :=
  match req_spc E r1 r2 prl with
  | None => None
  | Some req => Some (
      if gfixed r1 && gfixed r2 then None
      else if distX * distX + distY * distY >=? req * req then None
      else
        let type := if prl <=? 0 then 2 else if distX =? 0 then 0 else if distY =? 0 then 1 else 0 in
        if negb (has_poly_edge E (gnet r1) (gnet r2) m type prl) then None
        else if negb (has_route E m r1 || has_route E m r2) then None
        else Some (mkMk m (e_lnum E) 0 (gnet r1) (gnet r2)))
  end.

(* --- shorts ------------------------------------------------------------------------------ *)
(* FlexGC_main.cpp:457-493 checkMetalSpacing_short_skipOBSPin *)
Definition skip_obs_pin (E : genv) (r1 r2 : grect) (m : box) : bool :=
  let o1 := is_obs E (gnet r1) in
  let o2 := is_obs E (gnet r2) in
  if negb o1 && negb o2 then false
  else if o1 && o2 then false
  else let r := if o1 then r2 else r1 in
       existsb (fun b => box_contains_box b m true) (e_fixedmax E (gnet r)).

(* FlexGC_main.cpp:510-527: the marker, widened by one unit where it is degenerate, meets routed metal *)
Definition widen1 (m : box) : box :=
  let dx := if deltaX m =? 0 then 1 else 0 in
  let dy := if deltaY m =? 0 then 1 else 0 in
  mkBox (mkPt (bleft m - dx) (bbottom m - dy)) (mkPt (bright m + dx) (btop m + dy)).
Definition meets_route (E : genv) (m : box) (n : Z) : bool :=
  existsb (fun b => box_overlaps b (widen1 m) false) (e_route E n).

(* FlexGC_main.cpp:529-577 the same-net exemptions: enough common metal, a rectangle below the
   minimum width, or a third rectangle that bridges the two *)
Definition diag2 (b : box) : Z := deltaX b * deltaX b + deltaY b * deltaY b.
Definition bridged (E : genv) (r1 r2 : grect) (m : box) : bool :=
  let w := e_minwidth E in
  let c := mkPt (Z.quot (bleft m + bright m) 2) (Z.quot (bbottom m + btop m) 2) in
  existsb (fun o =>
      negb (gid o =? gid r1) && negb (gid o =? gid r2) && (gnet o =? gnet r1) &&
      box_contains_box (gbox o) m true &&
      negb ((deltaX (gbox o) <? w) || (deltaY (gbox o) <? w)) &&
      box_overlaps (gbox r1) (gbox o) true && box_overlaps (gbox r2) (gbox o) true &&
      (diag2 (box_and (gbox r1) (gbox o)) >=? w * w) &&
      (diag2 (box_and (gbox r2) (gbox o)) >=? w * w))
    (query_rects E (my_bloat (mkBox c c) w)).
Definition enough_metal (E : genv) (r1 r2 : grect) (m : box) : bool :=
  let w := e_minwidth E in
  (diag2 m >=? w * w) ||
  ((deltaX (gbox r1) <? w) || (deltaY (gbox r1) <? w) ||
   (deltaX (gbox r2) <? w) || (deltaY (gbox r2) <? w)) ||
  bridged E r1 r2 m.

(* FlexGC_main.cpp:495-600 checkMetalSpacing_short *)
Definition check_short (E : genv) (r1 r2 : grect) (m : box) : option marker :=
  if gfixed r1 && gfixed r2 then None
  else if skip_obs_pin E r1 r2 m then None
  else if negb (meets_route E m (gnet r1)) && negb (meets_route E m (gnet r2)) then None
  else if (gnet r1 =? gnet r2) && enough_metal E r1 r2 m then None
  else Some (mkMk m (e_lnum E) (if gnet r1 =? gnet r2 then 2 else 1) (gnet r1) (gnet r2)).

(* --- driver ------------------------------------------------------------------------------ *)
(* FlexGC_main.cpp:656-686 checkMetalSpacing_main of two rectangles: distances, marker and the
   parallel run length *)
Record pgeom := mkPG { g_marker : box; g_dx : Z; g_dy : Z; g_prl : Z }.
Definition pair_geom (a b : box) : pgeom :=
  let dx := ivl_dist (bleft a) (bright a) (bleft b) (bright b) in
  let dy := ivl_dist (bbottom a) (btop a) (bbottom b) (btop b) in
  let m := gen_intersect a b in
  let prlX := if negb (dx =? 0) then - deltaX m else deltaX m in
  let prlY := if negb (dy =? 0) then - deltaY m else deltaY m in
  mkPG m dx dy (Z.max prlX prlY).
Definition check_pair (E : genv) (r1 r2 : grect) : option (option marker) :=
  if gid r1 =? gid r2 then Some None
  else
    let g := pair_geom (gbox r1) (gbox r2) in
    if (g_dx g =? 0) && (g_dy g =? 0) then Some (check_short E r1 r2 (g_marker g))
    else check_prl E r1 r2 (g_marker g) (g_prl g) (g_dx g) (g_dy g).

(* src/gc/FlexGC.cpp:50-70 addMarker.  The sources are a std::set of owners; the order of two
   addresses is modelled by the order of the ids, the null pointer by 0. *)
Definition src_key (m : marker) : Z * Z :=
  if msrc1 m =? msrc2 m then (msrc1 m, 0)
  else (Z.min (msrc1 m) (msrc2 m), Z.max (msrc1 m) (msrc2 m)).
Definition same_key (k : Z * Z) (m m' : marker) : bool :=
  box_eq (mbox m) (mbox m') && (mlayer m =? mlayer m') && (mcon m =? mcon m') &&
  (fst (src_key m) =? fst k) && (snd (src_key m) =? snd k).
Definition add_marker (ms : list marker) (m : marker) : list marker :=
  let k := src_key m in
  if existsb (fun m' => same_key k m' m) ms then ms
  else if existsb (fun m' => same_key (snd k, fst k) m' m) ms then ms
  else ms ++ [m].

(* FlexGC_main.cpp:691-741 checkMetalSpacing_main of one rectangle *)
Fixpoint check_against (E : genv) (r : grect) (others : list grect) (ms : list marker)
  {struct others} : option (list marker) :=
  match others with
  | [] => Some ms
  | o :: rest =>
      match check_pair E r o with
      | None => None
      | Some None => check_against E r rest ms
      | Some (Some m) => check_against E r rest (add_marker ms m)
      end
  end.
Definition check_rect (E : genv) (r : grect) (ms : list marker) : option (list marker) :=
  match max_spc E with
  | None => None
  | Some d => check_against E r (query_rects E (my_bloat (gbox r) d)) ms
  end.
(* FlexGC_main.cpp:743-776 checkMetalSpacing, one layer: [rs] are the maximal rectangles of the target
   net, or of all nets *)
Fixpoint check_spacing (E : genv) (rs : list grect) (ms : list marker) {struct rs}
  : option (list marker) :=
  match rs with
  | [] => Some ms
  | r :: rest => match check_rect E r ms with
                 | None => None
                 | Some ms' => check_spacing E rest ms'
                 end
  end.
