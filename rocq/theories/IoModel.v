(* Routing of a net in DEF: what the writer prints and what the reader makes of it
   (src/io/io.cpp:534-898 getDefNets, 5010-5052 fillConnFigs_net, 5325-5338 fillConnFigs;
   src/io/defw.cpp:343-430 netf), and vias defined in DEF (src/io/io.cpp:169-411 getDefVias).
   A DEF path is the list of items that defiPath delivers; the text itself (scanner, number formatting) and
   the part of a net before its wires are not modelled.  A net is a list of wires (+ ROUTED ...), each a list
   of paths (NEW ...). *)
From Verif Require Import Base GeomModel ClipModel.
From Coq Require Import String.
From Coq Require Import List.
Open Scope list_scope.

(* DEFIPATH_LAYER, _VIA, _WIDTH, _POINT, _FLUSHPOINT, _SHAPE, _RECT, _VIRTUALPOINT and all others *)
Inductive dtok :=
| TLayer (s : string) | TVia (s : string) | TWidth (w : Z) | TPoint (x y : Z) | TFlush (x y e : Z)
| TShape (s : string) | TRect (l b r t : Z) | TVirtual (x y : Z) | TOther.

Section Io.
Variable lname : Z -> string.             (* frLayer::getName *)
Variable lnum : string -> option Z.       (* frTechObject::name2layer, getLayerNum *)
Variable lw : Z -> Z.                     (* frLayer::getWidth *)
Variable vname : Z -> string.             (* frViaDef::getName *)
Variable vdef : string -> option Z.       (* frTechObject::name2via *)
Variable vl1 vl2 : Z -> Z.                (* frViaDef::getLayer1Num, getLayer2Num *)

(* ---- writer *)
(* src/io/defw.cpp:378-395: one end of a wire *)
Definition write_end (p : point) (s : estyle) (e : Z) : dtok :=
  match s with
  | StExtend => TPoint (px p) (py p)
  | StTruncate => TFlush (px p) (py p) 0
  | StVariable => TFlush (px p) (py p) e
  end.
(* 352-425 *)
Definition write_fig (f : fig) : list dtok :=
  match f with
  | FSeg w => [TLayer (lname (wl w)); write_end (wb w) (bSty (ws w)) (bExt (ws w)); write_end (we w) (eSty (ws w)) (eExt (ws w))]
  | FVia o _ _ d => [TLayer (lname (vl1 d)); TPoint (px o) (py o); TVia (vname d)]
  | FPatch o l off => [TLayer (lname l); TPoint (px o) (py o); TRect (bleft off) (bbottom off) (bright off) (btop off)]
  end.
(* src/io/io.cpp:5030-5051: wires, then vias, then patches *)
Definition is_seg (f : fig) : bool := match f with FSeg _ => true | _ => false end.
Definition is_via (f : fig) : bool := match f with FVia _ _ _ _ => true | _ => false end.
Definition is_patch (f : fig) : bool := match f with FPatch _ _ _ => true | _ => false end.
Definition fill_conn (figs : list fig) : list fig := filter is_seg figs ++ filter is_via figs ++ filter is_patch figs.
(* defw.cpp:347-358: nothing is printed for a net without routing, else one wire *)
Definition write_net (figs : list fig) : list (list (list dtok)) :=
  match fill_conn figs with [] => [] | l => [map write_fig l] end.

(* ---- reader *)
(* src/io/io.cpp:619-636, 653-672: the variables of one path; extension -1 stands for none *)
Record pstate := mkPS {
  p_layer : string; p_via : string; p_begin : option point; p_end : option point;
  p_bext : Z; p_eext : Z; p_rect : bool; p_width : Z }.
Definition ps0 : pstate := mkPS "" "" None None (-1) (-1) false 0.
(* 698-760: a point *)
Definition ps_point (st : pstate) (p : point) (ext : option Z) : pstate :=
  match p_begin st with
  | None => mkPS (p_layer st) (p_via st) (Some p) (p_end st) (match ext with Some e => e | None => p_bext st end) (p_eext st) (p_rect st) (p_width st)
  | Some _ => mkPS (p_layer st) (p_via st) (p_begin st) (Some p) (p_bext st) (match ext with Some e => e | None => p_eext st end) (p_rect st) (p_width st)
  end.
(* 675-764; None: exit(1) *)
Definition ps_step (st : pstate) (t : dtok) : option pstate :=
  match t with
  | TLayer s => match lnum s with
                | None => None
                | Some _ => Some (mkPS s (p_via st) (p_begin st) (p_end st) (p_bext st) (p_eext st) (p_rect st) (p_width st))
                end
  | TVia s => Some (mkPS (p_layer st) s (p_begin st) (p_end st) (p_bext st) (p_eext st) (p_rect st) (p_width st))
  | TWidth w => Some (mkPS (p_layer st) (p_via st) (p_begin st) (p_end st) (p_bext st) (p_eext st) (p_rect st) w)
  | TPoint x y => Some (ps_point st (mkPt x y) None)
  | TFlush x y e => Some (ps_point st (mkPt x y) (Some e))
  | TShape _ => Some (mkPS (p_layer st) (p_via st) (p_begin st) (p_end st) 0 0 (p_rect st) (p_width st))
  | TRect _ _ _ _ => Some (mkPS (p_layer st) (p_via st) (p_begin st) (p_end st) (p_bext st) (p_eext st) true (p_width st))
  | TVirtual x y => Some (ps_point st (mkPt x y) None)
  | TOther => Some st
  end.
Fixpoint ps_run (st : pstate) (l : list dtok) {struct l} : option pstate :=
  match l with
  | [] => Some st
  | t :: l => match ps_step st t with None => None | Some st => ps_run st l end
  end.
(* 795-820: the style of one end from the extension *)
Definition read_style (e width : Z) : estyle * Z :=
  if e =? -1 then (StExtend, Z.quot width 2) else if e =? 0 then (StTruncate, e) else (StVariable, e).
(* 767-849: what a path adds to the net.  A layer that was not given is a null pointer (None); an unset
   coordinate is -1; an unknown via is reported and left out. *)
Definition coord (p : option point) : point := match p with Some p => p | None => mkPt (-1) (-1) end.
Definition finish_path (st : pstate) : option (list fig) :=
  match lnum (p_layer st) with
  | None => None
  | Some l =>
    if p_rect st then Some []
    else
      let wires :=
        match p_end st with
        | None => []
        | Some ep =>
          let bp := coord (p_begin st) in
          let width := if p_width st =? 0 then lw l else p_width st in
          let sw := (px bp >? px ep) || (py bp >? py ep) in
          let '(a, c, ea, ec) := if sw then (ep, bp, p_eext st, p_bext st) else (bp, ep, p_bext st, p_eext st) in
          [FSeg (mkW l a c (mkSt (fst (read_style ea width)) (snd (read_style ea width))
                                 (fst (read_style ec width)) (snd (read_style ec width)) width))]
        end in
      let vias :=
        if String.eqb (p_via st) "" then []
        else match vdef (p_via st) with
             | None => []
             | Some d => [FVia (match p_end st with Some p => p | None => coord (p_begin st) end) (vl1 d) (vl2 d) d]
             end in
      Some (wires ++ vias)
  end.
Definition read_path (l : list dtok) : option (list fig) :=
  match ps_run ps0 l with None => None | Some st => finish_path st end.
Fixpoint read_paths (ps : list (list dtok)) {struct ps} : option (list fig) :=
  match ps with
  | [] => Some []
  | p :: r => match read_path p, read_paths r with Some a, Some c => Some (a ++ c) | _, _ => None end
  end.
(* 638-852 *)
Definition read_net (ws : list (list (list dtok))) : option (list fig) := read_paths (concat ws).
End Io.

(* ---- vias defined in DEF *)
(* src/io/io.cpp:184-203: the numbers of a via made from a rule *)
Record viarule := mkVR {
  r_xs : Z; r_ys : Z;          (* CUTSIZE *)
  r_xc : Z; r_yc : Z;          (* CUTSPACING *)
  r_bx : Z; r_by : Z; r_tx : Z; r_ty : Z;     (* ENCLOSURE *)
  r_ox : Z; r_oy : Z;          (* ORIGIN *)
  r_box : Z; r_boy : Z; r_tox : Z; r_toy : Z; (* OFFSET *)
  r_rows : nat; r_cols : nat   (* ROWCOL *) }.
Definition shift (b : box) (dx dy : Z) : box := box_transform b (mkXf dx dy R0).
(* 258-275: the cuts, row by row, and currX, currY after the loops *)
Definition rule_cuts (r : viarule) : list box :=
  flat_map (fun i => map (fun j =>
      let x := Z.of_nat j * (r_xs r + r_xc r) in
      let y := Z.of_nat i * (r_ys r + r_yc r) in
      box_set x y (x + r_xs r) (y + r_ys r)) (seq 0 (r_cols r))) (seq 0 (r_rows r)).
Definition rule_w (r : viarule) : Z := (if Nat.eqb (r_rows r) 0 then 0 else Z.of_nat (r_cols r) * (r_xs r + r_xc r)) - r_xc r.
Definition rule_h (r : viarule) : Z := Z.of_nat (r_rows r) * (r_ys r + r_yc r) - r_yc r.
(* 276-313: bottom, cuts, top *)
Definition rule_via (r : viarule) : box * list box * box :=
  let cx := Z.quot (- rule_w r) 2 + r_ox r in
  let cy := Z.quot (- rule_h r) 2 + r_oy r in
  (shift (box_set (0 - r_bx r) (0 - r_by r) (rule_w r + r_bx r) (rule_h r + r_by r)) (cx + r_box r) (cy + r_boy r),
   map (fun b => shift b cx cy) (rule_cuts r),
   shift (box_set (0 - r_tx r) (0 - r_ty r) (rule_w r + r_tx r) (rule_h r + r_ty r)) (cx + r_tox r) (cy + r_toy r)).
(* 325-407: a via given by rectangles on named layers.  The outcome: skipped (unknown layer), exit(1), or
   the rectangles of the lower, cut and upper layer in the order given *)
Inductive viaout := VSkip | VExit | VOk (l : Z) (bot cut top : list box).
Fixpoint known_rects (lnum : string -> option Z) (rs : list (string * box)) {struct rs} : option (list (Z * box)) :=
  match rs with
  | [] => Some []
  | (s, b) :: r => match lnum s, known_rects lnum r with Some l, Some t => Some ((l, b) :: t) | _, _ => None end
  end.
(* set<frLayerNum> *)
Fixpoint zins (a : Z) (s : list Z) {struct s} : list Z :=
  match s with [] => [a] | c :: r => if a <? c then a :: s else if c <? a then c :: zins a r else s end.
Definition on_layer (l : Z) (rs : list (Z * box)) : list box := map snd (filter (fun x => fst x =? l) rs).
Definition rect_via (lnum : string -> option Z) (rs : list (string * box)) : viaout :=
  match known_rects lnum rs with
  | None => VSkip
  | Some rs =>
    match fold_left (fun s x => zins (fst x) s) rs [] with
    | [a; c; e] => if negb (a + 2 =? e) then VExit else VOk a (on_layer a rs) (on_layer c rs) (on_layer e rs)
    | _ => VExit
    end
  end.
