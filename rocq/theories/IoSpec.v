(* What the wiring of a net in DEF means (LEF/DEF 5.8 language reference, regular wiring): a path names a
   layer, then gives points; consecutive points are joined by a wire that reaches beyond each of them by half
   the width of the layer, or by the value given with the point; a via name places the via at the last point
   and moves to its other layer; RECT adds a rectangle relative to the last point; VIRTUAL moves without a
   wire.  Points of the plane are given by doubled coordinates. *)
From Verif Require Import Base GeomModel GeomSpec ClipModel ClipSpec IoModel.
From Coq Require Import String.
From Coq Require Import List.
Open Scope list_scope.

Inductive dshape :=
| DWire (l : Z) (p q : point) (ep eq : Z)     (* from p to q with the extensions at p and at q *)
| DVia (d : Z) (p : point)
| DRect (l : Z) (p : point) (x1 y1 x2 y2 : Z).

Section Def.
Variable lnum : string -> option Z.
Variable lw : Z -> Z.
Variable vdef : string -> option Z.
Variable vl1 vl2 : Z -> Z.
Variable vshapes : Z -> list (Z * box).   (* the shapes of a via: layer and box relative to its origin *)

Definition half_w (l : Z) : Z := Z.quot (lw l) 2.
(* one point of a path: [last] is the point before with its extension *)
Definition to_point (l : Z) (last : option (point * Z)) (p : point) (e : Z) : list dshape :=
  match last with Some (p0, e0) => [DWire l p0 p e0 e] | None => [] end.
Fixpoint path_from (l : Z) (last : option (point * Z)) (ts : list dtok) {struct ts} : option (list dshape) :=
  match ts with
  | [] => Some []
  | TPoint x y :: r => option_map (app (to_point l last (mkPt x y) (half_w l))) (path_from l (Some (mkPt x y, half_w l)) r)
  | TFlush x y e :: r => option_map (app (to_point l last (mkPt x y) e)) (path_from l (Some (mkPt x y, e)) r)
  | TVirtual x y :: r => path_from l (Some (mkPt x y, half_w l)) r
  | TVia s :: r =>
    match vdef s, last with
    | Some d, Some (p, e) => option_map (cons (DVia d p)) (path_from (if vl1 d =? l then vl2 d else vl1 d) last r)
    | _, _ => None
    end
  | TRect x1 y1 x2 y2 :: r =>
    match last with Some (p, e) => option_map (cons (DRect l p x1 y1 x2 y2)) (path_from l last r) | None => None end
  | _ => None
  end.
Definition path_means (ts : list dtok) : option (list dshape) :=
  match ts with
  | TLayer s :: r => match lnum s with Some l => path_from l None r | None => None end
  | _ => None
  end.
Fixpoint paths_mean (ps : list (list dtok)) {struct ps} : option (list dshape) :=
  match ps with
  | [] => Some []
  | p :: r => match path_means p, paths_mean r with Some a, Some c => Some (a ++ c) | _, _ => None end
  end.
Definition net_means (wires : list (list (list dtok))) : option (list dshape) := paths_mean (List.concat wires).

(* between the two, in either order, with the extension of each *)
Definition reaches (a c ea ec v : Z) : Prop :=
  (a <= c /\ 2 * (a - ea) <= v <= 2 * (c + ec)) \/ (c < a /\ 2 * (c - ec) <= v <= 2 * (a + ea)).
Definition via_covers (d : Z) (o : point) (l x y : Z) : Prop :=
  exists b, In (l, b) (vshapes d) /\ in_box2 b (x - 2 * px o) (y - 2 * py o).
Definition shape_covers (s : dshape) (l x y : Z) : Prop :=
  match s with
  | DWire l' p q ep eq =>
    l' = l /\
    ((px p = px q /\ 2 * (px p - half_w l) <= x <= 2 * (px p + half_w l) /\ reaches (py p) (py q) ep eq y) \/
     (py p = py q /\ 2 * (py p - half_w l) <= y <= 2 * (py p + half_w l) /\ reaches (px p) (px q) ep eq x))
  | DVia d p => via_covers d p l x y
  | DRect l' p x1 y1 x2 y2 => l' = l /\ 2 * (px p + x1) <= x <= 2 * (px p + x2) /\ 2 * (py p + y1) <= y <= 2 * (py p + y2)
  end.
(* the metal of the file *)
Definition def_metal (ss : list dshape) (l x y : Z) : Prop := exists s, In s ss /\ shape_covers s l x y.

(* the metal of figures in memory *)
Definition fig_covers (f : fig) (l x y : Z) : Prop :=
  match f with
  | FSeg w => wl w = l /\ on_metal w x y
  | FVia o _ _ d => via_covers d o l x y
  | FPatch o l' off => l' = l /\ in_box2 off (x - 2 * px o) (y - 2 * py o)
  end.
Definition net_metal (figs : list fig) (l x y : Z) : Prop := exists f, In f figs /\ fig_covers f l x y.

(* a wire of default width; its ends are extended by half of it, cut off, or extended as given *)
Definition std_end (h : Z) (s : estyle) (e : Z) : Prop :=
  match s with StExtend => e = h | StTruncate => e = 0 | StVariable => 0 <= e end.
Definition standard (w : wire) : Prop :=
  sWid (ws w) = lw (wl w) /\ std_end (half_w (wl w)) (bSty (ws w)) (bExt (ws w)) /\ std_end (half_w (wl w)) (eSty (ws w)) (eExt (ws w)).
Definition box_ok (b : box) : Prop := bleft b <= bright b /\ bbottom b <= btop b.
Definition fig_std (f : fig) : Prop := match f with FSeg w => standard w | _ => True end.
End Def.

(* a path of two points at most, without virtual points and rectangles, the via at its end; names are known,
   the wire is axis-parallel, extensions are not negative *)
Definition end_point (t : dtok) (p : point) (e : option Z) : Prop :=
  match t with
  | TPoint x y => p = mkPt x y /\ e = None
  | TFlush x y v => p = mkPt x y /\ e = Some v /\ 0 <= v
  | _ => False
  end.
Inductive plain_path (lnum vdef : string -> option Z) : list dtok -> Prop :=
| plain_path_intro s l t1 p1 e1 t2 v : lnum s = Some l -> end_point t1 p1 e1 ->
    (t2 = [] \/ exists t p e, t2 = [t] /\ end_point t p e /\ p <> p1 /\ (px p = px p1 \/ py p = py p1)) ->
    (v = [] \/ exists n d, v = [TVia n] /\ n <> ""%string /\ vdef n = Some d) ->
    plain_path lnum vdef (TLayer s :: t1 :: t2 ++ v).

(* the names written can be found again *)
Definition names_ok (lname : Z -> string) (lnum : string -> option Z) (vname : Z -> string) (vdef : string -> option Z) (vl1 : Z -> Z) (figs : list fig) : Prop :=
  forall f, In f figs -> match f with
    | FSeg w => lnum (lname (wl w)) = Some (wl w)
    | FVia _ _ _ d => lnum (lname (vl1 d)) = Some (vl1 d) /\ vname d <> ""%string /\ vdef (vname d) = Some d
    | FPatch _ l _ => lnum (lname l) = Some l
    end.

(* the figure after writing and reading: an end with a variable extension of 0 is a truncated end *)
Definition same_end (s s' : estyle) (e e' : Z) : Prop := e = e' /\ (s = s' \/ (s = StVariable /\ e = 0 /\ s' = StTruncate)).
Definition same_fig (f g : fig) : Prop :=
  match f, g with
  | FSeg w, FSeg v => wl w = wl v /\ wb w = wb v /\ we w = we v /\ sWid (ws w) = sWid (ws v) /\
      same_end (bSty (ws w)) (bSty (ws v)) (bExt (ws w)) (bExt (ws v)) /\ same_end (eSty (ws w)) (eSty (ws v)) (eExt (ws w)) (eExt (ws v))
  | FVia o l1 l2 d, FVia o' l1' l2' d' => o = o' /\ l1 = l1' /\ l2 = l2' /\ d = d'
  | FPatch o l b, FPatch o' l' b' => o = o' /\ l = l' /\ b = b'
  | _, _ => False
  end.
Definition via_layers (vl1 vl2 : Z -> Z) (f : fig) : Prop :=
  match f with FVia _ l1 l2 d => l1 = vl1 d /\ l2 = vl2 d | _ => True end.
Definition no_patch (f : fig) : bool := negb (is_patch f).

(* a grid of cuts, row by row, with lower left corner (x0, y0) *)
Definition cut_grid (rows cols : nat) (xs ys xc yc x0 y0 : Z) (cuts : list box) : Prop :=
  List.length cuts = (rows * cols)%nat /\
  forall i j, (i < rows)%nat -> (j < cols)%nat -> exists c, nth_error cuts (i * cols + j) = Some c /\
    bleft c = x0 + Z.of_nat j * (xs + xc) /\ bright c = bleft c + xs /\
    bbottom c = y0 + Z.of_nat i * (ys + yc) /\ btop c = bbottom c + ys.
(* the enclosure of a grid that spans [x0, x0 + w] x [y0, y0 + h] *)
Definition encloses (m : box) (x0 y0 w h ex ey ox oy : Z) : Prop :=
  bleft m = x0 - ex + ox /\ bright m = x0 + w + ex + ox /\ bbottom m = y0 - ey + oy /\ btop m = y0 + h + ey + oy.
(* [x0, x0 + w] is centred at c, up to half a unit *)
Definition centred (x0 w c : Z) : Prop := -1 <= 2 * x0 + w - 2 * c <= 1.
