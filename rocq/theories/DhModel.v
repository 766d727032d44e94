(* The head of a DEF file: units, die area and tracks, as they reach the design.
   src/io/io.cpp (callbacks), module/def/5.8-p029/def (the parser's objects), src/db/obj/frBlock.h,
   src/db/obj/frBoundary.h.  Coordinates are unbounded. *)
From Coq Require Import QArith.
From Verif Require Import Base Stl GeomModel GraphModel.
Local Open Scope Z_scope.

(* the statements; layers by name number, NUMBERs rounded by the parser except STEP (def.y:1321, 1571-1577) *)
Inductive hstmt :=
| HUnits (n : Z)
| HDie (pts : list point)
| HTracks (isx : bool) (start num : Z) (step : Q) (layers : list Z).

(* module/def/5.8-p029/def/defiSite.cpp:215-245 defiBox::addPoint: xl, yl from the point of index 0, xh, yh
   from that of index 1; fields of an earlier statement stay where there is no point *)
Record dbox := mkDB { d_xl : Z; d_yl : Z; d_xh : Z; d_yh : Z }.
Fixpoint add_points (i : nat) (pts : list point) (d : dbox) : dbox :=
  match pts with
  | [] => d
  | p :: r =>
      add_points (S i) r
        (match i with
         | 0%nat => mkDB (px p) (py p) (d_xh d) (d_yh d)
         | 1%nat => mkDB (d_xl d) (d_yl d) (px p) (py p)
         | _ => d
         end)
  end.

(* what the callbacks write: the units, the boundaries (lists of points), the track patterns by layer
   number, and the parser's box, which lives as long as the parser *)
Record hdr := mkH { h_units : Z; h_bounds : list (list point); h_tracks : list (list tpat); h_box : dbox }.

(* io.cpp:510-532 getDefDieArea *)
Definition die_points (d : dbox) : list point :=
  [mkPt (d_xl d) (d_yl d); mkPt (d_xh d) (d_yl d); mkPt (d_xh d) (d_yh d); mkPt (d_xl d) (d_yh d)].
(* vector::at(l).push_back(tp); None: out of range *)
Fixpoint push_at (l : nat) (tp : tpat) (v : list (list tpat)) : option (list (list tpat)) :=
  match l, v with
  | _, [] => None
  | O, x :: r => Some ((x ++ [tp]) :: r)
  | S l', x :: r => option_map (cons x) (push_at l' tp r)
  end.
(* static conversion of a double to frUInt4: truncation; negative numbers have no defined result *)
Definition to_uint (q : Q) : option Z := let z := Z.quot (Qnum q) (Zpos (Qden q)) in if Qnum q <? 0 then None else Some z.

Section Tech.
(* tech->name2layer with the layer's number *)
Variable name2layer : Z -> option Z.

(* io.cpp:1020-1056 getDefTracks.  None: exit(2) for an unknown layer; no layer: layer(0) is a null pointer
   made a string; a count or step below zero *)
Definition tracks_cbk (isx : bool) (start num : Z) (step : Q) (layers : list Z) (h : hdr) : option hdr :=
  match layers with
  | [] => None
  | n :: _ =>
      match name2layer n with
      | None => None
      | Some l =>
          match to_uint step with
          | None => None
          | Some s =>
              if (num <? 0) || (l <? 0) then None
              else option_map (fun t => mkH (h_units h) (h_bounds h) t (h_box h)) (push_at (Z.to_nat l) (mkTP l isx start num s) (h_tracks h))
          end
      end
  end.
(* io.cpp:1058-1067 getDefUnits (def.y:501-507; only 100, 200, 400, 800, 1000, 2000, 4000, 8000, 10000 and
   20000 pass defValidNum, not modelled), io.cpp:510-532 getDefDieArea, 1020-1056 getDefTracks *)
Definition hstep (s : hstmt) (h : hdr) : option hdr :=
  match s with
  | HUnits n => Some (mkH n (h_bounds h) (h_tracks h) (h_box h))
  | HDie pts => let d := add_points 0 pts (h_box h) in Some (mkH (h_units h) [die_points d] (h_tracks h) d)
  | HTracks isx start num step layers => tracks_cbk isx start num step layers h
  end.
Fixpoint hsteps (ss : list hstmt) (h : hdr) : option hdr :=
  match ss with [] => Some h | s :: r => match hstep s h with Some h' => hsteps r h' | None => None end end.
End Tech.
(* io.cpp:479-493 getDefString at DESIGN: an empty block with one list of tracks per layer *)
Definition hdr0 (nlayers : nat) : hdr := mkH 0 [] (repeat [] nlayers) (mkDB 0 0 0 0).
Definition read_header (name2layer : Z -> option Z) (nlayers : nat) (ss : list hstmt) : option hdr := hsteps name2layer ss (hdr0 nlayers).

(* src/db/obj/frBoundary.h:57-75 getBBox *)
Definition bound_bbox (pts : list point) : box :=
  let '(a, b, c, d) := match pts with [] => (0, 0, 0, 0) | p :: _ => (px p, py p, px p, py p) end in
  let '(a, b, c, d) := fold_left (fun '(a, b, c, d) p => (if a <? px p then a else px p, if b <? py p then b else py p,
                                                           if c >? px p then c else px p, if d >? py p then d else py p)) pts (a, b, c, d) in
  box_set a b c d.
(* src/db/obj/frBlock.h:92-108 getBoundaryBBox; [b0] what the box was before *)
Definition boundary_bbox (b0 : box) (bounds : list (list point)) : box :=
  let b := match bounds with [] => b0 | x :: _ => bound_bbox x end in
  let '(a, b, c, d) := fold_left (fun '(a, b, c, d) x => let t := bound_bbox x in
      (if a <? bleft t then a else bleft t, if b <? bbottom t then b else bbottom t,
       if c >? bright t then c else bright t, if d >? btop t then d else btop t)) bounds (bleft b, bbottom b, bright b, btop b) in
  box_set a b c d.
Definition die_box (h : hdr) : box := boundary_bbox (mkBox (mkPt 0 0) (mkPt 0 0)) (h_bounds h).
(* frBlock.h:140-148 getTrackPatterns: all of them, by layer *)
Definition all_tracks (h : hdr) : list tpat := concat (h_tracks h).

(* io_parser_helper.cpp:897-926: the loop at the end of buildGCellPatterns over layers 0, 2, ... up to and
   with the number of layers; each turn looks at getLayers().at(layerNum) once per global cell.
   None: out_of_range.  The counts it makes are not used. *)
Fixpoint gcell_layers (fuel : nat) (l n : Z) (cells : bool) : option unit :=
  match fuel with
  | O => Some tt
  | S k => if l <=? n then (if cells && negb (l <? n) then None else gcell_layers k (l + 2) n cells) else Some tt
  end.
(* x, y: numbers of columns and rows *)
Definition gcell_check (nlayers x y : Z) : option unit := gcell_layers (Z.to_nat nlayers + 2) 0 nlayers ((0 <? x) && (0 <? y)).
