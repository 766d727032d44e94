(* Global cells of the top block: index of a point, box and centre of a cell. *)
From Verif Require Import Base GeomModel.

(* src/db/obj/frGCellPattern.h: start coordinate, spacing, count of a uniform GCELLGRID
   (spacing and count are unsigned in C++ and cast to int where used) *)
Record gpat := mkGP { gstart : Z; gspacing : Z; gcount : Z }.

(* src/db/obj/frBlock.h:225-244 getGCellIdx, one axis.  C++ int division truncates: Z.quot. *)
Definition gcell_idx1 (g : gpat) (c : Z) : Z :=
  let i0 := Z.quot (c - gstart g) (gspacing g) in
  let i1 := if i0 <? 0 then 0 else i0 in
  if i1 >=? gcount g then gcount g - 1 else i1.
(* src/db/obj/frBlock.h:225-244 getGCellIdx *)
Definition gcell_idx (xg yg : gpat) (p : point) : point :=
  mkPt (gcell_idx1 xg (px p)) (gcell_idx1 yg (py p)).

(* src/db/obj/frBlock.h:171-182 clamping of the index, one axis *)
Definition gcell_clamp (g : gpat) (i : Z) : Z :=
  let i := if i <=? 0 then 0 else i in
  if i >=? gcount g - 1 then gcount g - 1 else i.
(* src/db/obj/frBlock.h:183-198 low/high edge, one axis; [lo],[hi] are the die edges *)
Definition gcell_lo (g : gpat) (lo i : Z) : Z :=
  if i <=? 0 then lo else gspacing g * i + gstart g.
Definition gcell_hi (g : gpat) (hi i : Z) : Z :=
  if i >=? gcount g - 1 then hi else gspacing g * (i + 1) + gstart g.
(* src/db/obj/frBlock.h:164-200 getGCellBox *)
Definition gcell_box (die : box) (xg yg : gpat) (idx : point) : box :=
  let ix := gcell_clamp xg (px idx) in
  let iy := gcell_clamp yg (py idx) in
  box_set (gcell_lo xg (bleft die) ix) (gcell_lo yg (bbottom die) iy)
          (gcell_hi xg (bright die) ix) (gcell_hi yg (btop die) iy).

(* src/db/obj/frBlock.h:201-224 getGCellCenter, one axis (edge tests are == there) *)
Definition gcell_center1 (g : gpat) (lo hi i : Z) : Z :=
  let l := if i =? 0 then lo else gspacing g * i + gstart g in
  let h := if i =? gcount g - 1 then hi else gspacing g * (i + 1) + gstart g in
  Z.quot (l + h) 2.
Definition gcell_center (die : box) (xg yg : gpat) (idx : point) : point :=
  mkPt (gcell_center1 xg (bleft die) (bright die) (px idx))
       (gcell_center1 yg (bbottom die) (btop die) (py idx)).

(* src/io/io_parser_helper.cpp:803-810 offset of one guide edge modulo the grid, as written:
   a negative C++ remainder r is replaced by G - r. *)
Definition guide_offset (G edge : Z) : Z :=
  let r := Z.rem edge G in if r <? 0 then G - r else r.

(* src/io/io_parser_helper.cpp:859-872 (x) and 874-887 (y): pattern of one axis from the die edges,
   the grid pitch and the offset; None models exit(1) after "gcell cnt < 1". *)
Definition build_pattern (lo hi G off : Z) : option gpat :=
  let s0 := Z.quot lo G * G + off in
  let s := if s0 >? lo then s0 - G else s0 in
  if Z.quot (hi - off) G <? 1 then None
  else Some (mkGP s G (Z.quot (hi - s) G)).

(* src/io/io_parser_helper.cpp:739-761 / 796-820: std::map from value to number of occurrences,
   keys ascending: a sorted association list. *)
Fixpoint count_add (v : Z) (m : list (Z * Z)) : list (Z * Z) :=
  match m with
  | [] => [(v, 1)]
  | (k, c) :: m' => if v <? k then (v, 1) :: m
                    else if v =? k then (k, c + 1) :: m'
                    else (k, c) :: count_add v m'
  end.
Definition count_all (vs : list Z) : list (Z * Z) := fold_left (fun m v => count_add v m) vs [].
Definition pick_step (b kc : Z * Z) : Z * Z := if snd kc >? snd b then kc else b.
(* 762-791 / 821-848: first entry (ascending key) with the largest count; -1 when none.
   The value -1 also signals "no grid" (exit(1)): None. *)
Definition pick_mode (m : list (Z * Z)) : option Z :=
  let best := fst (fold_left pick_step m (-1, -1)) in
  if best =? -1 then None else Some best.
(* 738-792 getWidth, one axis: most frequent guide width. *)
Definition infer_pitch (widths : list Z) : option Z := pick_mode (count_all widths).
(* 794-850 getOffset, one axis. *)
Definition infer_offset (G : Z) (edges : list Z) : option Z :=
  pick_mode (count_all (map (guide_offset G) edges)).
