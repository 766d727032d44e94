(* Technology tables: frLookupTbl.h and the forbidden-length tables of frTechObject.h. *)
From Verif Require Import Base Stl.

(* src/db/tech/frLookupTbl.h:97-127 fr1DLookupTbl::getRowIdx *)
Definition row_idx1 (rows : list Z) (v : Z) : nat :=
  if (hd 0 rows <=? v) && (v <=? last rows 0) then
    let pos := lower_bound rows v in if Nat.eqb pos 0 then O else (pos - 1)%nat
  else if v <? hd 0 rows then O else (length rows - 1)%nat.
(* frLookupTbl.h:81-86 find; None = read outside [vals] *)
Definition find1 (rows vals : list Z) (v : Z) : option Z := nth_error vals (row_idx1 rows v).
(* frLookupTbl.h:87-92 findMin, findMax; None = front()/back() of an empty vector *)
Definition find1_min (vals : list Z) : option Z := hd_error vals.
Definition find1_max (vals : list Z) : option Z := nth_error vals (length vals - 1).

(* frLookupTbl.h:231-240 fr2DLookupTbl::getRowIdx/getColIdx: `--lower_bound` followed by
   max(0, distance).  On a vector the decrement of begin() is undefined by the standard and yields
   distance -1 in practice, so the index is the truncated predecessor. *)
Definition idx2 (hdr : list Z) (v : Z) : nat := (lower_bound hdr v - 1)%nat.
(* the query decrements begin(): undefined behaviour by the standard *)
Definition idx2_ub (hdr : list Z) (v : Z) : bool := Nat.eqb (lower_bound hdr v) 0.
(* frLookupTbl.h:195-202 find *)
Definition find2 (rows cols : list Z) (vals : list (list Z)) (r c : Z) : option Z :=
  match nth_error vals (idx2 rows r) with
  | Some row => nth_error row (idx2 cols c)
  | None => None
  end.
(* frLookupTbl.h:203-208 *)
Definition find2_min (vals : list (list Z)) : option Z :=
  match hd_error vals with Some row => hd_error row | None => None end.
Definition find2_max (vals : list (list Z)) : option Z :=
  match nth_error vals (length vals - 1) with
  | Some row => nth_error row (length row - 1) | None => None end.

(* src/db/tech/frTechObject.h:254-264 / 266-280 getTableEntryIdx *)
Definition entry_idx2 (b1 b2 : bool) : Z :=
  let r := if b1 then 1 else 0 in let r := Z.shiftl r 1 in if b2 then r + 1 else r.
Definition entry_idx3 (b1 b2 b3 : bool) : Z :=
  let r := if b1 then 1 else 0 in let r := Z.shiftl r 1 in
  let r := if b2 then r + 1 else r in let r := Z.shiftl r 1 in if b3 then r + 1 else r.
(* frTechObject.h:282-291 isIncluded *)
Fixpoint is_included (ivs : list (Z * Z)) (len : Z) : bool :=
  match ivs with
  | [] => false
  | (a, b) :: r => if (a <=? len) && (b >=? len) then true else is_included r len
  end.
(* vector of vectors of interval lists, indexed [layer][slot]; None = out of range *)
Definition tbl := list (list (list (Z * Z))).
Definition tbl_get (t : tbl) (layer slot : Z) : option (list (Z * Z)) :=
  match nth_error t (Z.to_nat layer) with
  | Some row => nth_error row (Z.to_nat slot) | None => None end.
(* frTechObject.h:137-144 *)
Definition via2via_forbidden (over nonover : tbl) (layer : Z) (prev_down curr_down dir_x : bool)
  (len : Z) (is_overlap : bool) : option bool :=
  let slot := entry_idx3 (negb prev_down) (negb curr_down) (negb dir_x) in
  match tbl_get (if is_overlap then over else nonover) layer slot with
  | Some ivs => Some (is_included ivs len) | None => None end.
(* frTechObject.h:146-149; 151-154 has the same shape with is_down replaced by is_z_shape *)
Definition via_turn_forbidden (t : tbl) (layer : Z) (is_down dir_x : bool) (len : Z) : option bool :=
  match tbl_get t layer (entry_idx2 (negb is_down) (negb dir_x)) with
  | Some ivs => Some (is_included ivs len) | None => None end.
