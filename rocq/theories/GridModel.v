(* FlexGridGraph: packed attributes of the routing grid (src/dr/FlexGridGraph.h).
   Arrays are total functions on Z; every use is guarded by the caller or by the validity
   hypotheses of the theorems.  Index arithmetic is unbounded (no 32-bit overflow). *)
From Verif Require Import Base Stl GeomModel.

(* src/frBaseTypes.h frDirEnum {UNKNOWN=0, D=1, S=2, W=3, E=4, N=5, U=6} *)
Inductive dir := DUnk | DD | DS | DW | DE | DN | DU.
Definition dir_code (d : dir) : Z :=
  match d with DUnk => 0 | DD => 1 | DS => 2 | DW => 3 | DE => 4 | DN => 5 | DU => 6 end.
Definition dir_of_code (c : Z) : dir :=
  if c =? 1 then DD else if c =? 2 then DS else if c =? 3 then DW
  else if c =? 4 then DE else if c =? 5 then DN else if c =? 6 then DU else DUnk.
Definition dir_eqb (a b : dir) : bool := dir_code a =? dir_code b.

(* FlexGridGraph.h:794-806 members *)
Record gg := mkGG {
  gxs : list Z; gys : list Z; gzs : list Z;   (* xCoords, yCoords, zCoords *)
  gdirs : list bool;                          (* zDirs: layer is horizontal *)
  gbits : Z -> Z;                             (* bits *)
  gprev : Z -> bool; gsrc : Z -> bool; gdst : Z -> bool; gguide : Z -> bool }.

Definition nx g := Z.of_nat (length (gxs g)).
Definition ny g := Z.of_nat (length (gys g)).
Definition nz g := Z.of_nat (length (gzs g)).
(* FlexGridGraph.h:190-192 *)
Definition zdir g (z : Z) : bool := nth (Z.to_nat z) (gdirs g) false.

(* array update *)
Definition upd {A} (f : Z -> A) (i : Z) (v : A) : Z -> A := fun j => if j =? i then v else f j.
Definition with_bits g b := mkGG (gxs g) (gys g) (gzs g) (gdirs g) b (gprev g) (gsrc g) (gdst g) (gguide g).
Definition with_prev g b := mkGG (gxs g) (gys g) (gzs g) (gdirs g) (gbits g) b (gsrc g) (gdst g) (gguide g).
Definition with_src g b := mkGG (gxs g) (gys g) (gzs g) (gdirs g) (gbits g) (gprev g) b (gdst g) (gguide g).
Definition with_dst g b := mkGG (gxs g) (gys g) (gzs g) (gdirs g) (gbits g) (gprev g) (gsrc g) b (gguide g).
Definition with_guide g b := mkGG (gxs g) (gys g) (gzs g) (gdirs g) (gbits g) (gprev g) (gsrc g) (gdst g) b.

(* FlexGridGraph.h:825-828 getIdx *)
Definition getIdx g (p : midx) : Z :=
  if zdir g (mz p) then mx p + my p * nx g + mz p * nx g * ny g
  else my p + mx p * ny g + mz p * nx g * ny g.
(* FlexGridGraph.h:818-820 getBit *)
Definition getBit_w (w pos : Z) : bool := Z.odd (Z.shiftr w pos).
(* 821-824 getBits *)
Definition getBits_w (w pos len : Z) : Z := Z.shiftr (Z.land w (Z.shiftl (Z.shiftl 1 len - 1) pos)) pos.
(* 830-835 setBit, resetBit (only used with pos < 31, where the int constant 1<<pos is positive) *)
Definition setBit_w (w pos : Z) : Z := Z.lor w (Z.shiftl 1 pos).
Definition resetBit_w (w pos : Z) : Z := Z.land w (Z.lnot (Z.shiftl 1 pos)).
(* 846-850 setBits *)
Definition setBits_w (w pos len v : Z) : Z :=
  Z.lor (Z.land w (Z.lnot (Z.shiftl (Z.shiftl 1 len - 1) pos)))
        (Z.shiftl (Z.land v (Z.shiftl 1 len - 1)) pos).
(* 836-840 addToBits: clamps at 1<<len, then setBits keeps the low len bits *)
Definition addToBits_w (w pos len v : Z) : Z :=
  let tmp := getBits_w w pos len + v in
  let tmp := if tmp >? Z.shiftl 1 len then Z.shiftl 1 len else tmp in
  setBits_w w pos len tmp.
(* 841-845 subToBits *)
Definition subToBits_w (w pos len v : Z) : Z :=
  let tmp := getBits_w w pos len - v in
  let tmp := if tmp <? 0 then 0 else tmp in
  setBits_w w pos len tmp.

(* 853-871 correct *)
Definition correct (p : midx) (d : dir) : midx * dir :=
  match d with
  | DW => (mkMI (mx p - 1) (my p) (mz p), DE)
  | DS => (mkMI (mx p) (my p - 1) (mz p), DN)
  | DD => (mkMI (mx p) (my p) (mz p - 1), DU)
  | _ => (p, d)
  end.
(* 872-882 correctU *)
Definition correctU (p : midx) (d : dir) : midx * dir :=
  match d with DD => (mkMI (mx p) (my p) (mz p - 1), DU) | _ => (p, d) end.
(* 883-913 reverse *)
Definition reverse (p : midx) (d : dir) : midx * dir :=
  match d with
  | DE => (mkMI (mx p + 1) (my p) (mz p), DW)
  | DS => (mkMI (mx p) (my p - 1) (mz p), DN)
  | DW => (mkMI (mx p - 1) (my p) (mz p), DE)
  | DN => (mkMI (mx p) (my p + 1) (mz p), DS)
  | DU => (mkMI (mx p) (my p) (mz p + 1), DD)
  | DD => (mkMI (mx p) (my p) (mz p - 1), DU)
  | DUnk => (p, d)
  end.
(* 916-923 isValid *)
Definition isValid g (p : midx) : bool :=
  negb ((mx p <? 0) || (my p <? 0) || (mz p <? 0) ||
        (mx p >=? nx g) || (my p >=? ny g) || (mz p >=? nz g)).
(* 924-928 isValid with direction *)
Definition isValidD g p d : bool := isValid g p && isValid g (fst (reverse p d)).

(* 145-148 getPoint *)
Definition getPoint g (p : midx) : point :=
  mkPt (nth (Z.to_nat (mx p)) (gxs g) 0) (nth (Z.to_nat (my p)) (gys g) 0).
(* 162-177 getMazeXIdx, getMazeYIdx, getMazeZIdx, getMazeIdx *)
Definition getMazeIdx g (p : point) (layer : Z) : midx :=
  mkMI (Z.of_nat (lower_bound (gxs g) (px p))) (Z.of_nat (lower_bound (gys g) (py p)))
       (Z.of_nat (lower_bound (gzs g) layer)).
(* 149-152 getLayerNum *)
Definition getLayerNum g (z : Z) : Z := nth (Z.to_nat z) (gzs g) 0.
(* 152-161 hasMazeXIdx/YIdx/ZIdx, hasMazeIdx: std::binary_search, i.e. the lower_bound position
   holds the value *)
Definition bin_search (l : list Z) (v : Z) : bool :=
  match nth_error l (lower_bound l v) with Some a => a =? v | None => false end.
Definition hasMazeIdx g (p : point) (layer : Z) : bool :=
  bin_search (gxs g) (px p) && bin_search (gys g) (py p) && bin_search (gzs g) layer.
(* 179-186 getIdxBox (x and y parts) *)
Definition getIdxBox g (b : box) : Z * Z * Z * Z :=
  (Z.of_nat (lower_bound (gxs g) (bleft b)), Z.of_nat (lower_bound (gys g) (bbottom b)),
   Z.of_nat (upper_bound (gxs g) (bright b)) - 1, Z.of_nat (upper_bound (gys g) (btop b)) - 1).

(* bit positions of the direction switch in hasEdge/isBlocked/hasGridCost/setGridCost *)
Definition pos_by_dir (pe pn pu : Z) (d : dir) : option Z :=
  match d with DE => Some pe | DN => Some pn | DU => Some pu | _ => None end.
(* 193-210 hasEdge *)
Definition hasEdge g p d : bool :=
  let '(p, d) := correct p d in
  if isValid g p then
    match pos_by_dir 0 1 2 d with Some k => getBit_w (gbits g (getIdx g p)) k | None => false end
  else false.
(* 93-110 isBlocked *)
Definition isBlocked g p d : bool :=
  let '(p, d) := correct p d in
  if isValid g p then
    match pos_by_dir 3 4 5 d with Some k => getBit_w (gbits g (getIdx g p)) k | None => false end
  else false.
(* 211-225 hasGridCost: every other direction falls to the U bit; no validity check *)
Definition hasGridCost g p d : bool :=
  let '(p, d) := correct p d in
  getBit_w (gbits g (getIdx g p)) (match d with DE => 12 | DN => 13 | _ => 14 end).
(* 238-247 isOverrideShapeCost *)
Definition isOverrideShapeCost g p d : bool :=
  match d with
  | DD | DU => let '(p, _) := correctU p d in getBit_w (gbits g (getIdx g p)) 11
  | _ => false
  end.
(* 226-237 hasShapeCost *)
Definition hasShapeCost g p d : bool :=
  match d with
  | DD | DU => let '(p', d') := correctU p d in
               negb ((if isOverrideShapeCost g p' d' then 0 else getBits_w (gbits g (getIdx g p')) 48 8) =? 0)
  | _ => negb (getBits_w (gbits g (getIdx g (fst (reverse p d)))) 56 8 =? 0)
  end.
(* 248-260 hasDRCCost *)
Definition hasDRCCost g p d : bool :=
  match d with
  | DD | DU => negb (getBits_w (gbits g (getIdx g (fst (correctU p d)))) 24 8 =? 0)
  | _ => negb (getBits_w (gbits g (getIdx g (fst (reverse p d)))) 16 8 =? 0)
  end.
(* 261-289 hasMarkerCost *)
Definition hasMarkerCost g p d : bool :=
  match d with
  | DD | DU => negb (getBits_w (gbits g (getIdx g (fst (correctU p d)))) 40 8 =? 0)
  | _ => negb (getBits_w (gbits g (getIdx g (fst (reverse p d)))) 32 8 =? 0)
  end.
(* 653-657 hasGuide *)
Definition hasGuide g p d : bool := gguide g (getIdx g (fst (reverse p d))).

(* 311-338 isEdgeInBox *)
Definition isEdgeInBox g p d (b : box) (initDR : bool) : bool :=
  let '(p, d) := correct p d in
  if isValidD g p d then
    let pt := getPoint g p in let pt1 := getPoint g (fst (reverse p d)) in
    if box_contains_pt b pt true && box_contains_pt b pt1 true then
      negb (initDR && (((bright b =? px pt) && (bright b =? px pt1)) ||
                       ((btop b =? py pt) && (btop b =? py pt1))))
    else false
  else false.

Definition upd_word g p (f : Z -> Z) : gg :=
  let i := getIdx g p in with_bits g (upd (gbits g) i (f (gbits g i))).
(* 340-371 addEdge *)
Definition addEdge g p d b initDR : gg * bool :=
  if negb (isEdgeInBox g p d b initDR) then (g, false)
  else let '(p, d) := correct p d in
    if isValidD g p d then
      match pos_by_dir 0 1 2 d with
      | Some k => (upd_word g p (fun w => setBit_w w k), true)
      | None => (g, false)
      end
    else (g, false).
(* 372-395 removeEdge *)
Definition removeEdge g p d : gg * bool :=
  let '(p, d) := correct p d in
  if isValidD g p d then
    match pos_by_dir 0 1 2 d with
    | Some k => (upd_word g p (fun w => resetBit_w w k), true)
    | None => (g, false)
    end
  else (g, false).
(* shape shared by setBlocked (396-411), resetBlocked (412-427), setGridCost (599-614),
   resetGridCost (636-651) *)
Definition bit_by_dir g p d (pe pn pu : Z) (f : Z -> Z -> Z) : gg :=
  let '(p, d) := correct p d in
  if isValid g p then
    match pos_by_dir pe pn pu d with
    | Some k => upd_word g p (fun w => f w k)
    | None => g
    end
  else g.

(* the mutating interface of the packed words *)
Inductive gop :=
| AddEdge (p : midx) (d : dir) (b : box) (initDR : bool)    (* 340-371 *)
| RemoveEdge (p : midx) (d : dir)                           (* 372-395 *)
| SetBlocked (p : midx) (d : dir)                           (* 396-411 *)
| ResetBlocked (p : midx) (d : dir)                         (* 412-427 *)
| SetGridCost (p : midx) (d : dir)                          (* 599-614 *)
| ResetGridCost (p : midx) (d : dir)                        (* 636-651 *)
| SetGridCostE (p : midx) | SetGridCostN (p : midx) | SetGridCostU (p : midx)   (* 615-623 *)
| SetSVia (p : midx)                                        (* 590-592 *)
| SetOverrideVia (p : midx) | ResetOverrideVia (p : midx)   (* 593-598 *)
| AddDRCPlanar (p : midx) | AddDRCVia (p : midx)            (* 428-435 *)
| SubDRCPlanar (p : midx) | SubDRCVia (p : midx)            (* 436-443 *)
| ResetDRCPlanar (p : midx) | ResetDRCVia (p : midx)        (* 444-451 *)
| AddMarkerPlanar (p : midx) | AddMarkerVia (p : midx)      (* 452-459 *)
| AddMarker (p : midx) (d : dir)                            (* 460-478 *)
| SetMarkerPlanar (p : midx) (v : Z)  (* 479-510 decayMarkerCostPlanar: writes back a value computed
                                         from the old one by a float product or a decrement; the value
                                         is a parameter *)
| SetMarkerVia (p : midx) (v : Z)
| AddShapePlanar (p : midx) | AddShapeVia (p : midx)        (* 538-549 *)
| SubShapePlanar (p : midx) | SubShapeVia (p : midx).       (* 550-561 *)

Definition gstep g (o : gop) : gg :=
  match o with
  | AddEdge p d b i => fst (addEdge g p d b i)
  | RemoveEdge p d => fst (removeEdge g p d)
  | SetBlocked p d => bit_by_dir g p d 3 4 5 setBit_w
  | ResetBlocked p d => bit_by_dir g p d 3 4 5 resetBit_w
  | SetGridCost p d => bit_by_dir g p d 12 13 14 setBit_w
  | ResetGridCost p d => bit_by_dir g p d 12 13 14 resetBit_w
  | SetGridCostE p => upd_word g p (fun w => setBit_w w 12)
  | SetGridCostN p => upd_word g p (fun w => setBit_w w 13)
  | SetGridCostU p => upd_word g p (fun w => setBit_w w 14)
  | SetSVia p => upd_word g p (fun w => setBit_w w 9)
  | SetOverrideVia p => upd_word g p (fun w => setBit_w w 11)
  | ResetOverrideVia p => upd_word g p (fun w => resetBit_w w 11)
  | AddDRCPlanar p => upd_word g p (fun w => addToBits_w w 16 8 1)
  | AddDRCVia p => upd_word g p (fun w => addToBits_w w 24 8 1)
  | SubDRCPlanar p => upd_word g p (fun w => subToBits_w w 16 8 1)
  | SubDRCVia p => upd_word g p (fun w => subToBits_w w 24 8 1)
  | ResetDRCPlanar p => upd_word g p (fun w => setBits_w w 16 8 0)
  | ResetDRCVia p => upd_word g p (fun w => setBits_w w 24 8 0)
  | AddMarkerPlanar p => upd_word g p (fun w => addToBits_w w 32 8 10)
  | AddMarkerVia p => upd_word g p (fun w => addToBits_w w 40 8 10)
  | AddMarker p d =>
      let '(p, d) := correct p d in
      if isValid g p then
        match d with
        | DE | DN => upd_word g p (fun w => addToBits_w w 32 8 10)
        | DU => upd_word g p (fun w => addToBits_w w 40 8 10)
        | _ => g
        end
      else g
  | SetMarkerPlanar p v => upd_word g p (fun w => setBits_w w 32 8 v)
  | SetMarkerVia p v => upd_word g p (fun w => setBits_w w 40 8 v)
  | AddShapePlanar p => if isValid g p then upd_word g p (fun w => addToBits_w w 56 8 1) else g
  | AddShapeVia p => if isValid g p then upd_word g p (fun w => addToBits_w w 48 8 1) else g
  | SubShapePlanar p => if isValid g p then upd_word g p (fun w => subToBits_w w 56 8 1) else g
  | SubShapeVia p => if isValid g p then upd_word g p (fun w => subToBits_w w 48 8 1) else g
  end.
Definition grun g (ops : list gop) : gg := fold_left gstep ops g.

(* 511-537 decayMarkerCost (direction form): the switch has no breaks, so E also decays N (the same
   counter a second time) and U.  [dec] is the decay of one counter. *)
Definition decayMarkerCost (dec : Z -> Z) g p d : gg :=
  let '(p, d) := correct p d in
  if isValid g p then
    let dec32 g := upd_word g p (fun w => setBits_w w 32 8 (Z.max 0 (dec (getBits_w w 32 8)))) in
    let dec40 g := upd_word g p (fun w => setBits_w w 40 8 (Z.max 0 (dec (getBits_w w 40 8)))) in
    match d with
    | DE => dec40 (dec32 (dec32 g))
    | DN => dec40 (dec32 g)
    | DU => dec40 g
    | _ => g
    end
  else g.

(* 78-83 getPrevAstarNodeDir *)
Definition getPrevDir g p : dir :=
  let b := 3 * getIdx g p in
  dir_of_code (Z.shiftl (Z.b2z (gprev g b)) 2 + Z.shiftl (Z.b2z (gprev g (b + 1))) 1 + Z.b2z (gprev g (b + 2))).
(* 567-572 setPrevAstarNodeDir *)
Definition setPrevDir g p d : gg :=
  let b := 3 * getIdx g p in
  with_prev g (upd (upd (upd (gprev g) b (Z.odd (Z.shiftr (dir_code d) 2)))
                        (b + 1) (Z.odd (Z.shiftr (dir_code d) 1)))
                   (b + 2) (Z.odd (dir_code d))).
(* 85-92, 573-587, 624-635 source and destination flags *)
Definition isSrc g p := gsrc g (getIdx g p).
Definition isDst g p := gdst g (getIdx g p).
Definition setSrc g p := with_src g (upd (gsrc g) (getIdx g p) true).
Definition setDst g p := with_dst g (upd (gdst g) (getIdx g p) true).
Definition resetSrc g p := with_src g (upd (gsrc g) (getIdx g p) false).
Definition resetDst g p := with_dst g (upd (gdst g) (getIdx g p) false).
(* FlexGridGraph.cpp:402-423 resetStatus (without the A* costs) *)
Definition resetStatus g :=
  mkGG (gxs g) (gys g) (gzs g) (gdirs g) (gbits g) (fun _ => false) (fun _ => false) (fun _ => false) (gguide g).

(* the integers a, a+1, ..., b (empty when b < a): for (int i = a; i <= b; i++) *)
Definition zrange (a b : Z) : list Z := map (fun k => a + Z.of_nat k) (seq 0 (Z.to_nat (b + 1 - a))).
(* std::fill(guides.begin() + i1, guides.begin() + i2 + 1, v) *)
Definition fill (f : Z -> bool) (i1 i2 : Z) (v : bool) : Z -> bool :=
  fun j => if (i1 <=? j) && (j <=? i2) then v else f j.
(* 659-687 setGuide (v = true), 688-716 resetGuide (v = false) *)
Definition writeGuide g (x1 y1 x2 y2 z : Z) (v : bool) : gg :=
  if (x2 <? x1) || (y2 <? y1) then g
  else if zdir g z then
    with_guide g (fold_left (fun f i => fill f (getIdx g (mkMI x1 i z)) (getIdx g (mkMI x2 i z)) v)
                            (zrange y1 y2) (gguide g))
  else
    with_guide g (fold_left (fun f i => fill f (getIdx g (mkMI i y1 z)) (getIdx g (mkMI i y2 z)) v)
                            (zrange x1 x2) (gguide g)).
(* src/dr/FlexDR_init.cpp:3465-3507 initMazeCost_guide_helper; a guide is a rectangle and a layer
   number.  bloat(0, .) is the identity. *)
Definition guide_helper g (gs : list (box * Z)) (v : bool) : gg :=
  fold_left (fun g '(b, l) =>
    let '(x1, y1, x2, y2) := getIdxBox g b in
    writeGuide g x1 y1 x2 y2 (Z.of_nat (lower_bound (gzs g) l)) v) gs g.
