(* The index of the shapes of a clip (src/dr/FlexDR_rq.cpp) and the area of wires that leave the clip
   (src/dr/FlexDR_init.cpp:1716-1812 initNets_boundaryArea).
   Simplifications: an R-tree is the list of its values, in the order a query finds them; areas are unbounded numbers;
   all shapes of a via are rectangles; layer numbers are in range. *)
From Verif Require Import Base GeomModel.

(* drPathSeg, drPatchWire and drVia (src/db/drObj/drShape.h, drVia.h); the first number stands for the address, the second for the net *)
Record bvia := mkBV { bv_l1 : Z; bv_l2 : Z; bv_cut : Z; bv_f1 : list box; bv_f2 : list box; bv_fc : list box }.   (* frViaDef *)
Inductive dfig :=
| DSeg (id net layer : Z) (b e : point) (width bext eext : Z)
| DPatch (id net layer : Z) (origin : point) (off : box)
| DVia (id net : Z) (origin : point) (d : bvia).
Definition fig_id (f : dfig) : Z := match f with DSeg i _ _ _ _ _ _ _ => i | DPatch i _ _ _ _ => i | DVia i _ _ _ => i end.
Definition fig_net (f : dfig) : Z := match f with DSeg _ n _ _ _ _ _ _ => n | DPatch _ n _ _ _ => n | DVia _ n _ _ => n end.
(* drShape.h:169-184 *)
Definition seg_box (b e : point) (w bext eext : Z) : box :=
  if px b =? px e then box_set (px b - Z.quot w 2) (py b - bext) (px e + Z.quot w 2) (py e + eext)
  else box_set (px b - bext) (py b - Z.quot w 2) (px e + eext) (py e + Z.quot w 2).
(* drShape.h:285-289 and FlexDR_rq.cpp:71-78: a box moved to an origin *)
Definition moved (o : point) (b : box) : box := box_transform b (mkXf (px o) (py o) R0).
(* FlexDR_rq.cpp:64-108, 112-156, 158-202: the layers and boxes of a figure *)
Definition shapes_of (f : dfig) : list (Z * box) :=
  match f with
  | DSeg _ _ l b e w x y => [(l, seg_box b e w x y)]
  | DPatch _ _ l o off => [(l, moved o off)]
  | DVia _ _ o d => map (fun b => (bv_l1 d, moved o b)) (bv_f1 d) ++ map (fun b => (bv_l2 d, moved o b)) (bv_f2 d) ++ map (fun b => (bv_cut d, moved o b)) (bv_fc d)
  end.
(* one value of the tree of a layer *)
Definition entry : Type := Z * box * dfig.
Definition entries (f : dfig) : list entry := map (fun s => (s, f)) (shapes_of f).
Definition box_same (a b : box) : bool := (bleft a =? bleft b) && (bbottom a =? bbottom b) && (bright a =? bright b) && (btop a =? btop b).
(* equality of values: the boxes and the addresses *)
Definition entry_same (a b : entry) : bool :=
  let '(la, ba, fa) := a in let '(lb, bb, fb) := b in (la =? lb) && box_same ba bb && (fig_id fa =? fig_id fb).
(* rtree::remove: one equal value *)
Fixpoint remove1 (x : entry) (l : list entry) : list entry :=
  match l with [] => [] | y :: r => if entry_same x y then r else y :: remove1 x r end.
(* 64-108 *)
Definition rq_add (f : dfig) (t : list entry) : list entry := entries f ++ t.
(* 158-202 *)
Definition rq_remove (f : dfig) (t : list entry) : list entry := fold_left (fun t x => remove1 x t) (entries f) t.
(* 215-235: all figures of all nets *)
Definition rq_init (fs : list dfig) : list entry := flat_map entries fs.
(* bgi::intersects: common edges count *)
Definition meets (a b : box) : bool :=
  (bleft a <=? bright b) && (bleft b <=? bright a) && (bbottom a <=? btop b) && (bbottom b <=? btop a).
(* 210-212 *)
Definition rq_query (q : box) (l : Z) (t : list entry) : list (box * dfig) :=
  map (fun x => (snd (fst x), snd x)) (filter (fun x => (fst (fst x) =? l) && meets q (snd (fst x))) t).

(* what happens to a clip after it is set up *)
Inductive rop := OpAdd (f : dfig) | OpRemove (f : dfig).
Definition rq_step (t : list entry) (o : rop) : list entry := match o with OpAdd f => rq_add f t | OpRemove f => rq_remove f t end.

(* FlexDR_init.cpp:1755-1774, 1786-1805: the first via or patch of the net whose origin is [pt]; the loop is over [results] *)
Fixpoint end_area (net : Z) (pt : point) (rs : list (box * dfig)) : Z :=
  match rs with
  | [] => 0
  | (b, f) :: rs =>
      if fig_net f =? net then
        match f with
        | DVia _ _ o _ => if pt_eq o pt then Z.quot (box_width b * box_length b) 2 else end_area net pt rs
        | DPatch _ _ _ o _ => if pt_eq o pt then box_width b * box_length b else end_area net pt rs
        | DSeg _ _ _ _ _ _ _ _ => end_area net pt rs
        end
      else end_area net pt rs
  end.
(* 1742-1807: what one figure found at the pin adds *)
Definition fig_area (rb : box) (net : Z) (bp : point) (rs : list (box * dfig)) (f : dfig) : Z :=
  if fig_net f =? net then
    match f with
    | DSeg _ _ _ b e w _ _ =>
        let a := (Z.abs (px e - px b) + Z.abs (py e - py b)) * w in
        (if pt_eq bp b && negb (box_contains_pt rb e true) then a + end_area net e rs else 0) +
        (if negb (box_contains_pt rb b true) && pt_eq bp e then a + end_area net b rs else 0)
    | _ => 0
    end
  else 0.
(* 1733-1809: the area set at an access pattern of a pin without terminal *)
Definition begin_area (rb : box) (t : list entry) (net : Z) (bp : point) (l : Z) : Z :=
  let rs := rq_query (box_of_pts bp bp) l t in
  fold_left (fun s x => s + fig_area rb net bp rs (snd x)) rs 0.
