(* Points, boxes, placements, instances.
   Coordinates (frCoord = int, src/frBaseTypes.h) are unbounded Z: overflow is not modelled. *)
From Verif Require Import Base.
From Coq Require Import String.

(* src/db/infra/frPoint.h:37-76  class frPoint *)
Record point := mkPt { px : Z; py : Z }.

(* src/frBaseTypes.h frOrientEnum, the eight DEF orientations *)
Inductive orient := R0 | R90 | R180 | R270 | MY | MXR90 | MX | MYR90.

(* src/db/infra/frTransform.h:37-156  class frTransform: offset and orientation *)
Record xform := mkXf { xo : Z; yo : Z; ori : orient }.

(* src/db/infra/frPoint.cpp:35-76  frPoint::transform *)
Definition pt_transform (p : point) (t : xform) : point :=
  match ori t with
  | R90   => mkPt (xo t - py p) (yo t + px p)
  | R180  => mkPt (xo t - px p) (yo t - py p)
  | R270  => mkPt (xo t + py p) (yo t - px p)
  | MY    => mkPt (xo t - px p) (yo t + py p)
  | MYR90 => mkPt (xo t - py p) (yo t - px p)
  | MX    => mkPt (xo t + px p) (yo t - py p)
  | MXR90 => mkPt (xo t + py p) (yo t + px p)
  | R0    => mkPt (xo t + px p) (yo t + py p)
  end.

(* src/db/infra/frPoint.h:68-73  operator<, operator== *)
Definition pt_lt (a b : point) : bool :=
  if px a =? px b then py a <? py b else px a <? px b.
Definition pt_eq (a b : point) : bool := (px a =? px b) && (py a =? py b).

(* src/db/infra/frTransform.h:101-152  frTransform::revert
   (the default branch is unreachable: the enum has eight values) *)
Definition xf_revert (t : xform) : xform :=
  match ori t with
  | R0    => mkXf (- xo t) (- yo t) R0
  | R90   => mkXf (- yo t) (xo t) R270
  | R180  => mkXf (xo t) (yo t) R180
  | R270  => mkXf (yo t) (- xo t) R90
  | MY    => mkXf (xo t) (- yo t) MY
  | MYR90 => mkXf (yo t) (xo t) MYR90
  | MX    => mkXf (- xo t) (yo t) MX
  | MXR90 => mkXf (- yo t) (- xo t) MXR90
  end.

(* src/db/infra/frTransform.h:72-100  frTransform::updateXform *)
Definition xf_update (t : xform) (size : point) : xform :=
  match ori t with
  | R90   => mkXf (xo t + py size) (yo t) (ori t)
  | R180  => mkXf (xo t + px size) (yo t + py size) (ori t)
  | R270  => mkXf (xo t) (yo t + px size) (ori t)
  | MY    => mkXf (xo t + px size) (yo t) (ori t)
  | MXR90 => mkXf (xo t) (yo t) (ori t)
  | MX    => mkXf (xo t) (yo t + py size) (ori t)
  | MYR90 => mkXf (xo t + py size) (yo t + px size) (ori t)
  | R0    => mkXf (xo t) (yo t) (ori t)
  end.

(* src/db/infra/frBox.h:36-140  class frBox: lower-left and upper-right corner *)
Record box := mkBox { ll : point; ur : point }.
(* src/db/infra/frBox.h:73-84 *)
Definition bleft (b : box) := px (ll b).
Definition bbottom (b : box) := py (ll b).
Definition bright (b : box) := px (ur b).
Definition btop (b : box) := py (ur b).

(* src/db/infra/frBox.h:46-51, 59-64  constructor / set from four coordinates *)
Definition box_set (llx lly urx ury : Z) : box :=
  mkBox (mkPt (if llx >? urx then urx else llx) (if lly >? ury then ury else lly))
        (mkPt (if llx >? urx then llx else urx) (if lly >? ury then lly else ury)).
(* src/db/infra/frBox.h:52-53, 65-67 *)
Definition box_of_pts (a b : point) : box := box_set (px a) (py a) (px b) (py b).

(* src/db/infra/frBox.h:97-106 *)
Definition box_width (b : box) : Z := Z.min (bright b - bleft b) (btop b - bbottom b).
Definition box_length (b : box) : Z := Z.max (bright b - bleft b) (btop b - bbottom b).

(* src/db/infra/frBox.h:107-115  contains(box, incEdges) *)
Definition box_contains_box (a b : box) (inc : bool) : bool :=
  if inc then (bright b <=? bright a) && (bleft b >=? bleft a) &&
              (btop b <=? btop a) && (bbottom b >=? bbottom a)
  else (bright b <? bright a) && (bleft b >? bleft a) &&
       (btop b <? btop a) && (bbottom b >? bbottom a).

(* src/db/infra/frBox.h:116-124  contains(point, incEdges) *)
Definition box_contains_pt (a : box) (p : point) (inc : bool) : bool :=
  if inc then (bleft a <=? px p) && (px p <=? bright a) &&
              (bbottom a <=? py p) && (py p <=? btop a)
  else (bleft a <? px p) && (px p <? bright a) &&
       (bbottom a <? py p) && (py p <? btop a).

(* src/db/infra/frBox.cpp:35-39  frBox::transform *)
Definition box_transform (b : box) (t : xform) : box :=
  box_of_pts (pt_transform (ll b) t) (pt_transform (ur b) t).

(* src/db/infra/frBox.cpp:41-55  frBox::overlaps *)
Definition box_overlaps (a b : box) (inc : bool) : bool :=
  if inc then negb ((bright a <? bleft b) || (btop a <? bbottom b) ||
                    (bleft a >? bright b) || (bbottom a >? btop b))
  else negb ((bright a <=? bleft b) || (btop a <=? bbottom b) ||
             (bleft a >=? bright b) || (bbottom a >=? btop b)).

(* src/db/infra/frBox.cpp:57-59  frBox::bloat *)
Definition box_bloat (b : box) (d : Z) : box :=
  box_set (bleft b - d) (bbottom b - d) (bright b + d) (btop b + d).

(* src/db/infra/frBox.h:131-137  operator< *)
Definition box_lt (a b : box) : bool :=
  if negb (pt_eq (ll a) (ll b)) then pt_lt (ll a) (ll b) else pt_lt (ur a) (ur b).
Definition box_eq (a b : box) : bool := pt_eq (ll a) (ll b) && pt_eq (ur a) (ur b).

(* src/dr/FlexDR_maze.cpp:41-45  pt2boxDistSquare *)
Definition pt2boxDistSquare (p : point) (b : box) : Z :=
  let dx := Z.max (Z.max (bleft b - px p) (px p - bright b)) 0 in
  let dy := Z.max (Z.max (bbottom b - py p) (py p - btop b)) 0 in
  dx * dx + dy * dy.

(* src/dr/FlexDR_maze.cpp:47-51, src/ta/FlexTA_assign.cpp:35-39  box2boxDistSquare *)
Definition box2boxDx (a b : box) : Z :=
  Z.max (Z.max (bleft a) (bleft b) - Z.min (bright a) (bright b)) 0.
Definition box2boxDy (a b : box) : Z :=
  Z.max (Z.max (bbottom a) (bbottom b) - Z.min (btop a) (btop b)) 0.
Definition box2boxDistSquare (a b : box) : Z :=
  box2boxDx a b * box2boxDx a b + box2boxDy a b * box2boxDy a b.

(* src/dr/FlexDR_maze.cpp:55-59  box2boxDistSquareNew: dx, dy may be negative (overlap) *)
Definition box2boxDxNew (a b : box) : Z :=
  Z.max (bleft a) (bleft b) - Z.min (bright a) (bright b).
Definition box2boxDyNew (a b : box) : Z :=
  Z.max (bbottom a) (bbottom b) - Z.min (btop a) (btop b).
Definition box2boxDistSquareNew (a b : box) : Z :=
  Z.max (box2boxDxNew a b) 0 * Z.max (box2boxDxNew a b) 0 +
  Z.max (box2boxDyNew a b) 0 * Z.max (box2boxDyNew a b) 0.

(* src/db/obj/frInst.cpp:34-44 getBBox and 46-56 getBoundaryBBox: same code on the reference
   block's bounding box [ref]; [t] is the instance's placement. *)
Definition inst_bbox (ref : box) (t : xform) : box :=
  let origin := pt_transform (mkPt (bleft ref) (bbottom ref)) (mkXf 0 0 (ori t)) in
  let t1 := mkXf (xo t + px origin) (yo t + py origin) (ori t) in
  let t2 := xf_update t1 (mkPt (bright ref) (btop ref)) in
  box_transform ref t2.

(* src/db/obj/frInst.cpp:58-71 getUpdatedXform *)
Definition inst_updated_xform (ref : box) (t : xform) (noOrient : bool) : xform :=
  let origin := pt_transform (mkPt (bleft ref) (bbottom ref)) (mkXf 0 0 (ori t)) in
  let t1 := mkXf (xo t + px origin) (yo t + py origin) (ori t) in
  if noOrient then mkXf (xo t1) (yo t1) R0
  else xf_update t1 (mkPt (bright ref) (btop ref)).

(* src/db/infra/frOrient.h:90-102  getName *)
Definition orient_name (o : orient) : string :=
  match o with
  | R90 => "frcR90" | R180 => "frcR180" | R270 => "frcR270" | MY => "frcMY"
  | MYR90 => "frcMYR90" | MX => "frcMX" | MXR90 => "frcMXR90" | R0 => "frcR0"
  end%string.

(* src/db/infra/frOrient.h:41-59, 67-85  constructor / set from a name *)
Definition orient_of_name (s : string) : orient :=
  if String.eqb s "frcR90" then R90
  else if String.eqb s "frcR180" then R180
  else if String.eqb s "frcR270" then R270
  else if String.eqb s "frcMY" then MY
  else if String.eqb s "frcMYR90" then MYR90
  else if String.eqb s "frcMX" then MX
  else if String.eqb s "frcMXR90" then MXR90
  else R0.

(* src/dr/FlexMazeTypes.h:33-84  FlexMazeIdx and its operator< (62-70), == (71-73) *)
Record midx := mkMI { mx : Z; my : Z; mz : Z }.
Definition mi_lt (a b : midx) : bool :=
  if negb (mx a =? mx b) then mx a <? mx b
  else if negb (my a =? my b) then my a <? my b
  else mz a <? mz b.
Definition mi_eq (a b : midx) : bool := (mx a =? mx b) && (my a =? my b) && (mz a =? mz b).
