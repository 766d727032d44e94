(* Specification of the routing grid: points, neighbours and independent attributes. *)
From Verif Require Import Base Stl GeomModel GeomSpec GridModel.

(* a grid point lies inside the X x Y x Z grid *)
Definition on_grid (X Y Z : Z) (p : midx) : Prop := 0 <= mx p < X /\ 0 <= my p < Y /\ 0 <= mz p < Z.
Definition valid g p : Prop := on_grid (nx g) (ny g) (nz g) p.
(* neighbour in a direction, and the opposite direction *)
Definition step (p : midx) (d : dir) : midx :=
  match d with
  | DE => mkMI (mx p + 1) (my p) (mz p) | DW => mkMI (mx p - 1) (my p) (mz p)
  | DN => mkMI (mx p) (my p + 1) (mz p) | DS => mkMI (mx p) (my p - 1) (mz p)
  | DU => mkMI (mx p) (my p) (mz p + 1) | DD => mkMI (mx p) (my p) (mz p - 1)
  | DUnk => p
  end.
Definition opp (d : dir) : dir :=
  match d with DE => DW | DW => DE | DN => DS | DS => DN | DU => DD | DD => DU | DUnk => DUnk end.

(* the attributes of a grid point, each meant to be an independent variable *)
Inductive attr :=
| AEdgeE | AEdgeN | AEdgeU | ABlockE | ABlockN | ABlockU | ASVia | AOverride
| AGridE | AGridN | AGridU | ADrcX | ADrcU | AMarkX | AMarkU | AShapeX | AShapeU.
Definition is_counter (a : attr) : bool :=
  match a with ADrcX | ADrcU | AMarkX | AMarkU | AShapeX | AShapeU => true | _ => false end.
(* reading an attribute of the word of a point *)
Definition attr_pos (a : attr) : Z :=
  match a with
  | AEdgeE => 0 | AEdgeN => 1 | AEdgeU => 2 | ABlockE => 3 | ABlockN => 4 | ABlockU => 5
  | ASVia => 9 | AOverride => 11 | AGridE => 12 | AGridN => 13 | AGridU => 14
  | ADrcX => 16 | ADrcU => 24 | AMarkX => 32 | AMarkU => 40 | AShapeU => 48 | AShapeX => 56
  end.
Definition attr_len (a : attr) : Z := if is_counter a then 8 else 1.
Definition read g p a : Z := (gbits g (getIdx g p) / 2 ^ attr_pos a) mod 2 ^ attr_len a.

Definition by_dir (e n u : attr) (d : dir) : attr := match d with DE | DW => e | DN | DS => n | _ => u end.
(* the point that stores the edge leaving p in direction d *)
Definition owner (p : midx) (d : dir) : midx := match d with DW | DS | DD => step p d | _ => p end.
Definition op_point (o : gop) : midx :=
  match o with
  | AddEdge p d _ _ | RemoveEdge p d | SetBlocked p d | ResetBlocked p d | SetGridCost p d
  | ResetGridCost p d | AddMarker p d => owner p d
  | SetGridCostE p | SetGridCostN p | SetGridCostU p | SetSVia p | SetOverrideVia p | ResetOverrideVia p
  | AddDRCPlanar p | AddDRCVia p | SubDRCPlanar p | SubDRCVia p | ResetDRCPlanar p | ResetDRCVia p
  | AddMarkerPlanar p | AddMarkerVia p | SetMarkerPlanar p _ | SetMarkerVia p _
  | AddShapePlanar p | AddShapeVia p | SubShapePlanar p | SubShapeVia p => p
  end.
Definition op_attr (o : gop) : attr :=
  match o with
  | AddEdge _ d _ _ | RemoveEdge _ d => by_dir AEdgeE AEdgeN AEdgeU d
  | SetBlocked _ d | ResetBlocked _ d => by_dir ABlockE ABlockN ABlockU d
  | SetGridCost _ d | ResetGridCost _ d => by_dir AGridE AGridN AGridU d
  | AddMarker _ d => by_dir AMarkX AMarkX AMarkU d
  | SetGridCostE _ => AGridE | SetGridCostN _ => AGridN | SetGridCostU _ => AGridU
  | SetSVia _ => ASVia | SetOverrideVia _ | ResetOverrideVia _ => AOverride
  | AddDRCPlanar _ | SubDRCPlanar _ | ResetDRCPlanar _ => ADrcX
  | AddDRCVia _ | SubDRCVia _ | ResetDRCVia _ => ADrcU
  | AddMarkerPlanar _ | SetMarkerPlanar _ _ => AMarkX
  | AddMarkerVia _ | SetMarkerVia _ _ => AMarkU
  | AddShapePlanar _ | SubShapePlanar _ => AShapeX
  | AddShapeVia _ | SubShapeVia _ => AShapeU
  end.
(* both ends of the edge are inside the box; an initial-routing pass may not use its top and right side *)
Definition edge_allowed g (p : midx) (d : dir) (b : box) (initDR : bool) : Prop :=
  let a := getPoint g p in let c := getPoint g (step p d) in
  valid g p /\ valid g (step p d) /\
  (bleft b <= px a <= bright b /\ bbottom b <= py a <= btop b) /\
  (bleft b <= px c <= bright b /\ bbottom b <= py c <= btop b) /\
  (initDR = true -> ~ (px a = bright b /\ px c = bright b) /\ ~ (py a = btop b /\ py c = btop b)).
(* the effect, given the value [v] before: counters of 8 bits, flags of 1 bit *)
Definition op_value (o : gop) (v : Z) : Z :=
  match o with
  | AddEdge _ _ _ _ | SetBlocked _ _ | SetGridCost _ _ | SetGridCostE _ | SetGridCostN _
  | SetGridCostU _ | SetSVia _ | SetOverrideVia _ => 1
  | RemoveEdge _ _ | ResetBlocked _ _ | ResetGridCost _ _ | ResetOverrideVia _
  | ResetDRCPlanar _ | ResetDRCVia _ => 0
  | AddDRCPlanar _ | AddDRCVia _ | AddShapePlanar _ | AddShapeVia _ => Z.min (v + 1) 256 mod 256
  | AddMarkerPlanar _ | AddMarkerVia _ | AddMarker _ _ => Z.min (v + 10) 256 mod 256
  | SubDRCPlanar _ | SubDRCVia _ | SubShapePlanar _ | SubShapeVia _ => Z.max (v - 1) 0
  | SetMarkerPlanar _ w | SetMarkerVia _ w => w mod 256
  end.
(* the operation is performed (not rejected) *)
Definition op_enabled g (o : gop) : Prop :=
  match o with
  | AddEdge p d b i => d <> DUnk /\ edge_allowed g p d b i
  | RemoveEdge p d => d <> DUnk /\ valid g p /\ valid g (step p d)
  | SetBlocked p d | ResetBlocked p d | SetGridCost p d | ResetGridCost p d | AddMarker p d =>
      d <> DUnk /\ valid g (owner p d)
  | _ => valid g (op_point o)
  end.
(* unchecked accessors: the caller must pass a point of the grid *)
Definition op_safe g (o : gop) : Prop :=
  match o with
  | AddEdge _ _ _ _ | RemoveEdge _ _ | SetBlocked _ _ | ResetBlocked _ _ | SetGridCost _ _
  | ResetGridCost _ _ | AddMarker _ _ | AddShapePlanar _ | AddShapeVia _ | SubShapePlanar _
  | SubShapeVia _ => True
  | _ => valid g (op_point o)
  end.
(* same coordinates and layer directions *)
Definition same_shape (g h : gg) : Prop :=
  gxs g = gxs h /\ gys g = gys h /\ gzs g = gzs h /\ gdirs g = gdirs h.
(* everything but the packed words is unchanged *)
Definition rest_same (g h : gg) : Prop :=
  same_shape g h /\ gprev g = gprev h /\ gsrc g = gsrc h /\ gdst g = gdst h /\ gguide g = gguide h.
(* words stay 64-bit *)
Definition words_ok g := forall i, 0 <= gbits g i < 2 ^ 64.
Definition planar (d : dir) : bool := match d with DE | DW | DN | DS => true | _ => false end.
(* an edge has both its ends on the grid *)
Definition edges_inside g := forall p d, d <> DUnk -> hasEdge g p d = true -> valid g p /\ valid g (step p d).
(* unit changes of the cost counters *)
Definition sgn (o : gop) : Z :=
  match o with
  | AddDRCPlanar _ | AddDRCVia _ | AddShapePlanar _ | AddShapeVia _ => 1
  | SubDRCPlanar _ | SubDRCVia _ | SubShapePlanar _ | SubShapeVia _ => -1
  | _ => 0
  end.
(* the value each operation meets while the sequence runs *)
Fixpoint no_limit (g : gg) (ops : list gop) : Prop :=
  match ops with
  | [] => True
  | o :: r =>
    let v := read g (op_point o) (op_attr o) in
    (sgn o = 1 -> v + 1 <= 255) /\ (sgn o = -1 -> 1 <= v) /\ no_limit (gstep g o) r
  end.
Definition cost_op (o : gop) : Prop := sgn o <> 0.
(* the operation taking a cost contribution back *)
Definition undo (o : gop) : gop :=
  match o with
  | AddDRCPlanar p => SubDRCPlanar p | AddDRCVia p => SubDRCVia p
  | AddShapePlanar p => SubShapePlanar p | AddShapeVia p => SubShapeVia p
  | SubDRCPlanar p => AddDRCPlanar p | SubDRCVia p => AddDRCVia p
  | SubShapePlanar p => AddShapePlanar p | SubShapeVia p => AddShapeVia p
  | o => o
  end.
(* the grid point lies inside the rectangle on its layer *)
Definition covered g (p : midx) (gd : box * Z) : Prop :=
  in_box (getPoint g p) (fst gd) /\ getLayerNum g (mz p) = snd gd.
Definition grid_sorted g := sorted_lt (gxs g) /\ sorted_lt (gys g) /\ sorted_lt (gzs g).
