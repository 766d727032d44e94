(* When the pins of a net are connected, before and after a clip is rerouted. *)
From Verif Require Import Base GeomModel ClipModel KeepModel.
From Verif Require ConnModel ConnSpec SubnetModel GridModel NetModel NetSpec MazeSpec.

(* the wires and vias of a list of figures, as the connectivity check sees them *)
Definition cut_off (e : estyle) : bool := match e with StTruncate => true | _ => false end.
Definition robj_of (f : fig) : list ConnModel.robj :=
  match f with
  | FSeg w => [ConnModel.RSeg (wb w) (we w) (wl w) (cut_off (bSty (ws w))) (cut_off (eSty (ws w)))]
  | FVia o l1 l2 _ => [ConnModel.RVia o l1 l2]
  | FPatch _ _ _ => []
  end.
Definition robjs (figs : list fig) : list ConnModel.robj := flat_map robj_of figs.

(* from one location to another through wires, vias and pins of the net *)
Inductive conducts (pins_at : point -> Z -> list Z) (objs : list ConnModel.robj) (k : point * Z) : point * Z -> Prop :=
| cd_refl : conducts pins_at objs k k
| cd_obj k1 k2 o : conducts pins_at objs k k1 -> In o objs -> ConnSpec.lies_on o k1 -> ConnSpec.lies_on o k2 -> conducts pins_at objs k k2
| cd_pin k1 k2 id : conducts pins_at objs k k1 -> In id (pins_at (fst k1) (snd k1)) -> In id (pins_at (fst k2) (snd k2)) -> conducts pins_at objs k k2.

(* the places a sub-net has to connect: its boundary pins and its pins *)
Definition sub_place (b : box) (pins_at : point -> Z -> list Z) (s : SubnetModel.subnet) (k : point * Z) : Prop :=
  In k (sub_bpins b s) \/ exists id, In id (SubnetModel.sn_pins s) /\ In id (pins_at (fst k) (snd k)).
(* a routing of the sub-net connects them *)
Definition routes (b : box) (pins_at : point -> Z -> list Z) (s : SubnetModel.subnet) (r : list fig) : Prop :=
  forall k k', sub_place b pins_at s k -> sub_place b pins_at s k' -> conducts pins_at (robjs r) k k'.

(* the place of a grid point *)
Definition g_loc (g : GridModel.gg) (m : midx) : point * Z :=
  (mkPt (nth (Z.to_nat (mx m)) (GridModel.gxs g) 0) (nth (Z.to_nat (my m)) (GridModel.gys g) 0), nth (Z.to_nat (mz m)) (GridModel.gzs g) 0).
(* coordinates increase, and every second layer is a routing layer *)
Definition grid_ordered (g : GridModel.gg) : Prop :=
  (forall i j, 0 <= i < j -> j < GridModel.nx g -> nth (Z.to_nat i) (GridModel.gxs g) 0 < nth (Z.to_nat j) (GridModel.gxs g) 0) /\
  (forall i j, 0 <= i < j -> j < GridModel.ny g -> nth (Z.to_nat i) (GridModel.gys g) 0 < nth (Z.to_nat j) (GridModel.gys g) 0) /\
  (forall z, 0 <= z -> z + 1 < GridModel.nz g -> nth (Z.to_nat (z + 1)) (GridModel.gzs g) 0 = nth (Z.to_nat z) (GridModel.gzs g) 0 + 2).
(* the pins given to the router stand for the places of the sub-net: one for each boundary pin, at that place,
   and one for each pin, with access points on the pin *)
Definition pins_stand (b : box) (pins_at : point -> Z -> list Z) (g : GridModel.gg) (s : SubnetModel.subnet) (pins : list NetModel.dpin) : Prop :=
  (forall k, In k (sub_bpins b s) -> exists p, In p pins /\ forall a, In a (NetModel.paps p) -> g_loc g a = k) /\
  (forall id, In id (SubnetModel.sn_pins s) -> exists p, In p pins /\ forall a, In a (NetModel.paps p) ->
     In id (pins_at (fst (g_loc g a)) (snd (g_loc g a)))).
(* [r] is what the router returned for the sub-net when it reported success, with patches added *)
Definition routed (b : box) (lw vd : Z -> Z) (pins_at : point -> Z -> list Z) (s : SubnetModel.subnet) (r : list fig) : Prop :=
  exists sd dd E next_ext init_ext pick n fuel tbfuel g pins st patches,
    (forall l a, 0 <= sd l a) /\ (forall c1 c2 a, dd c1 c2 a < 2 ^ 31 - 1) /\
    NetSpec.net_ready g pins /\ grid_ordered g /\ (MazeSpec.grid_size g <= tbfuel)%nat /\ pins_stand b pins_at g s pins /\
    NetModel.routeNet sd dd E next_ext init_ext pick n fuel tbfuel g pins = NetModel.ROk st /\
    Forall (fun f => match f with FPatch _ _ _ => True | _ => False end) patches /\
    r = map (to_fig lw vd) (NetModel.rsfigs st) ++ patches.
