(* A net through one clip of a later pass: loading, splitting into sub-nets, boundary pins of each sub-net
   (src/dr/FlexDR_init.cpp:296-328, 803-864, 1499-1604, 1607-1640).  The write-back is ClipModel.write_back.
   Simplified: the query of the clip's extended box returns all of the net's objects; those away from the clip only
   go to the fixed objects of the first sub-net. *)
From Verif Require Import Base GeomModel ClipModel BpModel.
From Verif Require ConnModel SubnetModel GridModel NetModel.

Definition trunc (e : estyle) : bool := match e with StTruncate => true | _ => false end.
(* the objects as the splitting sees them (ConnModel, SubnetModel): drPathSeg, drVia, drPatchWire *)
Definition to_d (f : fig) : SubnetModel.dfig :=
  match f with
  | FSeg w => SubnetModel.DFig (ConnModel.RSeg (wb w) (we w) (wl w) (trunc (bSty (ws w))) (trunc (eSty (ws w))))
  | FVia o l1 l2 _ => SubnetModel.DFig (ConnModel.RVia o l1 l2)
  | FPatch o l _ => SubnetModel.DPatch o l
  end.
Section K.
Variable b : box.
Variable lw : Z -> Z.
(* FlexDR_init.cpp:296-328 initNetObjs with 40-294: netRouteObjs and netExtObjs of the net *)
Definition load_raw (f : fig) : list (side * fig) :=
  match f with
  | FSeg w => map (fun x => (fst x, FSeg (snd x))) (load_seg false b lw w)
  | FVia o _ _ _ => [(if origin_in false b o then Route else Ext, f)]
  | FPatch o _ _ => [(if origin_in false b o then Route else Ext, f)]
  end.
Definition clip_objs (figs : list fig) : list fig := on_side Route (flat_map load_raw figs).
Definition clip_exts (figs : list fig) : list fig := on_side Ext (flat_map load_raw figs).
(* FlexDR_init.cpp:803-864: the sub-nets of the net in the clip *)
Definition clip_subnets (pins_at : point -> Z -> list Z) (pick : nat -> list (nat * Z) -> nat) (fuel : nat) (figs : list fig)
    : option (list SubnetModel.subnet) :=
  SubnetModel.initNets pins_at b pick fuel (map to_d (clip_objs figs)) (map to_d (clip_exts figs)).
(* 1607-1640 initNet, 1499-1574 initNet_boundary: the boundary pins of one sub-net, from its fixed objects *)
Definition d_pins (d : SubnetModel.dfig) : list (point * Z) :=
  match d with
  | SubnetModel.DFig (ConnModel.RSeg bp ep l _ _) => ext_pins1 b (mkW l bp ep (mkSt StTruncate 0 StTruncate 0 0))
  | _ => []
  end.
Definition sub_bpins (s : SubnetModel.subnet) : list (point * Z) := flat_map d_pins (SubnetModel.sn_ext s).
End K.
(* src/dr/FlexDR_maze.cpp:2716-2917 routeNet_postAstarWritePath, the figures of the grid router as routing
   objects of the net: an end at an access point is truncated, others have the layer's default style.
   [vd]: the via definition used between two layers *)
Definition to_fig (lw : Z -> Z) (vd : Z -> Z) (f : NetModel.fig) : fig :=
  match f with
  | NetModel.Seg _ _ l pa pb tb te =>
      let sty (t : bool) := if t then StTruncate else StExtend in
      let ext (t : bool) := if t then 0 else Z.quot (lw l) 2 in
      FSeg (mkW l pa pb (mkSt (sty tb) (ext tb) (sty te) (ext te) (lw l)))
  | NetModel.Via _ _ cut o _ => FVia o (cut - 1) (cut + 1) (vd cut)
  end.
