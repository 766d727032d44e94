(* Distance between boxes. *)
From Verif Require Import Base GeomModel FixModel.

(* the boxes are less than [s] apart in x and in y (a negative gap: they overlap in this direction) *)
Definition gap_x (a b : box) : Z := Z.max (bleft b - bright a) (bleft a - bright b).
Definition gap_y (a b : box) : Z := Z.max (bbottom b - btop a) (bbottom a - btop b).
Definition closer (s : Z) (a b : box) : Prop := gap_x a b < s /\ gap_y a b < s.
Definition proper_box (b : box) : Prop := bleft b <= bright b /\ bbottom b <= btop b.
(* the metal of a wire of half width [hw] from [b] to [e] on the track [t] *)
Definition wire_metal (isH : bool) (hw b e t : Z) : box :=
  if isH then mkBox (mkPt (b - hw) (t - hw)) (mkPt (e + hw) (t + hw)) else mkBox (mkPt (t - hw) (b - hw)) (mkPt (t + hw) (e + hw)).
(* the spacing that a fixed wire, via or blockage needs: by its width and its length along the layer *)
Definition req_spacing (isH : bool) (width : Z) (spc : option (Z -> Z -> Z)) (minobs : bool) (f : fshape) : Z :=
  match spc with
  | None => width
  | Some find =>
      find (match fs_kind f, minobs with FBlock, true => width | _, _ => Z.min (bright (fs_box f) - bleft (fs_box f)) (btop (fs_box f) - bbottom (fs_box f)) end)
           (if isH then bright (fs_box f) - bleft (fs_box f) else btop (fs_box f) - bbottom (fs_box f))
  end.
(* not of the net: a blockage, or a shape of another net or of no net *)
Definition other_net (net : Z) (f : fshape) : Prop := fs_kind f = FBlock \/ fs_net f <> Some net.
