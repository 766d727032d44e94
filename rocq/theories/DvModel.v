(* The VIAS and BLOCKAGES sections of a DEF file, as the DEF writer copies them to the routed DEF and as the DEF parser reads them.
   Tokens as in DwModel.  DEF version 5.8; an error the parser reports (defError) is the outcome None.  Not modelled: masks of more than three
   digits (validateMaskInput), PATTERNNAME (ignored from 5.6 on), densities that are not whole. *)
From Coq Require Import String.
From Verif Require Import Base DwModel SnModel.
Local Open Scope string_scope.
Local Open Scope Z_scope.
Local Open Scope list_scope.

(* a section whose end is printed when the declared number has been counted down: defw.cpp:1642-1673 cs, 2401-2404, 2822-2825 *)
Section Counted.
Context {A : Type} (key : string) (pr : A -> list tok) (rd : list tok -> option (A * list tok)).
Fixpoint print_counted (n : Z) (l : list A) : list tok :=
  match l with [] => [] | x :: r => pr x ++ (if n - 1 <=? 0 then [W "END"; W key] else []) ++ print_counted (n - 1) r end.
Definition print_sec (n : Z) (l : list A) : list tok := [W key; Nu n; W ";"] ++ print_counted n l.
(* def.y:1407-1417, 1593-1597, 4408-4422 *)
Fixpoint read_counted (fuel : nat) (ts : list tok) : option (list A * list tok) :=
  match fuel with
  | O => None
  | S f => match eat "-" ts with
           | Some _ => let* (x, r) := rd ts in let* (l, r) := read_counted f r in Some (x :: l, r)
           | None => let* r := eat "END" ts in let* r := eat key r in Some ([], r)
           end
  end.
Definition read_sec (ts : list tok) : option (Z * list A * list tok) :=
  let* r := eat key ts in let* (n, r) := num r in let* r := eat ";" r in let* (l, r) := read_counted (S (List.length r)) r in Some (n, l, r).
End Counted.

Definition box := (Z * Z * Z * Z)%type.
(* --- vias: defiVia --- *)
(* VIARULE with CUTSIZE, LAYERS, CUTSPACING, ENCLOSURE *)
Record vrule := mkVr { vr_name : string; vr_size : Z * Z; vr_bot : string; vr_cut : string; vr_top : string; vr_spc : Z * Z; vr_enc : box }.
(* the numbers are 0 where nothing was said: defiVia.cpp:94-106 clear *)
Record via := mkVia { v_name : string; v_rects : list (string * Z * box); v_polys : list (string * Z * list (Z * Z)); v_rule : option vrule;
                      v_rowcol : Z * Z; v_origin : Z * Z; v_offset : box; v_cut : option string }.
Definition vmask (m : Z) : list tok := if m =? 0 then [] else [W "+"; W "MASK"; Nu m].
(* defw.cpp:2345-2358 *)
Definition print_vrect (p : string * Z * box) : list tok :=
  match p with (s, m, (a, b, c, d)) => [W "+"; W "RECT"; W s] ++ vmask m ++ [W "("; Nu a; Nu b; W ")"; W "("; Nu c; Nu d; W ")"] end.
(* 2360-2376: the points without parentheses *)
Definition print_vpoly (p : string * Z * list (Z * Z)) : list tok :=
  match p with (s, m, l) => [W "+"; W "POLYGON"; W s] ++ vmask m ++ flat_map (fun q => [Nu (fst q); Nu (snd q)]) l end.
Definition print_vrule (r : vrule) : list tok :=
  match vr_enc r with (a, b, c, d) =>
    [W "+"; W "VIARULE"; W (vr_name r); W "+"; W "CUTSIZE"; Nu (fst (vr_size r)); Nu (snd (vr_size r)); W "+"; W "LAYERS"; W (vr_bot r); W (vr_cut r); W (vr_top r);
     W "+"; W "CUTSPACING"; Nu (fst (vr_spc r)); Nu (snd (vr_spc r)); W "+"; W "ENCLOSURE"; Nu a; Nu b; Nu c; Nu d] end.
(* defiVia.cpp:497-530 hasRowCol, hasOrigin, hasOffset: one of the numbers is not 0 *)
Definition print_two (k : string) (p : Z * Z) : list tok := if (fst p =? 0) && (snd p =? 0) then [] else [W "+"; W k; Nu (fst p); Nu (snd p)].
Definition print_four (k : string) (p : box) : list tok :=
  match p with (a, b, c, d) => if (a =? 0) && (b =? 0) && (c =? 0) && (d =? 0) then [] else [W "+"; W k; Nu a; Nu b; Nu c; Nu d] end.
Definition quoted (s : string) : string := "'" ++ s ++ "'".
(* defw.cpp:2338-2405 *)
Definition print_via (v : via) : list tok :=
  [W "-"; W (v_name v)] ++ flat_map print_vrect (v_rects v) ++ flat_map print_vpoly (v_polys v) ++
  match v_rule v with
  | None => []
  | Some r => print_vrule r ++ print_two "ROWCOL" (v_rowcol v) ++ print_two "ORIGIN" (v_origin v) ++ print_four "OFFSET" (v_offset v) ++ opt (fun s => [W "+"; W "PATTERN"; W (quoted s)]) (v_cut v)
  end ++ [W ";"].

(* def.y:1588-1591 mask *)
Definition read_vmask (ts : list tok) : option (Z * list tok) :=
  match eat "+" ts with Some r => let* r := eat "MASK" r in num r | None => Some (0, ts) end.
Definition num2 (ts : list tok) : option (Z * Z * list tok) := let* (a, r) := num ts in let* (b, r) := num r in Some (a, b, r).
Definition num4 (ts : list tok) : option (box * list tok) := let* (a, b, r) := num2 ts in let* (c, d, r) := num2 r in Some ((a, b, c, d), r).
(* def.y:1479-1509 *)
Definition read_vrule (ts : list tok) : option (vrule * list tok) :=
  let* (n, r) := word ts in let* r := eat "+" r in let* r := eat "CUTSIZE" r in let* (a, b, r) := num2 r in
  let* r := eat "+" r in let* r := eat "LAYERS" r in let* (bl, r) := word r in let* (cl, r) := word r in let* (tl, r) := word r in
  let* r := eat "+" r in let* r := eat "CUTSPACING" r in let* (c, d, r) := num2 r in
  let* r := eat "+" r in let* r := eat "ENCLOSURE" r in let* (e, r) := num4 r in Some (mkVr n (a, b) bl cl tl (c, d) e, r).
(* def.y:1434-1567 layer_stmt, layer_viarule_opts; the "+" has been read *)
Definition read_viaopt (v : via) (ts : list tok) : option (via * list tok) :=
  match eat "RECT" ts with Some r => let* (s, r) := word r in let* (m, r) := read_vmask r in let* (a, b, r) := pt r in let* (c, d, r) := pt r in
    Some (mkVia (v_name v) (v_rects v ++ [(s, m, (a, b, c, d))]) (v_polys v) (v_rule v) (v_rowcol v) (v_origin v) (v_offset v) (v_cut v), r) | None =>
  match eat "POLYGON" ts with Some r => let* (s, r) := word r in let* (m, r) := read_vmask r in let* (a, b, r) := pt r in let* (c, d, r) := pt r in let* (e, f, r) := pt r in
    let* (l, r) := read_pts (S (List.length r)) r in
    Some (mkVia (v_name v) (v_rects v) (v_polys v ++ [(s, m, (a, b) :: (c, d) :: (e, f) :: l)]) (v_rule v) (v_rowcol v) (v_origin v) (v_offset v) (v_cut v), r) | None =>
  match eat "VIARULE" ts with Some r => let* (x, r) := read_vrule r in
    Some (mkVia (v_name v) (v_rects v) (v_polys v) (Some x) (v_rowcol v) (v_origin v) (v_offset v) (v_cut v), r) | None =>
  let* _ := v_rule v in
  match eat "ROWCOL" ts with Some r => let* (a, b, r) := num2 r in Some (mkVia (v_name v) (v_rects v) (v_polys v) (v_rule v) (a, b) (v_origin v) (v_offset v) (v_cut v), r) | None =>
  match eat "ORIGIN" ts with Some r => let* (a, b, r) := num2 r in Some (mkVia (v_name v) (v_rects v) (v_polys v) (v_rule v) (v_rowcol v) (a, b) (v_offset v) (v_cut v), r) | None =>
  match eat "OFFSET" ts with Some r => let* (e, r) := num4 r in Some (mkVia (v_name v) (v_rects v) (v_polys v) (v_rule v) (v_rowcol v) (v_origin v) e (v_cut v), r) | None =>
  match eat "PATTERN" ts with Some r => let* (s, r) := word r in Some (mkVia (v_name v) (v_rects v) (v_polys v) (v_rule v) (v_rowcol v) (v_origin v) (v_offset v) (Some s), r) | None =>
  None end end end end end end end.
Fixpoint read_viaopts (fuel : nat) (v : via) (ts : list tok) : option (via * list tok) :=
  match fuel with
  | O => None
  | S f => match eat ";" ts with
           | Some r => Some (v, r)
           | None => let* r := eat "+" ts in let* (v', r) := read_viaopt v r in read_viaopts f v' r
           end
  end.
Definition via0 (n : string) : via := mkVia n [] [] None (0, 0) (0, 0) (0, 0, 0, 0) None.
(* def.y:1419-1430 via_declaration *)
Definition read_via (ts : list tok) : option (via * list tok) :=
  let* r := eat "-" ts in let* (n, r) := word r in read_viaopts (S (List.length r)) (via0 n) r.

(* --- blockages: defiBlockage --- *)
(* [b_layer] None: a placement blockage.  -1: not given (defiBlockage.cpp:310-328) *)
Record blk := mkBlk { b_layer : option string; b_comp : option string; b_slots : bool; b_fills : bool; b_push : bool; b_pg : bool; b_soft : bool; b_mask : Z; b_spc : Z; b_drw : Z; b_part : Z;
                      b_rects : list box; b_polys : list (list (Z * Z)) }.
Definition flag (b : bool) (k : string) : list tok := if b then [W "+"; W k] else [].
Definition given (k : string) (n : Z) : list tok := if n =? -1 then [] else [W "+"; W k; Nu n].
Definition print_brect (p : box) : list tok := match p with (a, b, c, d) => [W "RECT"; W "("; Nu a; Nu b; W ")"; W "("; Nu c; Nu d; W ")"] end.
Definition print_bpoly (l : list (Z * Z)) : list tok := W "POLYGON" :: flat_map (fun q => [Nu (fst q); Nu (snd q)]) l.
(* defw.cpp:2769-2826 *)
Definition print_blk (b : blk) : list tok :=
  match b_layer b with
  | Some s => [W "-"; W "LAYER"; W s] ++ opt (fun c => [W "+"; W "COMPONENT"; W c]) (b_comp b) ++ flag (b_slots b) "SLOTS" ++ flag (b_fills b) "FILLS" ++ flag (b_push b) "PUSHDOWN" ++ flag (b_pg b) "EXCEPTPGNET" ++
              (if b_mask b =? 0 then [] else [W "+"; W "MASK"; Nu (b_mask b)]) ++ given "SPACING" (b_spc b) ++ given "DESIGNRULEWIDTH" (b_drw b)
  | None => [W "-"; W "PLACEMENT"] ++ flag (b_soft b) "SOFT" ++ given "PARTIAL" (if b_part b =? -1 then -1 else g6 (b_part b)) ++ opt (fun c => [W "+"; W "COMPONENT"; W c]) (b_comp b) ++ flag (b_push b) "PUSHDOWN"
  end ++ flat_map print_brect (b_rects b) ++ flat_map print_bpoly (b_polys b) ++ [W ";"].
Definition blk0 (l : option string) : blk := mkBlk l None false false false false false 0 (-1) (-1) (-1) [] [].
(* def.y:4468-4645: one option of a layer blockage; SLOTS and FILLS exclude each other, and SPACING and DESIGNRULEWIDTH *)
Definition read_lopt (ty sp : bool) (b : blk) (ts : list tok) : option (bool * bool * blk * list tok) :=
  match b with mkBlk l c s f p g o m x d q rs ps =>
  match eat "COMPONENT" ts with Some r => let* (n, r) := word r in Some (ty, sp, mkBlk l (Some n) s f p g o m x d q rs ps, r) | None =>
  match eat "SLOTS" ts with Some r => if ty then None else Some (true, sp, mkBlk l c true f p g o m x d q rs ps, r) | None =>
  match eat "FILLS" ts with Some r => if ty then None else Some (true, sp, mkBlk l c s true p g o m x d q rs ps, r) | None =>
  match eat "PUSHDOWN" ts with Some r => Some (ty, sp, mkBlk l c s f true g o m x d q rs ps, r) | None =>
  match eat "EXCEPTPGNET" ts with Some r => Some (ty, sp, mkBlk l c s f p true o m x d q rs ps, r) | None =>
  match eat "MASK" ts with Some r => let* (n, r) := num r in Some (ty, sp, mkBlk l c s f p g o n x d q rs ps, r) | None =>
  match eat "SPACING" ts with Some r => let* (n, r) := num r in if sp then None else Some (ty, true, mkBlk l c s f p g o m n d q rs ps, r) | None =>
  match eat "DESIGNRULEWIDTH" ts with Some r => let* (n, r) := num r in if sp then None else Some (ty, true, mkBlk l c s f p g o m x n q rs ps, r) | None =>
  None end end end end end end end end end.
(* def.y:4647-4752: of a placement blockage; SOFT and PARTIAL exclude each other *)
Definition read_popt (ty sp : bool) (b : blk) (ts : list tok) : option (bool * bool * blk * list tok) :=
  match b with mkBlk l c s f p g o m x d q rs ps =>
  match eat "COMPONENT" ts with Some r => let* (n, r) := word r in Some (ty, sp, mkBlk l (Some n) s f p g o m x d q rs ps, r) | None =>
  match eat "PUSHDOWN" ts with Some r => Some (ty, sp, mkBlk l c s f true g o m x d q rs ps, r) | None =>
  match eat "SOFT" ts with Some r => if ty then None else Some (true, sp, mkBlk l c s f p g true m x d q rs ps, r) | None =>
  match eat "PARTIAL" ts with Some r => let* (n, r) := num r in if ty then None else Some (true, sp, mkBlk l c s f p g o m x d n rs ps, r) | None =>
  None end end end end end.
Fixpoint read_bopts (fuel : nat) (ty sp : bool) (b : blk) (ts : list tok) : option (blk * list tok) :=
  match fuel with
  | O => None
  | S f => match eat "+" ts with
           | Some r => let* (ty', sp', b', r) := (match b_layer b with Some _ => read_lopt | None => read_popt end) ty sp b r in read_bopts f ty' sp' b' r
           | None => Some (b, ts)
           end
  end.
(* def.y:4755-4789 rectPoly_blockage: a polygon only on a layer *)
Definition add_rect (b : blk) (x : box) : blk := match b with mkBlk l c s f p g o m y d q rs ps => mkBlk l c s f p g o m y d q (rs ++ [x]) ps end.
Definition add_poly (b : blk) (x : list (Z * Z)) : blk := match b with mkBlk l c s f p g o m y d q rs ps => mkBlk l c s f p g o m y d q rs (ps ++ [x]) end.
Definition read_geom (b : blk) (ts : list tok) : option (blk * list tok) :=
  match eat "RECT" ts with
  | Some r => let* (u, v, r) := pt r in let* (w, x, r) := pt r in Some (add_rect b (u, v, w, x), r)
  | None => let* r := eat "POLYGON" ts in let* (a1, a2, r) := pt r in let* (b1, b2, r) := pt r in let* (c1, c2, r) := pt r in let* (l, r) := read_pts (S (List.length r)) r in
            let* _ := b_layer b in Some (add_poly b ((a1, a2) :: (b1, b2) :: (c1, c2) :: l), r)
  end.
Fixpoint read_geoms (fuel : nat) (b : blk) (ts : list tok) : option (blk * list tok) :=
  match fuel with
  | O => None
  | S f => match eat ";" ts with Some r => Some (b, r) | None => let* (b', r) := read_geom b ts in read_geoms f b' r end
  end.
(* def.y:4424-4463: at least one rectangle or polygon *)
Definition read_blk (ts : list tok) : option (blk * list tok) :=
  let* r := eat "-" ts in
  let* (b, r) := (match eat "LAYER" r with
                  | Some r => let* (s, r) := word r in read_bopts (S (List.length r)) false false (blk0 (Some s)) r
                  | None => let* r := eat "PLACEMENT" r in read_bopts (S (List.length r)) false false (blk0 None) r end) in
  let* (b, r) := read_geom b r in read_geoms (S (List.length r)) b r.
