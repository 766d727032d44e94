(* LEF 5.8 cut spacing rules: how they are written and what they mean.  Independent of the readers. *)
From Verif Require Import Base CspModel.
From Coq Require Import List String.
Open Scope list_scope.

Section S.
Variable T : Type.
Variable dbu int_of : T -> Z.
Variable cls : word T -> option Z.
Notation word := (word T).
Notation setting := (setting T).
Notation KW k := (@K T k).
Definition flag {A} (b : bool) (ws : list A) : list A := if b then ws else [].
Definition opt {A B} (o : option A) (f : A -> list B) : list B := match o with Some a => f a | None => [] end.

(* SPACING s [MAXXY] [SAMEMASK] [CENTERTOCENTER] [SAMENET | SAMEMETAL | SAMEVIA] *)
Inductive net_kind := NAny | NNet | NMetal | NVia.
Record head_rule := mkH { h_space : T; h_maxxy : bool; h_mask : bool; h_center : bool; h_net : net_kind }.
Definition head_words (h : head_rule) : list word :=
  [KW SPACING; Num T (h_space h)] ++ flag (h_maxxy h) [KW MAXXY] ++ flag (h_mask h) [KW SAMEMASK] ++ flag (h_center h) [KW CENTERTOCENTER] ++
  match h_net h with NAny => [] | NNet => [KW SAMENET] | NMetal => [KW SAMEMETAL] | NVia => [KW SAMEVIA] end.
Definition head_mean (h : head_rule) : list setting :=
  [CutSpacing T (dbu (h_space h))] ++ flag (h_maxxy h) [MaxXY T] ++ flag (h_mask h) [SameMask T] ++ flag (h_center h) [CenterToCenter T] ++
  match h_net h with NAny => [] | NNet => [SameNet T] | NMetal => [SameMetal T] | NVia => [SameVia T] end.
(* a cut class: its name, and its number on the layer *)
Definition class_mean (c : string) (i : Z) : list setting := [ClassName T (Other T c); ClassIdx T i].

(* head LAYER name [STACK | ORTHOGONALSPACING s | CUTCLASS c [SHORTEDGEONLY [PRL p] | CONCAVECORNER [WIDTH w ENCLOSURE e
   EDGELENGTH l | PARALLEL l WITHIN w ENCLOSURE e | EDGELENGTH l ENCLOSURE e e] | EXTENSION e | NONEOLCONVEXCORNER w [MINLENGTH l]
   | ABOVEWIDTH w [ENCLOSURE e] | MASKOVERLAP | WRONGDIRECTION]] ; *)
Inductive concave_rule := CcAny | CcWidth (w e l : T) | CcParallel (l w e : T) | CcEdge (l e a : T).
Inductive class_rule := KAny | KShort (p : option T) | KConcave (c : concave_rule) | KExt (x : T) | KNonEol (w : T) (l : option T) | KAbove (w : T) (e : option T) | KMask | KWrong.
Inductive second_rule := LAny | LStack | LOrth (x : T) | LClass (c : string) (k : class_rule).
Definition concave_words (c : concave_rule) : list word :=
  match c with
  | CcAny => []
  | CcWidth w e l => [KW WIDTH; Num T w; KW ENCLOSURE; Num T e; KW EDGELENGTH; Num T l]
  | CcParallel l w e => [KW PARALLEL; Num T l; KW WITHIN; Num T w; KW ENCLOSURE; Num T e]
  | CcEdge l e a => [KW EDGELENGTH; Num T l; KW ENCLOSURE; Num T e; Num T a]
  end.
Definition concave_mean (c : concave_rule) : list setting :=
  match c with
  | CcAny => []
  | CcWidth w e l => [Width T (dbu w); Enclosure T (dbu e); EdgeLength T (dbu l)]
  | CcParallel l w e => [ParLength T (dbu l); ParWithin T (dbu w); Enclosure T (dbu e)]
  | CcEdge l e a => [EdgeLength T (dbu l); EdgeEnclosure T (dbu e); AdjEnclosure T (dbu a)]
  end.
Definition class_words (k : class_rule) : list word :=
  match k with
  | KAny => []
  | KShort p => [KW SHORTEDGEONLY] ++ opt p (fun x => [KW PRL; Num T x])
  | KConcave c => [KW CONCAVECORNER] ++ concave_words c
  | KExt x => [KW EXTENSION; Num T x]
  | KNonEol w l => [KW NONEOLCONVEXCORNER; Num T w] ++ opt l (fun x => [KW MINLENGTH; Num T x])
  | KAbove w e => [KW ABOVEWIDTH; Num T w] ++ opt e (fun x => [KW ENCLOSURE; Num T x])
  | KMask => [KW MASKOVERLAP]
  | KWrong => [KW WRONGDIRECTION]
  end.
Definition class_rule_mean (k : class_rule) : list setting :=
  match k with
  | KAny => []
  | KShort p => [ShortEdgeOnly T] ++ opt p (fun x => [Prl T (dbu x)])
  | KConcave c => [CspModel.ConcaveCorner T] ++ concave_mean c
  | KExt x => [Extension T (dbu x)]
  | KNonEol w l => [EolWidth T (dbu w)] ++ opt l (fun x => [MinLength T (dbu x)])
  | KAbove w e => [Width T (dbu w)] ++ opt e (fun x => [Enclosure T (dbu x)])
  | KMask => [MaskOverlap T]
  | KWrong => [WrongDirection T]
  end.
Record layer_rule := mkLR { lr_head : head_rule; lr_layer : string; lr_second : second_rule }.
Definition layer_words (r : layer_rule) : list word :=
  head_words (lr_head r) ++ [KW LAYER; Other T (lr_layer r)] ++
  match lr_second r with LAny => [] | LStack => [KW STACK] | LOrth x => [KW ORTHOGONALSPACING; Num T x] | LClass c k => [KW CUTCLASS; Other T c] ++ class_words k end ++ [KW SEMI].
(* a rule for a cut class the layer does not have is left out *)
Definition layer_mean (r : layer_rule) : list (list setting) :=
  let h := head_mean (lr_head r) ++ [SecondLayer T (Other T (lr_layer r))] in
  match lr_second r with
  | LAny => [h] | LStack => [h ++ [Stack T]] | LOrth x => [h ++ [Orthogonal T (dbu x)]]
  | LClass c k => match cls (Other T c) with Some i => [h ++ class_mean c i ++ class_rule_mean k] | None => [] end
  end.

(* head ADJACENTCUTS n [EXACTALIGNED n] [TWOCUTS n [TWOCUTSSPACING s] [SAMECUT]] WITHIN [w] w [EXCEPTSAMEPGNET]
   [EXCEPTALLWITHIN w] [ENCLOSURE [ABOVE | BELOW] e] [CUTCLASS c [TO ALL]] [NOPRL | SIDEPARALLELOVERLAP] [SAMEMASK] ; *)
Record cuts_rule := mkCR { c_head : head_rule; c_num : T; c_exact : option T; c_two : option (T * option T * bool); c_within1 : option T; c_within : T; c_pg : bool; c_all : option T;
  c_encl : option (option bool * T); c_class : option (string * bool); c_prl : option bool; c_mask : bool }.
Definition side_words (o : option bool) : list word := match o with Some true => [KW ABOVE] | Some false => [KW BELOW] | None => [] end.
Definition side_mean (o : option bool) : list setting := match o with Some true => [Above T] | Some false => [Below T] | None => [] end.
Definition cuts_words (r : cuts_rule) : list word :=
  head_words (c_head r) ++ [KW ADJACENTCUTS; Num T (c_num r)] ++ opt (c_exact r) (fun x => [KW EXACTALIGNED; Num T x]) ++
  opt (c_two r) (fun t => [KW TWOCUTS; Num T (fst (fst t))] ++ opt (snd (fst t)) (fun x => [KW TWOCUTSSPACING; Num T x]) ++ flag (snd t) [KW SAMECUT]) ++
  [KW WITHIN] ++ opt (c_within1 r) (fun x => [Num T x]) ++ [Num T (c_within r)] ++ flag (c_pg r) [KW EXCEPTSAMEPGNET] ++ opt (c_all r) (fun x => [KW EXCEPTALLWITHIN; Num T x]) ++
  opt (c_encl r) (fun e => [KW ENCLOSURE] ++ side_words (fst e) ++ [Num T (snd e)]) ++ opt (c_class r) (fun c => [KW CUTCLASS; Other T (fst c)] ++ flag (snd c) [KW TO; KW ALL]) ++
  opt (c_prl r) (fun b => [KW (if b then NOPRL else SIDEPARALLELOVERLAP)]) ++ flag (c_mask r) [KW SAMEMASK] ++ [KW SEMI].
Definition cuts_settings (r : cuts_rule) (class : list setting) : list setting :=
  head_mean (c_head r) ++ [AdjacentCuts T (int_of (c_num r))] ++ opt (c_exact r) (fun x => [ExactAligned T (int_of x)]) ++
  opt (c_two r) (fun t => [TwoCuts T (int_of (fst (fst t)))] ++ opt (snd (fst t)) (fun x => [TwoCutsSpacing T (dbu x)]) ++ flag (snd t) [SameCut T]) ++
  opt (c_within1 r) (fun x => [CutWithin1 T (dbu x)]) ++ [CutWithin T (dbu (c_within r))] ++ flag (c_pg r) [ExceptSamePGNet T] ++ opt (c_all r) (fun x => [ExceptAllWithin T (dbu x)]) ++
  opt (c_encl r) (fun e => side_mean (fst e) ++ [Enclosure T (dbu (snd e))]) ++ class ++
  opt (c_prl r) (fun b => [if b then NoPrl T else SideParallelOverlap T]) ++ flag (c_mask r) [SameMask T].
Definition cuts_mean (r : cuts_rule) : list (list setting) :=
  match c_class r with
  | None => [cuts_settings r []]
  | Some (c, all) => match cls (Other T c) with Some i => [cuts_settings r (class_mean c i ++ flag all [ToAll T])] | None => [] end
  end.

(* a property: rules of these two kinds, and of kinds the router does not know *)
Inductive rule := RLayer (r : layer_rule) | RCuts (r : cuts_rule) | ROther (ws : list word).
Definition words (r : rule) : list word := match r with RLayer r => layer_words r | RCuts r => cuts_words r | ROther ws => [KW SPACING] ++ ws ++ [KW SEMI] end.
Definition mean (r : rule) : list (list setting) := match r with RLayer r => layer_mean r | RCuts r => cuts_mean r | ROther _ => [] end.
End S.
