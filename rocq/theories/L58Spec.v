(* The LEF 5.8 rules: how they are written (LEF/DEF 5.8 language reference) and what they mean.  Independent of the
   readers. *)
From Verif Require Import Base L58Model.
From Coq Require Import List String.
Open Scope list_scope.

Section S.
Variable T : Type.
Variable dbu int_of : T -> Z.
Notation word := (word T).
Notation KW k := (@K T k).
Definition flag (b : bool) (ws : list word) : list word := if b then ws else [].
Definition opt {A} (o : option A) (f : A -> list word) : list word := match o with Some a => f a | None => [] end.

(* SPACINGTABLE PARALLELRUNLENGTH [WRONGDIRECTION] [SAMEMASK] [EXCEPTEOL w] {length}... {WIDTH w [EXCEPTWITHIN lo hi] {spacing}...}... ; *)
Record prl_rule := mkT { t_wrong : bool; t_mask : bool; t_eol : option T; t_lens : list T; t_rows : list (T * option (T * T) * list T) }.
Definition prl_row (r : T * option (T * T) * list T) : list word :=
  [KW WIDTH; Num (fst (fst r))] ++ opt (snd (fst r)) (fun e => [KW EXCEPTWITHIN; Num (fst e); Num (snd e)]) ++ map Num (snd r).
Definition prl_words (r : prl_rule) : list word :=
  [KW SPACINGTABLE; KW PARALLELRUNLENGTH] ++ flag (t_wrong r) [KW WRONGDIRECTION] ++ flag (t_mask r) [KW SAMEMASK] ++ opt (t_eol r) (fun x => [KW EXCEPTEOL; Num x]) ++
  map Num (t_lens r) ++ flat_map prl_row (t_rows r) ++ [KW SEMI].
Fixpoint exceptions (i : Z) (rows : list (T * option (T * T) * list T)) : list (Z * (Z * Z)) :=
  match rows with
  | [] => []
  | r :: rows => match snd (fst r) with Some e => [(i, (dbu (fst e), dbu (snd e)))] | None => [] end ++ exceptions (i + 1) rows
  end.
Definition prl_mean (r : prl_rule) : prl_con :=
  mkPrl (map (fun r => dbu (fst (fst r))) (t_rows r)) (map dbu (t_lens r)) (map (fun r => map dbu (snd r)) (t_rows r)) (exceptions 0 (t_rows r)) (t_wrong r) (t_mask r) (option_map dbu (t_eol r)).
(* another kind of table *)
Definition plain (ws : list word) : Prop := forall k, In (KW k) ws -> k <> SPACINGTABLE /\ k <> PARALLELRUNLENGTH /\ k <> SEMI.
Definition other_table (ws : list word) : list word := [KW SPACINGTABLE] ++ ws ++ [KW SEMI].

(* SPACING s ENDOFLINE w [EXACTWIDTH] [WRONGDIRSPACING s] [OPPOSITEWIDTH w] WITHIN d [d] [SAMEMASK] [EXCEPTEXACTWIDTH w w]
   [FILLCONCAVECORNER t] [WITHCUT s] [ENDPRLSPACING s PRL p] [ENDTOEND s [s s] [EXTENSION e [e]] [OTHERENDWIDTH w]]
   [MAXLENGTH l | MINLENGTH l [TWOSIDES]] [EQUALRECTWIDTH]
   [PARALLELEDGE [SUBTRACTEOLWIDTH] s WITHIN d [PRL p] [MINLENGTH l] [TWOEDGES] [SAMEMETAL] [NONEOLCORNERONLY] [PARALLELSAMEMASK]]
   [ENCLOSECUT [BELOW|ABOVE] d CUTSPACING s [ALLCUTS]] ; *)
Record ete_rule := mkER { xr_space : T; xr_cut : option (T * T); xr_ext : option (T * option T); xr_other : option T }.
Record par_rule := mkPR { yr_sub : bool; yr_space : T; yr_within : T; yr_prl : option T; yr_min : option T; yr_two : bool; yr_metal : bool; yr_nonEol : bool; yr_mask : bool }.
Record eol_rule := mkL { l_space : T; l_width : T; l_exact : bool; l_wrong : option T; l_opp : option T; l_within : T; l_wrongWithin : option T; l_mask : bool;
  l_exceptExact : option (T * T); l_fill : option T; l_cut : option T; l_endPrl : option (T * T); l_ete : option ete_rule; l_len : option (bool * T * bool);
  l_equal : bool; l_par : option par_rule; l_enclose : option (string * T * T * bool) }.
Definition ete_words (e : ete_rule) : list word :=
  [KW ENDTOEND; Num (xr_space e)] ++ opt (xr_cut e) (fun c => [Num (fst c); Num (snd c)]) ++
  opt (xr_ext e) (fun x => [KW EXTENSION; Num (fst x)] ++ opt (snd x) (fun y => [Num y])) ++ opt (xr_other e) (fun w => [KW OTHERENDWIDTH; Num w]).
Definition par_words (p : par_rule) : list word :=
  [KW PARALLELEDGE] ++ flag (yr_sub p) [KW SUBTRACTEOLWIDTH] ++ [Num (yr_space p); KW WITHIN; Num (yr_within p)] ++ opt (yr_prl p) (fun x => [KW PRL; Num x]) ++
  opt (yr_min p) (fun x => [KW MINLENGTH; Num x]) ++ flag (yr_two p) [KW TWOEDGES] ++ flag (yr_metal p) [KW SAMEMETAL] ++ flag (yr_nonEol p) [KW NONEOLCORNERONLY] ++ flag (yr_mask p) [KW PARALLELSAMEMASK].
Definition eol_words (r : eol_rule) : list word :=
  [KW SPACING; Num (l_space r); KW ENDOFLINE; Num (l_width r)] ++ flag (l_exact r) [KW EXACTWIDTH] ++ opt (l_wrong r) (fun x => [KW WRONGDIRSPACING; Num x]) ++
  opt (l_opp r) (fun x => [KW OPPOSITEWIDTH; Num x]) ++ [KW WITHIN; Num (l_within r)] ++ opt (l_wrongWithin r) (fun x => [Num x]) ++ flag (l_mask r) [KW SAMEMASK] ++
  opt (l_exceptExact r) (fun x => [KW EXCEPTEXACTWIDTH; Num (fst x); Num (snd x)]) ++ opt (l_fill r) (fun x => [KW FILLCONCAVECORNER; Num x]) ++
  opt (l_cut r) (fun x => [KW WITHCUT; Num x]) ++ opt (l_endPrl r) (fun x => [KW ENDPRLSPACING; Num (fst x); KW PRL; Num (snd x)]) ++ opt (l_ete r) ete_words ++
  opt (l_len r) (fun x => [KW (if fst (fst x) then MAXLENGTH else MINLENGTH); Num (snd (fst x))] ++ flag (snd x) [KW TWOSIDES]) ++ flag (l_equal r) [KW EQUALRECTWIDTH] ++
  opt (l_par r) par_words ++ opt (l_enclose r) (fun x => [KW ENCLOSECUT; Other (fst (fst (fst x))); Num (snd (fst (fst x))); Other "CUTSPACING"; Num (snd (fst x))] ++ flag (snd x) [Other "ALLCUTS"%string]) ++ [KW SEMI].
Definition ete_mean (e : ete_rule) : ete_con :=
  mkEte (dbu (xr_space e)) (option_map (fun c => (dbu (fst c), dbu (snd c))) (xr_cut e))
    (option_map (fun x => (dbu (fst x), match snd x with Some y => dbu y | None => dbu (fst x) end)) (xr_ext e)) (option_map dbu (xr_other e)).
Definition par_mean (p : par_rule) : par_con :=
  mkPar (yr_sub p) (dbu (yr_space p)) (dbu (yr_within p)) (option_map dbu (yr_prl p)) (option_map dbu (yr_min p)) (yr_two p) (yr_metal p) (yr_nonEol p) (yr_mask p).
(* rules with a clause the router does not know are to be left out *)
Definition eol_known (r : eol_rule) : bool :=
  match l_exceptExact r, l_fill r, l_endPrl r, l_enclose r with None, None, None, None => negb (l_equal r) | _, _, _, _ => false end.
Definition eol_mean (r : eol_rule) : list eol_con :=
  if eol_known r then [mkEol (dbu (l_space r)) (dbu (l_width r)) (l_exact r) (option_map dbu (l_wrong r)) (option_map dbu (l_opp r)) (dbu (l_within r))
    (match l_wrongWithin r with Some x => dbu x | None => dbu (l_within r) end) (l_mask r) (option_map ete_mean (l_ete r)) (option_map par_mean (l_par r))
    (option_map (fun x => (fst (fst x), dbu (snd (fst x)), snd x)) (l_len r))] else [].
(* a property with several rules; other kinds of spacing rules are not end-of-line rules *)
Inductive spc_rule := SEol (r : eol_rule) | SOther (ws : list word).
Definition spc_words (r : spc_rule) : list word := match r with SEol r => eol_words r | SOther ws => [KW SPACING] ++ ws ++ [KW SEMI] end.
Definition spc_mean (r : spc_rule) : list eol_con := match r with SEol r => eol_mean r | SOther _ => [] end.

(* MINSTEP l [MAXEDGES n [MINADJACENTLENGTH l]] [NOBETWEENEOL w] ; with clauses the router does not know at the end *)
Record ms_rule := mkM { mr_len : T; mr_edges : option (T * option T); mr_eol : option T; mr_more : list string }.
Definition ms_words (r : ms_rule) : list word :=
  [KW MINSTEP; Num (mr_len r)] ++ opt (mr_edges r) (fun e => [KW MAXEDGES; Num (fst e)] ++ opt (snd e) (fun a => [KW MINADJACENTLENGTH; Num a])) ++
  opt (mr_eol r) (fun w => [KW NOBETWEENEOL; Num w]) ++ map Other (mr_more r) ++ [KW SEMI].
(* -1: not given *)
Definition given (f : T -> Z) (o : option T) : Z := match o with Some x => f x | None => -1 end.
Definition mr_adj (r : ms_rule) : option T := match mr_edges r with Some (_, a) => a | None => None end.
Definition ms_mean (r : ms_rule) : list ms_con :=
  match mr_more r with [] => [mkMs (dbu (mr_len r)) (given int_of (option_map fst (mr_edges r))) (given dbu (mr_adj r)) (given dbu (mr_eol r))] | _ => [] end.
(* what [a] gives, [b] gives *)
Definition gives_as (a b : ms_rule) : Prop := (mr_edges a <> None -> mr_edges b <> None) /\ (mr_adj a <> None -> mr_adj b <> None) /\ (mr_eol a <> None -> mr_eol b <> None).

(* CUTCLASS name WIDTH w [LENGTH l] [CUTS n] ; *)
Record cc_rule := mkQ { qr_name : word; qr_width : T; qr_length : option T; qr_cuts : option T }.
Definition cc_words (r : cc_rule) : list word :=
  [KW CUTCLASS; qr_name r; KW WIDTH; Num (qr_width r)] ++ opt (qr_length r) (fun x => [KW LENGTH; Num x]) ++ opt (qr_cuts r) (fun x => [KW CUTS; Num x]) ++ [KW SEMI].
Definition cc_mean (r : cc_rule) : cc_con T :=
  mkCc T (Some (qr_name r)) (dbu (qr_width r)) (match qr_length r with Some x => dbu x | None => dbu (qr_width r) end) (match qr_cuts r with Some x => int_of x | None => 1 end).

(* CORNERSPACING {CONVEXCORNER [SAMEMASK] [CORNERONLY d] [EXCEPTEOL w [EXCEPTJOGLENGTH l [EDGELENGTH] [INCLUDELSHAPE]]]
   | CONCAVECORNER [MINLENGTH l [EXCEPTNOTCH [l]]]} [EXCEPTSAMENET | EXCEPTSAMEMETAL] {WIDTH w SPACING s [s]}... ; *)
Inductive ck_rule := RConvex (mask : bool) (only : option T) (eol : option (T * option (T * bool * bool))) | RConcave (min : option (T * option (option T))).
Inductive except := ExNone | ExNet | ExMetal.
Record co_rule := mkR { or_kind : ck_rule; or_ex : except; or_rows : list (T * T * option T) }.
Definition co_words (r : co_rule) : list word :=
  [KW CORNERSPACING] ++
  match or_kind r with
  | RConvex m o e => [KW CONVEXCORNER] ++ flag m [KW SAMEMASK] ++ opt o (fun x => [KW CORNERONLY; Num x]) ++
      opt e (fun e => [KW EXCEPTEOL; Num (fst e)] ++ opt (snd e) (fun j => [KW EXCEPTJOGLENGTH; Num (fst (fst j))] ++ flag (snd (fst j)) [KW EDGELENGTH] ++ flag (snd j) [KW INCLUDELSHAPE]))
  | RConcave m => [KW CONCAVECORNER] ++ opt m (fun m => [KW MINLENGTH; Num (fst m)] ++ opt (snd m) (fun n => [KW EXCEPTNOTCH] ++ opt n (fun x => [Num x])))
  end ++
  match or_ex r with ExNone => [] | ExNet => [KW EXCEPTSAMENET] | ExMetal => [KW EXCEPTSAMEMETAL] end ++
  flat_map (fun w => [KW WIDTH; Num (fst (fst w)); KW SPACING; Num (snd (fst w))] ++ opt (snd w) (fun x => [Num x])) (or_rows r) ++ [KW SEMI].
Definition co_mean (r : co_rule) : corner_con :=
  mkCo match or_kind r with
       | RConvex m o e => Convex m (option_map dbu o) (option_map (fun e => dbu (fst e)) e) (match e with Some (_, Some j) => Some (dbu (fst (fst j)), snd (fst j), snd j) | _ => None end)
       | RConcave m => Concave (option_map (fun m => dbu (fst m)) m) (match m with Some (_, Some _) => true | _ => false end) (match m with Some (_, Some (Some x)) => Some (dbu x) | _ => None end)
       end
    (match or_ex r with ExNet => true | _ => false end) (match or_ex r with ExMetal => true | _ => false end) (forallb (fun w => match snd w with None => true | _ => false end) (or_rows r))
    (map (fun w => (dbu (fst (fst w)), (dbu (snd (fst w)), match snd w with Some y => dbu y | None => dbu (snd (fst w)) end))) (or_rows r)).
End S.
