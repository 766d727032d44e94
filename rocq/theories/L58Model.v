(* Reading of LEF 5.8 rules from properties of routing layers and of cut classes (src/io/io.cpp:1125-1960, 3168-3493).
   A property is a list of words separated by blanks.  A word is a keyword, a number or another word.  [dbu] is
   frCoord(round(x * DBUPerUU)), [int_of] the value read into an int.  A failed `istr >> number` leaves the stream bad,
   so the loop ends.  stod of a word that is not a number throws (None); nothing catches it.  Messages are not modelled. *)
From Verif Require Import Base.
From Coq Require Import List String.
Open Scope list_scope.

Inductive kw := SPACING | SPACINGTABLE | PARALLELRUNLENGTH | WRONGDIRECTION | SAMEMASK | EXCEPTEOL | EXCEPTWITHIN | WIDTH | SEMI | ENDOFLINE | EOLPERPENDICULAR | AREA | LAYER | NOTCHLENGTH | NOTCHSPAN | CONVEXCORNERS | TOCONCAVECORNER | TONOTCHLENGTH | EXACTWIDTH | WRONGDIRSPACING | OPPOSITEWIDTH | WITHIN | EXCEPTEXACTWIDTH | FILLCONCAVECORNER | WITHCUT | ENDPRLSPACING | ENDTOEND | MAXLENGTH | MINLENGTH | TWOSIDES | EQUALRECTWIDTH | PARALLELEDGE | SUBTRACTEOLWIDTH | ENCLOSECUT | EXTENSION | OTHERENDWIDTH | PRL | TWOEDGES | SAMEMETAL | NONEOLCORNERONLY | PARALLELSAMEMASK | MINSTEP | MAXEDGES | MINADJACENTLENGTH | NOBETWEENEOL | CUTCLASS | LENGTH | CUTS | RECTONLY | EXCEPTNONCOREPINS | RIGHTWAYONGRIDONLY | CHECKMASK | CORNERSPACING | CONVEXCORNER | CONCAVECORNER | EXCEPTSAMENET | EXCEPTSAMEMETAL | CORNERONLY | EXCEPTJOGLENGTH | EDGELENGTH | INCLUDELSHAPE | EXCEPTNOTCH.
Section L58.
Variable T : Type.                                                    (* the numbers of the text *)
Variable dbu int_of : T -> Z.
Inductive word := K (k : kw) | Num (x : T) | Other (s : string).

(* ---- 1125-1251 getLef58SpacingTable_parallelRunLength ---- *)
Record prl_con := mkPrl { p_rows : list Z; p_cols : list Z; p_vals : list (list Z); p_within : list (Z * (Z * Z)); p_wrong : bool; p_mask : bool; p_exceptEol : option Z }.
(* mask, exceptions (std::map, last write wins: kept as a list of writes), rows, columns, rows of the table, current row,
   stage = 1 *)
Fixpoint prl_go (ws : list word) (mask : bool) (lo hi : Z) (ew : list (Z * (Z * Z))) (rows cols : list Z) (tbl : list (list Z)) (cur : list Z) (st1 : bool) : option prl_con :=
  let done ew rows tbl := Some (mkPrl rows cols tbl ew false mask None) in
  match ws with
  | [] => done ew rows tbl
  | K WRONGDIRECTION :: r => prl_go r mask lo hi ew rows cols tbl cur st1
  | K SAMEMASK :: r => prl_go r true lo hi ew rows cols tbl cur st1
  | K EXCEPTEOL :: r => match r with Num _ :: r => prl_go r mask lo hi ew rows cols tbl cur st1 | _ => done ew rows tbl end
  | K EXCEPTWITHIN :: r =>
    match r with
    | Num a :: r' => match r' with
                     | Num b :: r'' => prl_go r'' mask (dbu a) (dbu b) (ew ++ [(Z.of_nat (List.length rows) - 1, (dbu a, dbu b))]) rows cols tbl cur st1
                     | _ => done (ew ++ [(Z.of_nat (List.length rows) - 1, (dbu a, hi))]) rows tbl
                     end
    | _ => done (ew ++ [(Z.of_nat (List.length rows) - 1, (lo, hi))]) rows tbl
    end
  | K WIDTH :: r =>
    let tbl := match cur with [] => tbl | _ => tbl ++ [cur] end in
    match r with Num x :: r => prl_go r mask lo hi ew (rows ++ [dbu x]) cols tbl [] true | _ => done ew rows tbl end
  | K SEMI :: r => if st1 && negb (match cur with [] => true | _ => false end) then prl_go r mask lo hi ew rows cols (tbl ++ [cur]) [] st1
                   else prl_go r mask lo hi ew rows cols tbl cur st1
  | Num x :: r => if st1 then prl_go r mask lo hi ew rows cols tbl (cur ++ [dbu x]) st1 else prl_go r mask lo hi ew rows (cols ++ [dbu x]) tbl cur st1
  | _ :: _ => None
  end.
Definition prl_read (ws : list word) : option prl_con := prl_go ws false 0 0 [] [] [] [] [] false.
(* 1254-1288 getLef58SpacingTable: [ss] the collected words, [k] keyword is PARALLELRUNLENGTH *)
Definition ocons {A} (o : option A) (l : option (list A)) : option (list A) := match o, l with Some a, Some l => Some (a :: l) | _, _ => None end.
Fixpoint table_go (ws ss : list word) (k : bool) : option (list prl_con) :=
  match ws with
  | [] => Some []
  | K SPACINGTABLE :: r => table_go r [] k
  | K PARALLELRUNLENGTH :: r => table_go r ss true
  | K SEMI :: r => if k then ocons (prl_read (ss ++ [K SEMI])) (table_go r (ss ++ [K SEMI]) k) else table_go r (ss ++ [K SEMI]) k
  | w :: r => table_go r (ss ++ [w]) k
  end.
Definition spacing_table (ws : list word) : option (list prl_con) := table_go ws [] false.

(* ---- 1291-1729 getLef58Spacing_endOfLineWithin ---- *)
(* the local variables; has... and its value together as an option *)
Record est := mkE { e_space : Z; e_width : Z; e_exact : bool; e_wds : option Z; e_opp : option Z; e_within : Z; e_ww : option Z; e_mask : bool; e_ete : option Z; e_cut : option (Z * Z); e_ext : option Z; e_wext : option Z; e_oew : option Z; e_len : option (bool * Z); e_two : bool; e_par : bool; e_sub : bool; e_pspace : Z; e_pwithin : Z; e_prl : option Z; e_pmin : option Z; e_te : bool; e_sm : bool; e_ne : bool; e_ps : bool; e_skip : bool }.
Definition set_e_space (v : Z) (s : est) : est := mkE v (e_width s) (e_exact s) (e_wds s) (e_opp s) (e_within s) (e_ww s) (e_mask s) (e_ete s) (e_cut s) (e_ext s) (e_wext s) (e_oew s) (e_len s) (e_two s) (e_par s) (e_sub s) (e_pspace s) (e_pwithin s) (e_prl s) (e_pmin s) (e_te s) (e_sm s) (e_ne s) (e_ps s) (e_skip s).
Definition set_e_width (v : Z) (s : est) : est := mkE (e_space s) v (e_exact s) (e_wds s) (e_opp s) (e_within s) (e_ww s) (e_mask s) (e_ete s) (e_cut s) (e_ext s) (e_wext s) (e_oew s) (e_len s) (e_two s) (e_par s) (e_sub s) (e_pspace s) (e_pwithin s) (e_prl s) (e_pmin s) (e_te s) (e_sm s) (e_ne s) (e_ps s) (e_skip s).
Definition set_e_exact (v : bool) (s : est) : est := mkE (e_space s) (e_width s) v (e_wds s) (e_opp s) (e_within s) (e_ww s) (e_mask s) (e_ete s) (e_cut s) (e_ext s) (e_wext s) (e_oew s) (e_len s) (e_two s) (e_par s) (e_sub s) (e_pspace s) (e_pwithin s) (e_prl s) (e_pmin s) (e_te s) (e_sm s) (e_ne s) (e_ps s) (e_skip s).
Definition set_e_wds (v : option Z) (s : est) : est := mkE (e_space s) (e_width s) (e_exact s) v (e_opp s) (e_within s) (e_ww s) (e_mask s) (e_ete s) (e_cut s) (e_ext s) (e_wext s) (e_oew s) (e_len s) (e_two s) (e_par s) (e_sub s) (e_pspace s) (e_pwithin s) (e_prl s) (e_pmin s) (e_te s) (e_sm s) (e_ne s) (e_ps s) (e_skip s).
Definition set_e_opp (v : option Z) (s : est) : est := mkE (e_space s) (e_width s) (e_exact s) (e_wds s) v (e_within s) (e_ww s) (e_mask s) (e_ete s) (e_cut s) (e_ext s) (e_wext s) (e_oew s) (e_len s) (e_two s) (e_par s) (e_sub s) (e_pspace s) (e_pwithin s) (e_prl s) (e_pmin s) (e_te s) (e_sm s) (e_ne s) (e_ps s) (e_skip s).
Definition set_e_within (v : Z) (s : est) : est := mkE (e_space s) (e_width s) (e_exact s) (e_wds s) (e_opp s) v (e_ww s) (e_mask s) (e_ete s) (e_cut s) (e_ext s) (e_wext s) (e_oew s) (e_len s) (e_two s) (e_par s) (e_sub s) (e_pspace s) (e_pwithin s) (e_prl s) (e_pmin s) (e_te s) (e_sm s) (e_ne s) (e_ps s) (e_skip s).
Definition set_e_ww (v : option Z) (s : est) : est := mkE (e_space s) (e_width s) (e_exact s) (e_wds s) (e_opp s) (e_within s) v (e_mask s) (e_ete s) (e_cut s) (e_ext s) (e_wext s) (e_oew s) (e_len s) (e_two s) (e_par s) (e_sub s) (e_pspace s) (e_pwithin s) (e_prl s) (e_pmin s) (e_te s) (e_sm s) (e_ne s) (e_ps s) (e_skip s).
Definition set_e_mask (v : bool) (s : est) : est := mkE (e_space s) (e_width s) (e_exact s) (e_wds s) (e_opp s) (e_within s) (e_ww s) v (e_ete s) (e_cut s) (e_ext s) (e_wext s) (e_oew s) (e_len s) (e_two s) (e_par s) (e_sub s) (e_pspace s) (e_pwithin s) (e_prl s) (e_pmin s) (e_te s) (e_sm s) (e_ne s) (e_ps s) (e_skip s).
Definition set_e_ete (v : option Z) (s : est) : est := mkE (e_space s) (e_width s) (e_exact s) (e_wds s) (e_opp s) (e_within s) (e_ww s) (e_mask s) v (e_cut s) (e_ext s) (e_wext s) (e_oew s) (e_len s) (e_two s) (e_par s) (e_sub s) (e_pspace s) (e_pwithin s) (e_prl s) (e_pmin s) (e_te s) (e_sm s) (e_ne s) (e_ps s) (e_skip s).
Definition set_e_cut (v : option (Z * Z)) (s : est) : est := mkE (e_space s) (e_width s) (e_exact s) (e_wds s) (e_opp s) (e_within s) (e_ww s) (e_mask s) (e_ete s) v (e_ext s) (e_wext s) (e_oew s) (e_len s) (e_two s) (e_par s) (e_sub s) (e_pspace s) (e_pwithin s) (e_prl s) (e_pmin s) (e_te s) (e_sm s) (e_ne s) (e_ps s) (e_skip s).
Definition set_e_ext (v : option Z) (s : est) : est := mkE (e_space s) (e_width s) (e_exact s) (e_wds s) (e_opp s) (e_within s) (e_ww s) (e_mask s) (e_ete s) (e_cut s) v (e_wext s) (e_oew s) (e_len s) (e_two s) (e_par s) (e_sub s) (e_pspace s) (e_pwithin s) (e_prl s) (e_pmin s) (e_te s) (e_sm s) (e_ne s) (e_ps s) (e_skip s).
Definition set_e_wext (v : option Z) (s : est) : est := mkE (e_space s) (e_width s) (e_exact s) (e_wds s) (e_opp s) (e_within s) (e_ww s) (e_mask s) (e_ete s) (e_cut s) (e_ext s) v (e_oew s) (e_len s) (e_two s) (e_par s) (e_sub s) (e_pspace s) (e_pwithin s) (e_prl s) (e_pmin s) (e_te s) (e_sm s) (e_ne s) (e_ps s) (e_skip s).
Definition set_e_oew (v : option Z) (s : est) : est := mkE (e_space s) (e_width s) (e_exact s) (e_wds s) (e_opp s) (e_within s) (e_ww s) (e_mask s) (e_ete s) (e_cut s) (e_ext s) (e_wext s) v (e_len s) (e_two s) (e_par s) (e_sub s) (e_pspace s) (e_pwithin s) (e_prl s) (e_pmin s) (e_te s) (e_sm s) (e_ne s) (e_ps s) (e_skip s).
Definition set_e_len (v : option (bool * Z)) (s : est) : est := mkE (e_space s) (e_width s) (e_exact s) (e_wds s) (e_opp s) (e_within s) (e_ww s) (e_mask s) (e_ete s) (e_cut s) (e_ext s) (e_wext s) (e_oew s) v (e_two s) (e_par s) (e_sub s) (e_pspace s) (e_pwithin s) (e_prl s) (e_pmin s) (e_te s) (e_sm s) (e_ne s) (e_ps s) (e_skip s).
Definition set_e_two (v : bool) (s : est) : est := mkE (e_space s) (e_width s) (e_exact s) (e_wds s) (e_opp s) (e_within s) (e_ww s) (e_mask s) (e_ete s) (e_cut s) (e_ext s) (e_wext s) (e_oew s) (e_len s) v (e_par s) (e_sub s) (e_pspace s) (e_pwithin s) (e_prl s) (e_pmin s) (e_te s) (e_sm s) (e_ne s) (e_ps s) (e_skip s).
Definition set_e_par (v : bool) (s : est) : est := mkE (e_space s) (e_width s) (e_exact s) (e_wds s) (e_opp s) (e_within s) (e_ww s) (e_mask s) (e_ete s) (e_cut s) (e_ext s) (e_wext s) (e_oew s) (e_len s) (e_two s) v (e_sub s) (e_pspace s) (e_pwithin s) (e_prl s) (e_pmin s) (e_te s) (e_sm s) (e_ne s) (e_ps s) (e_skip s).
Definition set_e_sub (v : bool) (s : est) : est := mkE (e_space s) (e_width s) (e_exact s) (e_wds s) (e_opp s) (e_within s) (e_ww s) (e_mask s) (e_ete s) (e_cut s) (e_ext s) (e_wext s) (e_oew s) (e_len s) (e_two s) (e_par s) v (e_pspace s) (e_pwithin s) (e_prl s) (e_pmin s) (e_te s) (e_sm s) (e_ne s) (e_ps s) (e_skip s).
Definition set_e_pspace (v : Z) (s : est) : est := mkE (e_space s) (e_width s) (e_exact s) (e_wds s) (e_opp s) (e_within s) (e_ww s) (e_mask s) (e_ete s) (e_cut s) (e_ext s) (e_wext s) (e_oew s) (e_len s) (e_two s) (e_par s) (e_sub s) v (e_pwithin s) (e_prl s) (e_pmin s) (e_te s) (e_sm s) (e_ne s) (e_ps s) (e_skip s).
Definition set_e_pwithin (v : Z) (s : est) : est := mkE (e_space s) (e_width s) (e_exact s) (e_wds s) (e_opp s) (e_within s) (e_ww s) (e_mask s) (e_ete s) (e_cut s) (e_ext s) (e_wext s) (e_oew s) (e_len s) (e_two s) (e_par s) (e_sub s) (e_pspace s) v (e_prl s) (e_pmin s) (e_te s) (e_sm s) (e_ne s) (e_ps s) (e_skip s).
Definition set_e_prl (v : option Z) (s : est) : est := mkE (e_space s) (e_width s) (e_exact s) (e_wds s) (e_opp s) (e_within s) (e_ww s) (e_mask s) (e_ete s) (e_cut s) (e_ext s) (e_wext s) (e_oew s) (e_len s) (e_two s) (e_par s) (e_sub s) (e_pspace s) (e_pwithin s) v (e_pmin s) (e_te s) (e_sm s) (e_ne s) (e_ps s) (e_skip s).
Definition set_e_pmin (v : option Z) (s : est) : est := mkE (e_space s) (e_width s) (e_exact s) (e_wds s) (e_opp s) (e_within s) (e_ww s) (e_mask s) (e_ete s) (e_cut s) (e_ext s) (e_wext s) (e_oew s) (e_len s) (e_two s) (e_par s) (e_sub s) (e_pspace s) (e_pwithin s) (e_prl s) v (e_te s) (e_sm s) (e_ne s) (e_ps s) (e_skip s).
Definition set_e_te (v : bool) (s : est) : est := mkE (e_space s) (e_width s) (e_exact s) (e_wds s) (e_opp s) (e_within s) (e_ww s) (e_mask s) (e_ete s) (e_cut s) (e_ext s) (e_wext s) (e_oew s) (e_len s) (e_two s) (e_par s) (e_sub s) (e_pspace s) (e_pwithin s) (e_prl s) (e_pmin s) v (e_sm s) (e_ne s) (e_ps s) (e_skip s).
Definition set_e_sm (v : bool) (s : est) : est := mkE (e_space s) (e_width s) (e_exact s) (e_wds s) (e_opp s) (e_within s) (e_ww s) (e_mask s) (e_ete s) (e_cut s) (e_ext s) (e_wext s) (e_oew s) (e_len s) (e_two s) (e_par s) (e_sub s) (e_pspace s) (e_pwithin s) (e_prl s) (e_pmin s) (e_te s) v (e_ne s) (e_ps s) (e_skip s).
Definition set_e_ne (v : bool) (s : est) : est := mkE (e_space s) (e_width s) (e_exact s) (e_wds s) (e_opp s) (e_within s) (e_ww s) (e_mask s) (e_ete s) (e_cut s) (e_ext s) (e_wext s) (e_oew s) (e_len s) (e_two s) (e_par s) (e_sub s) (e_pspace s) (e_pwithin s) (e_prl s) (e_pmin s) (e_te s) (e_sm s) v (e_ps s) (e_skip s).
Definition set_e_ps (v : bool) (s : est) : est := mkE (e_space s) (e_width s) (e_exact s) (e_wds s) (e_opp s) (e_within s) (e_ww s) (e_mask s) (e_ete s) (e_cut s) (e_ext s) (e_wext s) (e_oew s) (e_len s) (e_two s) (e_par s) (e_sub s) (e_pspace s) (e_pwithin s) (e_prl s) (e_pmin s) (e_te s) (e_sm s) (e_ne s) v (e_skip s).
Definition set_e_skip (v : bool) (s : est) : est := mkE (e_space s) (e_width s) (e_exact s) (e_wds s) (e_opp s) (e_within s) (e_ww s) (e_mask s) (e_ete s) (e_cut s) (e_ext s) (e_wext s) (e_oew s) (e_len s) (e_two s) (e_par s) (e_sub s) (e_pspace s) (e_pwithin s) (e_prl s) (e_pmin s) (e_te s) (e_sm s) (e_ne s) (e_ps s) v.
Definition est0 : est := mkE 0 0 false None None 0 None false None None None None None None false false false 0 0 None None false false false false false.
(* what one word does: go on in a stage, take a number ([bad] if there is
   none: the loop ends with the values there are), take the words of a parallel edge, or throw *)
Inductive estep := EGo (stage : Z) (s : est) | ETake (stage : Z) (f : Z -> est -> est) (s bad : est) | EPar (s : est) | EThrow.
(* a value that is there stays, or is 0 *)
Definition keep (o : option Z) : option Z := Some (match o with Some v => v | None => 0 end).
(* 1549-1652 a word that is no heading, by the stage: after WITHIN (1), ENDTOEND (2), its EXTENSION (20), a parallel edge (3) *)
Definition eol_other (stage : Z) (w : word) (s : est) : estep :=
  if stage =? 1 then match w with Num x => EGo 0 (set_e_ww (Some (dbu x)) s) | _ => EThrow end
  else if stage =? 2 then
    match w with
    | K EXTENSION => ETake 20 (fun x => set_e_ext (Some x)) s (set_e_ext (keep (e_ext s)) s)
    | K OTHERENDWIDTH => ETake 2 (fun x => set_e_oew (Some x)) s (set_e_oew (keep (e_oew s)) s)
    | Num x => ETake 2 (fun y => set_e_cut (Some (dbu x, y))) s (set_e_cut (Some (dbu x, match e_cut s with Some c => snd c | None => 0 end)) s)
    | _ => EThrow
    end
  else if stage =? 20 then match w with Num x => EGo 2 (set_e_wext (Some (dbu x)) s) | _ => EThrow end
  else if stage =? 3 then
    match w with
    | K PRL => ETake 3 (fun x => set_e_prl (Some x)) s (set_e_prl (keep (e_prl s)) s)
    | K MINLENGTH => ETake 3 (fun x => set_e_pmin (Some x)) s (set_e_pmin (keep (e_pmin s)) s)
    | K TWOEDGES => EGo 3 (set_e_te true s)
    | K SAMEMETAL => EGo 3 (set_e_sm true s)
    | K NONEOLCORNERONLY => EGo 3 (set_e_ne true s)
    | K PARALLELSAMEMASK => EGo 3 (set_e_ps true s)
    | _ => EGo 3 s
    end
  else EGo stage s.
Definition eol_word (stage : Z) (w : word) (s : est) : estep :=
  match w with
  | K SPACING => ETake 0 set_e_space s s
  | K ENDOFLINE => ETake 0 set_e_width s s
  | K EXACTWIDTH => EGo 0 (set_e_exact true s)
  | K WRONGDIRSPACING => ETake 0 (fun x => set_e_wds (Some x)) s (set_e_wds (keep (e_wds s)) s)
  | K OPPOSITEWIDTH => ETake 0 (fun x => set_e_opp (Some x)) s (set_e_opp (keep (e_opp s)) s)
  | K WITHIN => ETake 1 set_e_within s s
  | K SAMEMASK => EGo 0 (set_e_mask true s)
  | K EXCEPTEXACTWIDTH | K FILLCONCAVECORNER | K ENDPRLSPACING | K EQUALRECTWIDTH | K ENCLOSECUT => EGo 0 (set_e_skip true s)
  | K WITHCUT => EGo 0 s
  | K ENDTOEND => ETake 2 (fun x => set_e_ete (Some x)) s (set_e_ete (keep (e_ete s)) s)
  | K MAXLENGTH => ETake 0 (fun x => set_e_len (Some (true, x))) s (set_e_len (Some (true, match e_len s with Some l => snd l | None => 0 end)) s)
  | K MINLENGTH => if stage =? 3 then eol_other stage w s else ETake 0 (fun x => set_e_len (Some (false, x))) s (set_e_len (Some (false, match e_len s with Some l => snd l | None => 0 end)) s)
  | K TWOSIDES => EGo 0 (set_e_two true s)
  | K PARALLELEDGE => EPar (set_e_par true s)
  | K SEMI => EGo 0 s
  | _ => eol_other stage w s
  end.
Definition is_within (w : word) : bool := match w with K WITHIN => true | _ => false end.
Definition is_sub (w : word) : bool := match w with K SUBTRACTEOLWIDTH => true | _ => false end.
(* 1352-1655 *)
Fixpoint eol_go (ws : list word) (stage : Z) (s : est) : option est :=
  match ws with
  | [] => Some s
  | w :: r =>
    match eol_word stage w s with
    | EGo st s => eol_go r st s
    | ETake st f s bad => match r with Num x :: r => eol_go r st (f (dbu x) s) | _ => Some bad end
    | EPar s =>
      let within s r := match r with
                        | [] => Some s
                        | w :: r => if is_within w then match r with Num x :: r => eol_go r 3 (set_e_pwithin (dbu x) s) | _ => Some s end else eol_go r 3 s
                        end in
      match r with
      | [] => Some s
      | Num x :: r => within (set_e_pspace (dbu x) s) r
      | w :: r => if is_sub w then match r with Num x :: r => within (set_e_pspace (dbu x) (set_e_sub true s)) r | _ => Some (set_e_sub true s) end else None
      end
    | EThrow => None
    end
  end.
(* db/tech/frConstraint.h:402-760.  A missing extension or within against the preferred direction is the one along it.
   [k_wrongSpace]: setWrongDirSpace(bool) (729) makes 0 or 1 of the spacing *)
Record ete_con := mkEte { x_space : Z; x_cut : option (Z * Z); x_ext : option (Z * Z); x_other : option Z }.
Record par_con := mkPar { y_sub : bool; y_space : Z; y_within : Z; y_prl : option Z; y_min : option Z; y_two : bool; y_metal : bool; y_nonEol : bool; y_mask : bool }.
Record eol_con := mkEol { k_space : Z; k_width : Z; k_exact : bool; k_wrongSpace : option Z; k_opp : option Z; k_within : Z; k_wrongWithin : Z; k_mask : bool; k_ete : option ete_con; k_par : option par_con; k_len : option (bool * Z * bool) }.
Definition as_bool (z : Z) : Z := if z =? 0 then 0 else 1.
(* 1657-1722 *)
Definition eol_build (s : est) : option eol_con :=
  if e_skip s then None
  else Some (mkEol (e_space s) (e_width s) (e_exact s) (option_map as_bool (e_wds s)) (e_opp s) (e_within s)
    (match e_ww s with Some w => w | None => e_within s end) (e_mask s)
    (match e_ete s with None => None | Some x => Some (mkEte x (e_cut s)
       (match e_ext s with None => None | Some a => Some (a, match e_wext s with Some b => b | None => a end) end) (e_oew s)) end)
    (if e_par s then Some (mkPar (e_sub s) (e_pspace s) (e_pwithin s) (e_prl s) (e_pmin s) (e_te s) (e_sm s) (e_ne s) (e_ps s)) else None)
    (match e_len s with None => None | Some (m, l) => Some (m, l, e_two s) end)).
Definition eol_read (ws : list word) : option (list eol_con) :=
  match eol_go ws 0 est0 with None => None | Some s => Some (match eol_build s with Some c => [c] | None => [] end) end.
(* 1732-1800 getLef58Spacing: [k] keyword is ENDOFLINE, [k2] keyword2 is not empty *)
Definition oapp {A} (o l : option (list A)) : option (list A) := match o, l with Some a, Some l => Some (a ++ l) | _, _ => None end.
Fixpoint spacing_go (ws ss : list word) (k k2 : bool) : option (list eol_con) :=
  match ws with
  | [] => Some []
  | K SPACING :: r => spacing_go r [K SPACING] false k2
  | K ENDOFLINE :: r => spacing_go r (ss ++ [K ENDOFLINE]) true k2
  | K SEMI :: r => if k && negb k2 then oapp (eol_read (ss ++ [K SEMI])) (spacing_go r (ss ++ [K SEMI]) k k2) else spacing_go r (ss ++ [K SEMI]) k k2
  | w :: r =>
    match w with
    | K EOLPERPENDICULAR | K AREA | K LAYER | K NOTCHLENGTH | K NOTCHSPAN | K CONVEXCORNERS => spacing_go r (ss ++ [w]) false k2
    | K TOCONCAVECORNER | K TONOTCHLENGTH => spacing_go r (ss ++ [w]) k true
    | _ => spacing_go r (ss ++ [w]) k k2
    end
  end.
Definition spacing (ws : list word) : option (list eol_con) := spacing_go ws [] false false.

(* ---- 1803-1869 getLef58MinStep ---- *)
Record ms_con := mkMs { m_len : Z; m_edges : Z; m_adj : Z; m_eol : Z }.
Fixpoint minstep_go (ws : list word) (skip : bool) (v : ms_con) : list ms_con :=
  match ws with
  | [] => []
  | K MINSTEP :: r => match r with Num x :: r => minstep_go r false (mkMs (dbu x) (m_edges v) (m_adj v) (m_eol v)) | _ => [] end
  | K MAXEDGES :: r => match r with Num x :: r => minstep_go r skip (mkMs (m_len v) (int_of x) (m_adj v) (m_eol v)) | _ => [] end
  | K MINADJACENTLENGTH :: r => match r with Num x :: r => minstep_go r skip (mkMs (m_len v) (m_edges v) (dbu x) (m_eol v)) | _ => [] end
  | K NOBETWEENEOL :: r => match r with Num x :: r => minstep_go r skip (mkMs (m_len v) (m_edges v) (m_adj v) (dbu x)) | _ => [] end
  | K SEMI :: r => if skip then minstep_go r skip v else v :: minstep_go r skip v
  | _ :: r => minstep_go r true v
  end.
Definition minstep (ws : list word) : list ms_con := minstep_go ws false (mkMs (-1) (-1) (-1) (-1)).

(* ---- 1872-1961 getLef58CutClass; the name is any word ---- *)
Record cc_con := mkCc { q_name : option word; q_width : Z; q_length : Z; q_cuts : Z }.
Fixpoint cutclass_go (ws : list word) (name : option word) (width : Z) (len num : option Z) : list cc_con :=
  match ws with
  | [] => []
  | K CUTCLASS :: r => match r with n :: r => cutclass_go r (Some n) 0 None None | [] => [] end
  | K WIDTH :: r => match r with Num x :: r => cutclass_go r name (dbu x) len num | _ => [] end
  | K LENGTH :: r => match r with Num x :: r => cutclass_go r name width (Some (dbu x)) num | _ => [] end
  | K CUTS :: r => match r with Num x :: r => cutclass_go r name width len (Some (int_of x)) | _ => [] end
  | K SEMI :: r => mkCc name width (match len with Some l => l | None => width end) (match num with Some n => n | None => 1 end) :: cutclass_go r name width len num
  | _ :: r => cutclass_go r name width len num
  end.
Definition cutclass (ws : list word) : list cc_con := cutclass_go ws None 0 None None.

(* ---- 3168-3200 and 3203-3235: one flag ---- *)
Definition is_kw (k : kw) (w : word) : bool := match w with K k' => match k, k' with CHECKMASK, CHECKMASK => true | EXCEPTNONCOREPINS, EXCEPTNONCOREPINS => true | _, _ => false end | _ => false end.
Definition rightway (ws : list word) : bool := existsb (is_kw CHECKMASK) ws.
Definition rectonly (ws : list word) : bool := existsb (is_kw EXCEPTNONCOREPINS) ws.

(* ---- 3237-3493 getLef58CornerSpacing ---- *)
Record cst := mkC { c_num : nat; c_convex : bool; c_concave : bool; c_mask : bool; c_only : option Z; c_eol : option Z; c_jog : option Z; c_edge : bool; c_lshape : bool; c_min : option Z; c_notch : bool; c_notchLen : option Z; c_net : bool; c_metal : bool; c_rows : list (list Z); c_cur : list Z; c_do : bool; c_doCv : bool; c_doCc : bool; c_doW : bool }.
Definition set_c_num (v : nat) (s : cst) : cst := mkC v (c_convex s) (c_concave s) (c_mask s) (c_only s) (c_eol s) (c_jog s) (c_edge s) (c_lshape s) (c_min s) (c_notch s) (c_notchLen s) (c_net s) (c_metal s) (c_rows s) (c_cur s) (c_do s) (c_doCv s) (c_doCc s) (c_doW s).
Definition set_c_convex (v : bool) (s : cst) : cst := mkC (c_num s) v (c_concave s) (c_mask s) (c_only s) (c_eol s) (c_jog s) (c_edge s) (c_lshape s) (c_min s) (c_notch s) (c_notchLen s) (c_net s) (c_metal s) (c_rows s) (c_cur s) (c_do s) (c_doCv s) (c_doCc s) (c_doW s).
Definition set_c_concave (v : bool) (s : cst) : cst := mkC (c_num s) (c_convex s) v (c_mask s) (c_only s) (c_eol s) (c_jog s) (c_edge s) (c_lshape s) (c_min s) (c_notch s) (c_notchLen s) (c_net s) (c_metal s) (c_rows s) (c_cur s) (c_do s) (c_doCv s) (c_doCc s) (c_doW s).
Definition set_c_mask (v : bool) (s : cst) : cst := mkC (c_num s) (c_convex s) (c_concave s) v (c_only s) (c_eol s) (c_jog s) (c_edge s) (c_lshape s) (c_min s) (c_notch s) (c_notchLen s) (c_net s) (c_metal s) (c_rows s) (c_cur s) (c_do s) (c_doCv s) (c_doCc s) (c_doW s).
Definition set_c_only (v : option Z) (s : cst) : cst := mkC (c_num s) (c_convex s) (c_concave s) (c_mask s) v (c_eol s) (c_jog s) (c_edge s) (c_lshape s) (c_min s) (c_notch s) (c_notchLen s) (c_net s) (c_metal s) (c_rows s) (c_cur s) (c_do s) (c_doCv s) (c_doCc s) (c_doW s).
Definition set_c_eol (v : option Z) (s : cst) : cst := mkC (c_num s) (c_convex s) (c_concave s) (c_mask s) (c_only s) v (c_jog s) (c_edge s) (c_lshape s) (c_min s) (c_notch s) (c_notchLen s) (c_net s) (c_metal s) (c_rows s) (c_cur s) (c_do s) (c_doCv s) (c_doCc s) (c_doW s).
Definition set_c_jog (v : option Z) (s : cst) : cst := mkC (c_num s) (c_convex s) (c_concave s) (c_mask s) (c_only s) (c_eol s) v (c_edge s) (c_lshape s) (c_min s) (c_notch s) (c_notchLen s) (c_net s) (c_metal s) (c_rows s) (c_cur s) (c_do s) (c_doCv s) (c_doCc s) (c_doW s).
Definition set_c_edge (v : bool) (s : cst) : cst := mkC (c_num s) (c_convex s) (c_concave s) (c_mask s) (c_only s) (c_eol s) (c_jog s) v (c_lshape s) (c_min s) (c_notch s) (c_notchLen s) (c_net s) (c_metal s) (c_rows s) (c_cur s) (c_do s) (c_doCv s) (c_doCc s) (c_doW s).
Definition set_c_lshape (v : bool) (s : cst) : cst := mkC (c_num s) (c_convex s) (c_concave s) (c_mask s) (c_only s) (c_eol s) (c_jog s) (c_edge s) v (c_min s) (c_notch s) (c_notchLen s) (c_net s) (c_metal s) (c_rows s) (c_cur s) (c_do s) (c_doCv s) (c_doCc s) (c_doW s).
Definition set_c_min (v : option Z) (s : cst) : cst := mkC (c_num s) (c_convex s) (c_concave s) (c_mask s) (c_only s) (c_eol s) (c_jog s) (c_edge s) (c_lshape s) v (c_notch s) (c_notchLen s) (c_net s) (c_metal s) (c_rows s) (c_cur s) (c_do s) (c_doCv s) (c_doCc s) (c_doW s).
Definition set_c_notch (v : bool) (s : cst) : cst := mkC (c_num s) (c_convex s) (c_concave s) (c_mask s) (c_only s) (c_eol s) (c_jog s) (c_edge s) (c_lshape s) (c_min s) v (c_notchLen s) (c_net s) (c_metal s) (c_rows s) (c_cur s) (c_do s) (c_doCv s) (c_doCc s) (c_doW s).
Definition set_c_notchLen (v : option Z) (s : cst) : cst := mkC (c_num s) (c_convex s) (c_concave s) (c_mask s) (c_only s) (c_eol s) (c_jog s) (c_edge s) (c_lshape s) (c_min s) (c_notch s) v (c_net s) (c_metal s) (c_rows s) (c_cur s) (c_do s) (c_doCv s) (c_doCc s) (c_doW s).
Definition set_c_net (v : bool) (s : cst) : cst := mkC (c_num s) (c_convex s) (c_concave s) (c_mask s) (c_only s) (c_eol s) (c_jog s) (c_edge s) (c_lshape s) (c_min s) (c_notch s) (c_notchLen s) v (c_metal s) (c_rows s) (c_cur s) (c_do s) (c_doCv s) (c_doCc s) (c_doW s).
Definition set_c_metal (v : bool) (s : cst) : cst := mkC (c_num s) (c_convex s) (c_concave s) (c_mask s) (c_only s) (c_eol s) (c_jog s) (c_edge s) (c_lshape s) (c_min s) (c_notch s) (c_notchLen s) (c_net s) v (c_rows s) (c_cur s) (c_do s) (c_doCv s) (c_doCc s) (c_doW s).
Definition set_c_rows (v : list (list Z)) (s : cst) : cst := mkC (c_num s) (c_convex s) (c_concave s) (c_mask s) (c_only s) (c_eol s) (c_jog s) (c_edge s) (c_lshape s) (c_min s) (c_notch s) (c_notchLen s) (c_net s) (c_metal s) v (c_cur s) (c_do s) (c_doCv s) (c_doCc s) (c_doW s).
Definition set_c_cur (v : list Z) (s : cst) : cst := mkC (c_num s) (c_convex s) (c_concave s) (c_mask s) (c_only s) (c_eol s) (c_jog s) (c_edge s) (c_lshape s) (c_min s) (c_notch s) (c_notchLen s) (c_net s) (c_metal s) (c_rows s) v (c_do s) (c_doCv s) (c_doCc s) (c_doW s).
Definition set_c_do (v : bool) (s : cst) : cst := mkC (c_num s) (c_convex s) (c_concave s) (c_mask s) (c_only s) (c_eol s) (c_jog s) (c_edge s) (c_lshape s) (c_min s) (c_notch s) (c_notchLen s) (c_net s) (c_metal s) (c_rows s) (c_cur s) v (c_doCv s) (c_doCc s) (c_doW s).
Definition set_c_doCv (v : bool) (s : cst) : cst := mkC (c_num s) (c_convex s) (c_concave s) (c_mask s) (c_only s) (c_eol s) (c_jog s) (c_edge s) (c_lshape s) (c_min s) (c_notch s) (c_notchLen s) (c_net s) (c_metal s) (c_rows s) (c_cur s) (c_do s) v (c_doCc s) (c_doW s).
Definition set_c_doCc (v : bool) (s : cst) : cst := mkC (c_num s) (c_convex s) (c_concave s) (c_mask s) (c_only s) (c_eol s) (c_jog s) (c_edge s) (c_lshape s) (c_min s) (c_notch s) (c_notchLen s) (c_net s) (c_metal s) (c_rows s) (c_cur s) (c_do s) (c_doCv s) v (c_doW s).
Definition set_c_doW (v : bool) (s : cst) : cst := mkC (c_num s) (c_convex s) (c_concave s) (c_mask s) (c_only s) (c_eol s) (c_jog s) (c_edge s) (c_lshape s) (c_min s) (c_notch s) (c_notchLen s) (c_net s) (c_metal s) (c_rows s) (c_cur s) (c_do s) (c_doCv s) (c_doCc s) v.
Definition cst0 : cst := mkC O false false false None None None false false None false None false false [] [] false false false false.
(* 3277-3291: the word after the first EXCEPTNOTCH is a number *)
Fixpoint notch_len (ws : list word) : bool :=
  match ws with
  | [] => false
  | K EXCEPTNOTCH :: r => match r with Num _ :: _ => true | _ => false end
  | _ :: r => notch_len r
  end.
Definition set_do (cv cc w : bool) (s : cst) : cst := set_c_doCv cv (set_c_doCc cc (set_c_doW w s)).
(* 3340-3357 WIDTH; None: the error 3354 *)
Definition width_word (s : cst) : option cst :=
  let s := set_do false false true s in
  match c_cur s with
  | [] => Some s
  | cur =>
    let s := set_c_cur [] (set_c_rows (c_rows s ++ [cur]) s) in
    match c_num s with
    | O => Some (set_c_num (Nat.min (List.length cur) 3) s)
    | n => if Nat.eqb n (List.length cur) then Some s else None
    end
  end.
(* one word, with the number that follows it: the new state and whether the number was taken; the outer None: exception,
   the inner None: error *)
Inductive cstep := CGo (s : cst) | CTake (set : Z -> cst -> cst) (s : cst) | CErr | CThrow.
(* 3360-3424: a word that is not one of the headings *)
Definition corner_other (hasLen : bool) (w : word) (s : cst) : cstep :=
  if c_doCv s then
    match w with
    | K SAMEMASK => CGo (set_c_mask true s)
    | K CORNERONLY => CTake (fun x s => set_c_only (Some x) s) s
    | K EXCEPTEOL => CTake (fun x s => set_c_eol (Some x) s) s
    | _ => CGo s
    end
  else if c_doCc s then
    match w with
    | K EXCEPTJOGLENGTH => match c_eol s with Some _ => CTake (fun x s => set_c_jog (Some x) s) s | None => CGo s end
    | K EDGELENGTH => match c_eol s, c_jog s with Some _, Some _ => CGo (set_c_edge true s) | _, _ => CGo s end
    | K INCLUDELSHAPE => match c_eol s, c_jog s with Some _, Some _ => CGo (set_c_lshape true s) | _, _ => CGo s end
    | K MINLENGTH => CTake (fun x s => set_c_min (Some x) s) s
    | K EXCEPTNOTCH => let s := set_c_notch true s in if hasLen then CTake (fun x s => set_c_notchLen (Some x) s) s else CGo s
    | _ => CGo s
    end
  else if c_doW s then
    match w with K SPACING => CGo s | Num x => CGo (set_c_cur (c_cur s ++ [dbu x]) s) | _ => CThrow end
  else CGo s.
Definition corner_word (hasLen : bool) (w : word) (s : cst) : cstep :=
  match w, c_do s with
  | K SEMI, _ => CGo (set_c_do false (set_do false false false s))
  | K CORNERSPACING, false => CGo (set_c_do true s)
  | K CONVEXCORNER, true => CGo (set_c_convex true (set_do true false false s))
  | K CONCAVECORNER, true => CGo (set_c_concave true (set_do false true false s))
  | K EXCEPTSAMENET, true => CGo (set_c_net true (set_do false false false s))
  | K EXCEPTSAMEMETAL, true => CGo (set_c_metal true (set_do false false false s))
  | K WIDTH, true => match width_word s with Some s => CGo s | None => CErr end
  | _, _ => corner_other hasLen w s
  end.
(* None: exception; Some None: error; a failed number is read as 0 and ends the loop *)
Fixpoint corner_go (hasLen : bool) (ws : list word) (s : cst) : option (option cst) :=
  match ws with
  | [] => Some (Some s)
  | w :: r =>
    match corner_word hasLen w s with
    | CGo s => corner_go hasLen r s
    | CTake f s => match r with Num x :: r => corner_go hasLen r (f (dbu x) s) | _ => Some (Some (f 0 s)) end
    | CErr => Some None
    | CThrow => None
    end
  end.
(* the constraint: convex with mask, corner only, end of line (width, jog length with its two flags) or concave with
   minimum length, notch, notch length *)
Inductive ckind := Convex (mask : bool) (only eol : option Z) (jog : option (Z * bool * bool)) | Concave (min : option Z) (notch : bool) (len : option Z).
Record corner_con := mkCo { o_kind : ckind; o_net : bool; o_metal : bool; o_sameXY : bool; o_tbl : list (Z * (Z * Z)) }.
(* widthSpacing[i][j]; reading past the end is the outcome None *)
Fixpoint corner_tbl (three : bool) (rows : list (list Z)) : option (list (Z * (Z * Z))) :=
  match rows with
  | [] => Some []
  | r :: rows =>
    match r, corner_tbl three rows with
    | w :: a :: r', Some t => if three then match r' with b :: _ => Some ((w, (a, b)) :: t) | [] => None end else Some ((w, (a, a)) :: t)
    | _, _ => None
    end
  end.
(* 3427-3491; result: None exception or read past the end, Some None refused *)
Definition corner (ws : list word) : option (option corner_con) :=
  match corner_go (notch_len ws) ws cst0 with
  | None => None
  | Some None => Some None
  | Some (Some s) =>
    let rows := match c_cur s with [] => c_rows s | cur => c_rows s ++ [cur] end in
    let three := Nat.eqb (c_num s) 3 in
    match corner_tbl three rows with
    | None => None
    | Some t =>
      if c_convex s then Some (Some (mkCo (Convex (c_mask s) (c_only s) (c_eol s)
           (match c_eol s, c_jog s with Some _, Some l => Some (l, c_edge s, c_lshape s) | _, _ => None end)) (c_net s) (c_metal s) (negb three) t))
      else if c_concave s then Some (Some (mkCo (Concave (c_min s) (c_notch s) (if notch_len ws then Some (match c_notchLen s with Some l => l | None => 4294967295 end) else None)) (c_net s) (c_metal s) (negb three) t))
      else Some None
    end
  end.
End L58.
Arguments K {T}. Arguments Num {T}. Arguments Other {T}.
