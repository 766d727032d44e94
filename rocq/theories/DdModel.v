(* The PROPERTYDEFINITIONS section of a DEF file, as the DEF writer copies it to the routed DEF and as the DEF parser reads it.  Tokens as in
   DwModel; a string in quotes is a word that starts and ends with the quote.  DEF version 5.8; an error the parser reports is the outcome None
   (def.y:468 goes on behind the next ";" after it).  Simplification: numbers are whole, also those of type REAL. *)
From Coq Require Import String Ascii.
From Verif Require Import Base DwModel SnModel.
Local Open Scope string_scope.
Local Open Scope Z_scope.
Local Open Scope list_scope.

Definition quote : ascii := Ascii.Ascii false true false false false true false false.
(* QSTRING *)
Definition in_quotes (s : string) : string := String quote (s ++ String quote "").
Fixpoint drop_last (s : string) : string := match s with String c (String _ _ as r) => String c (drop_last r) | _ => "" end.
Definition unquote (s : string) : option string := match s with String c r => if Ascii.eqb c quote then Some (drop_last r) else None | _ => None end.

(* --- one definition: defiProp --- *)
(* dataType_: I, R, S, Q, N *)
Inductive pkind := KInt | KReal | KStr | KQuoted (s : string) | KMap (s : string).
Record pdef := mkDf { df_obj : string; df_name : string; df_kind : pkind; df_range : option (Z * Z); df_num : option Z }.
Definition objects : list string := ["DESIGN"; "NET"; "COMPONENT"; "SPECIALNET"; "GROUP"; "ROW"; "COMPONENTPIN"; "REGION"; "NONDEFAULTRULE"].
(* defw.cpp:1802-1809 *)
Definition kind_word (k : pkind) : list tok := match k with KInt => [W "INTEGER"] | KReal => [W "REAL"] | KStr => [W "STRING"] | KQuoted _ => [W "STRING"] | KMap _ => [] end.
(* defiProp.cpp:192-194 hasString *)
Definition kind_string (k : pkind) : string := match k with KQuoted s => s | KMap s => s | _ => "" end.
(* defw.cpp:1781-1821 *)
Definition print_pdef (d : pdef) : list tok :=
  [W (df_obj d); W (df_name d)] ++ kind_word (df_kind d) ++ opt (fun p => [W "RANGE"; Nu (g6 (fst p)); Nu (g6 (snd p))]) (df_range d) ++ opt (fun n => [Nu (g6 n)]) (df_num d) ++
  (if String.eqb (kind_string (df_kind d)) "" then [] else [W (in_quotes (kind_string (df_kind d)))]) ++ [W ";"].
(* defw.cpp:1772-1778, 1824-1832 *)
Definition print_pdefs (l : list pdef) : list tok := W "PROPERTYDEFINITIONS" :: flat_map print_pdef l ++ [W "END"; W "PROPERTYDEFINITIONS"].
(* def.y:3267-3269 *)
Definition read_range (ts : list tok) : option (option (Z * Z) * list tok) :=
  match eat "RANGE" ts with Some r => let* (a, r) := num r in let* (b, r) := num r in Some (Some (a, b), r) | None => Some (None, ts) end.
(* def.y:497-499 *)
Definition read_num (ts : list tok) : option Z * list tok := match num ts with Some (n, r) => (Some n, r) | None => (None, ts) end.
(* def.y:470-495 property_type_and_val *)
Definition read_kind (ts : list tok) : option (pkind * option (Z * Z) * option Z * list tok) :=
  match eat "INTEGER" ts with Some r => let* (a, r) := read_range r in let (n, r) := read_num r in Some (KInt, a, n, r) | None =>
  match eat "REAL" ts with Some r => let* (a, r) := read_range r in let (n, r) := read_num r in Some (KReal, a, n, r) | None =>
  match eat "STRING" ts with
  | Some r => match r with
              | W k :: r' => match unquote k with Some s => Some (KQuoted s, None, None, r') | None => Some (KStr, None, None, r) end
              | _ => Some (KStr, None, None, r)
              end
  | None => let* r := eat "NAMEMAPSTRING" ts in let* (s, r) := word r in Some (KMap s, None, None, r)
  end end end.
(* def.y:373-467 property_def *)
Definition read_pdef (ts : list tok) : option (pdef * list tok) :=
  let* (o, r) := one_of objects ts in let* (n, r) := word r in let* (k, a, v, r) := read_kind r in let* r := eat ";" r in Some (mkDf o n k a v, r).
Fixpoint read_more_pdefs (fuel : nat) (ts : list tok) : option (list pdef * list tok) :=
  match fuel with
  | O => None
  | S f => match eat "END" ts with
           | Some r => let* r := eat "PROPERTYDEFINITIONS" r in Some ([], r)
           | None => let* (d, r) := read_pdef ts in let* (l, r) := read_more_pdefs f r in Some (d :: l, r)
           end
  end.
(* def.y:357-371 prop_def_section *)
Definition read_pdefs (ts : list tok) : option (list pdef * list tok) := let* r := eat "PROPERTYDEFINITIONS" ts in read_more_pdefs (S (List.length r)) r.
