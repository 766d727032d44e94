(* Property definitions the parser accepts, as a DEF file gives them, and those that survive the copy. *)
From Coq Require Import String.
From Verif Require Import Base DwModel DwSpec SnModel DdModel.
Local Open Scope string_scope.
Local Open Scope Z_scope.
Local Open Scope list_scope.

(* only numbers have a range and a value *)
Definition pdef_wf (d : pdef) : Prop :=
  In (df_obj d) ["DESIGN"; "COMPONENT"; "NET"; "SPECIALNET"; "REGION"; "GROUP"; "ROW"; "COMPONENTPIN"; "NONDEFAULTRULE"] /\ is_name (df_name d) /\
  match df_kind d with KInt => True | KReal => True | KMap s => is_name s /\ s <> "" /\ df_range d = None /\ df_num d = None | _ => df_range d = None /\ df_num d = None end.
(* the text in a DEF file *)
Definition def_pdef (d : pdef) : list tok :=
  [W (df_obj d); W (df_name d)] ++
  match df_kind d with KInt => [W "INTEGER"] | KReal => [W "REAL"] | KStr => [W "STRING"] | KQuoted s => [W "STRING"; W (in_quotes s)] | KMap s => [W "NAMEMAPSTRING"; W s] end ++
  match df_range d with Some (a, b) => [W "RANGE"; Nu a; Nu b] | None => [] end ++ match df_num d with Some n => [Nu n] | None => [] end ++ [W ";"].
Definition no_map (d : pdef) : Prop := match df_kind d with KMap _ => False | _ => True end.
(* numbers of at most six digits and no empty string *)
Definition pdef_short (d : pdef) : Prop :=
  (forall a b, df_range d = Some (a, b) -> six_digits a /\ six_digits b) /\ (forall n, df_num d = Some n -> six_digits n) /\ df_kind d <> KQuoted "".
(* what a copy says: numbers rounded to six digits, an empty string forgotten *)
Definition copied (d : pdef) : pdef :=
  mkDf (df_obj d) (df_name d) (match df_kind d with KQuoted s => if String.eqb s "" then KStr else KQuoted s | k => k end) (option_map (fun p => (g6 (fst p), g6 (snd p))) (df_range d)) (option_map g6 (df_num d)).
