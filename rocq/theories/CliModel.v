(* The command line and the parameter file (src/main.cpp:40-138).  The globals are their names in src/global.h; a file is
   its text.  atoi, atof and sscanf "%d" are parameters.  The parameter file that cannot be opened is None (then no line
   is read).  An option at the end of the command line without its value reads the null pointer after argv (a
   std::string from it, atoi or sscanf of it): outcome Crash.  The run that follows main is not modelled here. *)
From Verif Require Import Base.
From Coq Require Import List String Ascii.
Open Scope list_scope.

Inductive value := VStr (s : string) | VInt (z : Z) | VFlt (s : string).
Inductive outcome := Code (n : Z) | Crash | Run (g : string -> value).

Section Cli.
Variable atoi : string -> Z.
Variable scan : string -> option Z.                                    (* sscanf(s, "%d", &x): None keeps x *)
Definition nl : ascii := ascii_of_nat 10.
(* getline until the stream is not good: the pieces between the newlines, the last one included even if empty *)
Fixpoint split_nl (s : string) : list string :=
  match s with
  | EmptyString => [EmptyString]
  | String c s => if Ascii.eqb c nl then EmptyString :: split_nl s else match split_nl s with [] => [String c EmptyString] | l :: ls => String c l :: ls end
  end.
(* 51-53: the text before the first ':' and after it; without one both are the line *)
Fixpoint cut_colon (s : string) : option (string * string) :=
  match s with
  | EmptyString => None
  | String c s => if Ascii.eqb c ":" then Some (EmptyString, s) else match cut_colon s with Some (f, v) => Some (String c f, v) | None => None end
  end.
Definition field_value (s : string) : string * string := match cut_colon s with Some p => p | None => (s, s) end.
Inductive kind := KStr | KInt | KFlt.
(* 54-75: field, global, kind *)
Definition fields : list (string * (string * kind)) :=
  [("lef", ("LEF_FILE", KStr)); ("def", ("DEF_FILE", KStr)); ("guide", ("GUIDE_FILE", KStr)); ("outputTA", ("OUTTA_FILE", KStr)); ("output", ("OUT_FILE", KStr)); ("outputguide", ("OUTGUIDE_FILE", KStr));
   ("outputMaze", ("OUT_MAZE_FILE", KStr)); ("outputDRC", ("DRC_RPT_FILE", KStr)); ("threads", ("MAX_THREADS", KInt)); ("verbose", ("VERBOSE", KInt)); ("dbProcessNode", ("DBPROCESSNODE", KStr));
   ("drouteOnGridOnlyPrefWireBottomLayerNum", ("ONGRIDONLY_WIRE_PREF_BOTTOMLAYERNUM", KInt)); ("drouteOnGridOnlyPrefWireTopLayerNum", ("ONGRIDONLY_WIRE_PREF_TOPLAYERNUM", KInt));
   ("drouteOnGridOnlyNonPrefWireBottomLayerNum", ("ONGRIDONLY_WIRE_NONPREF_BOTTOMLAYERNUM", KInt)); ("drouteOnGridOnlyNonPrefWireTopLayerNum", ("ONGRIDONLY_WIRE_NONPREF_TOPLAYERNUM", KInt));
   ("drouteOnGridOnlyViaBottomLayerNum", ("ONGRIDONLY_VIA_BOTTOMLAYERNUM", KInt)); ("drouteOnGridOnlyViaTopLayerNum", ("ONGRIDONLY_VIA_TOPLAYERNUM", KInt));
   ("drouteViaInPinBottomLayerNum", ("VIAINPIN_BOTTOMLAYERNUM", KInt)); ("drouteViaInPinTopLayerNum", ("VIAINPIN_TOPLAYERNUM", KInt)); ("drouteEndIterNum", ("END_ITERATION", KInt));
   ("OR_SEED", ("OR_SEED", KInt)); ("OR_K", ("OR_K", KFlt))]%string.
Definition convert (k : kind) (v : string) : value := match k with KStr => VStr v | KInt => VInt (atoi v) | KFlt => VFlt v end.
Fixpoint lookup {A} (s : string) (l : list (string * A)) : option A := match l with [] => None | (k, a) :: l => if String.eqb s k then Some a else lookup s l end.
Definition set (g : string -> value) (x : string) (v : value) : string -> value := fun y => if String.eqb y x then v else g y.
(* 49-76: one line *)
Definition param_line (l : string) (st : (string -> value) * Z) : (string -> value) * Z :=
  match l with
  | String "#" _ => st
  | _ =>
    let '(f, v) := field_value l in
    let '(g, n) := st in
    match lookup f fields with
    | None => (g, n)
    | Some (x, k) =>
      let g := set g x (convert k v) in
      let g := if String.eqb f "def" then set g "REF_OUT_FILE" (convert KStr v) else g in
      (g, if String.eqb f "verbose" then n else n + 1)
    end
  end.
(* 40-87: the return value and the globals *)
Definition read_params (file : option string) (g : string -> value) : Z * (string -> value) :=
  let '(g, n) := match file with None => (g, 0) | Some text => fold_left (fun st l => param_line l st) (split_nl text) (g, 0) end in
  (if n <? 5 then 2 else 0, g).
(* 107-131 *)
Definition option_step (o v : string) (g : string -> value) : option (string -> value) :=
  if String.eqb o "-lef" then Some (set g "LEF_FILE" (VStr v))
  else if String.eqb o "-def" then Some (set (set g "DEF_FILE" (VStr v)) "REF_OUT_FILE" (VStr v))
  else if String.eqb o "-guide" then Some (set g "GUIDE_FILE" (VStr v))
  else if String.eqb o "-threads" then Some (match scan v with Some z => set g "MAX_THREADS" (VInt z) | None => g end)
  else if String.eqb o "-output" then Some (set g "OUT_FILE" (VStr v))
  else if String.eqb o "-verbose" then Some (set g "VERBOSE" (VInt (atoi v)))
  else None.
Definition known (o : string) : bool := existsb (String.eqb o) ["-lef"; "-def"; "-guide"; "-threads"; "-output"; "-verbose"]%string.
Fixpoint options (args : list string) (g : string -> value) : outcome :=
  match args with
  | [] => Run g
  | o :: rest =>
    if known o then
      match rest with
      | [] => Crash
      | v :: rest => match option_step o v g with Some g => options rest g | None => Code 2 end
      end
    else Code 2
  end.
(* 89-137: main with the arguments after the name of the program *)
Definition main (files : string -> option string) (args : list string) (g : string -> value) : outcome :=
  match args with
  | [] => Code 2
  | [f] => let '(rc, g) := read_params (files f) g in if rc =? 0 then Run g else Code 2
  | _ => options args g
  end.
End Cli.
