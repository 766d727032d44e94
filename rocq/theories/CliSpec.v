(* What a parameter file and a command line say. *)
From Verif Require Import Base CliModel.
From Coq Require Import List String Ascii.
Open Scope list_scope.

Definition has (c : ascii) (s : string) : Prop := exists a b, s = (a ++ String c b)%string.
(* the text of lines *)
Fixpoint text (ls : list string) : string := match ls with [] => EmptyString | [l] => l | l :: ls => (l ++ String nl (text ls))%string end.
(* a line says that field f is v: "f:v"; a line without a colon is taken as field and value *)
Definition says (l f v : string) : Prop :=
  (forall r, l <> String "#" r) /\ ((~ has ":" f /\ l = (f ++ String ":" v)%string) \/ (~ has ":" l /\ f = l /\ v = l)).
(* the last line that says something of f says v *)
Definition last_says (ls : list string) (f v : string) : Prop :=
  exists a l b, ls = a ++ l :: b /\ says l f v /\ forall l' v', In l' b -> ~ says l' f v'.
Definition unsaid (ls : list string) (f : string) : Prop := forall l v, In l ls -> ~ says l f v.
(* the fields of a parameter file: the setting and how its value is read *)
Definition meaning : list (string * (string * kind)) :=
  [("lef", ("LEF_FILE", KStr)); ("def", ("DEF_FILE", KStr)); ("guide", ("GUIDE_FILE", KStr)); ("outputTA", ("OUTTA_FILE", KStr)); ("output", ("OUT_FILE", KStr)); ("outputguide", ("OUTGUIDE_FILE", KStr));
   ("outputMaze", ("OUT_MAZE_FILE", KStr)); ("outputDRC", ("DRC_RPT_FILE", KStr)); ("threads", ("MAX_THREADS", KInt)); ("verbose", ("VERBOSE", KInt)); ("dbProcessNode", ("DBPROCESSNODE", KStr));
   ("drouteOnGridOnlyPrefWireBottomLayerNum", ("ONGRIDONLY_WIRE_PREF_BOTTOMLAYERNUM", KInt)); ("drouteOnGridOnlyPrefWireTopLayerNum", ("ONGRIDONLY_WIRE_PREF_TOPLAYERNUM", KInt));
   ("drouteOnGridOnlyNonPrefWireBottomLayerNum", ("ONGRIDONLY_WIRE_NONPREF_BOTTOMLAYERNUM", KInt)); ("drouteOnGridOnlyNonPrefWireTopLayerNum", ("ONGRIDONLY_WIRE_NONPREF_TOPLAYERNUM", KInt));
   ("drouteOnGridOnlyViaBottomLayerNum", ("ONGRIDONLY_VIA_BOTTOMLAYERNUM", KInt)); ("drouteOnGridOnlyViaTopLayerNum", ("ONGRIDONLY_VIA_TOPLAYERNUM", KInt));
   ("drouteViaInPinBottomLayerNum", ("VIAINPIN_BOTTOMLAYERNUM", KInt)); ("drouteViaInPinTopLayerNum", ("VIAINPIN_TOPLAYERNUM", KInt)); ("drouteEndIterNum", ("END_ITERATION", KInt));
   ("OR_SEED", ("OR_SEED", KInt)); ("OR_K", ("OR_K", KFlt))]%string.
Definition value_of (atoi : string -> Z) (k : kind) (v : string) : value := match k with KStr => VStr v | KInt => VInt (atoi v) | KFlt => VFlt v end.
(* the fields that count to the five *)
Definition counts (l : string) : Prop := exists f v, says l f v /\ f <> "verbose"%string /\ In f (map fst meaning).
Inductive count : list string -> Z -> Prop :=
| count_nil : count [] 0
| count_yes l ls n : counts l -> count ls n -> count (l :: ls) (n + 1)
| count_no l ls n : ~ counts l -> count ls n -> count (l :: ls) n.
(* the command line: options with their values *)
Definition pairs (ovs : list (string * string)) : list string := flat_map (fun ov => [fst ov; snd ov]) ovs.
Definition option_names : list string := ["-lef"; "-def"; "-guide"; "-threads"; "-output"; "-verbose"]%string.
(* v is the last value of option o of those with property P *)
Definition last_given (P : string -> Prop) (ovs : list (string * string)) (o v : string) : Prop := exists a b, ovs = a ++ (o, v) :: b /\ P v /\ forall v', In (o, v') b -> ~ P v'.
Definition ungiven (P : string -> Prop) (ovs : list (string * string)) (o : string) : Prop := forall v, In (o, v) ovs -> ~ P v.
Definition any (_ : string) : Prop := True.
