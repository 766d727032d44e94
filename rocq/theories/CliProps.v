(* C149: the settings of a run are those of the parameter file or the command line. *)
From Verif Require Import Base CliModel CliSpec CliProofs.
From Coq Require Import List String Ascii.
Open Scope list_scope.

(* a parameter file of lines ls.  With five lines of known fields (verbose not counted) the run has for each field the
   last value said of it, else the value before; every other global is unchanged.  With fewer the program ends with 2 *)
Theorem C149_parameter_file : forall atoi scan files name ls g n,
  ls <> [] -> Forall (fun l => ~ has nl l) ls -> files name = Some (text ls) -> count ls n ->
  if n <? 5 then main atoi scan files [name] g = Code 2
  else exists g', main atoi scan files [name] g = Run g' /\
    (forall f x k, In (f, (x, k)) meaning -> (forall v, last_says ls f v -> g' x = value_of atoi k v) /\ (unsaid ls f -> g' x = g x)) /\
    (forall v, last_says ls "def" v -> g' "REF_OUT_FILE"%string = VStr v) /\ (unsaid ls "def" -> g' "REF_OUT_FILE"%string = g "REF_OUT_FILE"%string) /\
    (forall x, x <> "REF_OUT_FILE"%string -> (forall f k, ~ In (f, (x, k)) meaning) -> g' x = g x).
Proof.
  intros atoi scan files name ls g n NE NN F C. unfold main, read_params. rewrite F, (split_text ls NE NN). fold (run atoi ls (g, 0)).
  assert (R := run_count atoi ls n (g, 0) C). destruct (run atoi ls (g, 0)) as [g' m] eqn:E. cbn [snd] in R. rewrite R. change (0 + n) with n.
  destruct (n <? 5); [reflexivity|]. exists g'. split; [reflexivity|].
  assert (G : g' = fst (run atoi ls (g, 0))) by (rewrite E; reflexivity). rewrite G. split; [|split; [|split]].
  - intros f x k I. exact (run_field atoi ls f x k (g, 0) I).
  - exact (proj1 (run_ref atoi ls (g, 0))).
  - exact (proj2 (run_ref atoi ls (g, 0))).
  - intros x N A. exact (run_rest atoi ls x (g, 0) N A).
Qed.
Print Assumptions C149_parameter_file.
(* every file has a count *)
Theorem C149_counted : forall ls, exists n, count ls n.
Proof. exact count_total. Qed.
Print Assumptions C149_counted.
(* a file that cannot be opened is refused *)
Theorem C149_no_file : forall atoi scan files name g, files name = None -> main atoi scan files [name] g = Code 2.
Proof. intros atoi scan files name g F. unfold main, read_params. rewrite F. reflexivity. Qed.
Print Assumptions C149_no_file.

(* the command line: at least one option with its value *)
Theorem C149_command_line : forall atoi scan files ovs g, ovs <> [] -> Forall (fun ov => In (fst ov) option_names) ovs ->
  exists g', main atoi scan files (pairs ovs) g = Run g' /\
    (forall v, last_given any ovs "-lef" v -> g' "LEF_FILE"%string = VStr v) /\ (ungiven any ovs "-lef" -> g' "LEF_FILE"%string = g "LEF_FILE"%string) /\
    (forall v, last_given any ovs "-def" v -> g' "DEF_FILE"%string = VStr v /\ g' "REF_OUT_FILE"%string = VStr v) /\
    (ungiven any ovs "-def" -> g' "DEF_FILE"%string = g "DEF_FILE"%string /\ g' "REF_OUT_FILE"%string = g "REF_OUT_FILE"%string) /\
    (forall v, last_given any ovs "-guide" v -> g' "GUIDE_FILE"%string = VStr v) /\ (ungiven any ovs "-guide" -> g' "GUIDE_FILE"%string = g "GUIDE_FILE"%string) /\
    (forall v, last_given any ovs "-output" v -> g' "OUT_FILE"%string = VStr v) /\ (ungiven any ovs "-output" -> g' "OUT_FILE"%string = g "OUT_FILE"%string) /\
    (forall v, last_given any ovs "-verbose" v -> g' "VERBOSE"%string = VInt (atoi v)) /\ (ungiven any ovs "-verbose" -> g' "VERBOSE"%string = g "VERBOSE"%string) /\
    (forall v z, last_given (fun v => scan v <> None) ovs "-threads" v -> scan v = Some z -> g' "MAX_THREADS"%string = VInt z) /\
    (ungiven (fun v => scan v <> None) ovs "-threads" -> g' "MAX_THREADS"%string = g "MAX_THREADS"%string) /\
    (forall x, ~ In x ["LEF_FILE"; "DEF_FILE"; "REF_OUT_FILE"; "GUIDE_FILE"; "MAX_THREADS"; "OUT_FILE"; "VERBOSE"]%string -> g' x = g x).
Proof.
  intros atoi scan files ovs g NE F. exists (go atoi scan ovs g). split.
  - transitivity (options atoi scan (pairs ovs) g); [|exact (options_run atoi scan ovs F g)]. destruct ovs as [|[o v] [|[o' v'] ovs]]; [contradiction|reflexivity|reflexivity].
  - destruct (go_lef atoi scan ovs g) as (A1 & A2), (go_def atoi scan ovs g) as (B1 & B2), (go_ref atoi scan ovs g) as (C1 & C2), (go_guide atoi scan ovs g) as (D1 & D2), (go_output atoi scan ovs g) as (E1 & E2), (go_verbose atoi scan ovs g) as (F1 & F2), (go_threads atoi scan ovs g) as (H1 & H2).
    repeat split; try assumption; try (apply B1; assumption); try (apply C1; assumption); try (apply B2; assumption); try (apply C2; assumption). intros x N. apply go_rest. exact N.
Qed.
Print Assumptions C149_command_line.
(* no argument, or an unknown option in the place of an option: the program ends with 2 and does not route *)
Theorem C149_refused : forall atoi scan files g, main atoi scan files [] g = Code 2 /\
  forall ovs o rest, Forall (fun ov => In (fst ov) option_names) ovs -> ~ In o option_names -> (ovs <> [] \/ rest <> []) -> main atoi scan files (pairs ovs ++ o :: rest) g = Code 2.
Proof.
  intros atoi scan files g. split; [reflexivity|]. intros ovs o rest F N NE. rewrite <- (options_stop atoi scan ovs o rest F N g). destruct ovs as [|[x v] ovs]; [destruct rest; [destruct NE; contradiction|reflexivity]|]. destruct ovs; reflexivity.
Qed.
Print Assumptions C149_refused.
(* a last option without its value is not refused: the program reads the null pointer *)
Theorem C149_missing_value_refuted : forall atoi scan files g ovs o, ovs <> [] -> Forall (fun ov => In (fst ov) option_names) ovs -> In o option_names -> main atoi scan files (pairs ovs ++ [o]) g = Crash.
Proof.
  intros atoi scan files g ovs o NE F I. rewrite <- (options_crash atoi scan ovs o F I g). destruct ovs as [|[x v] [|[x' v'] ovs]]; [contradiction|reflexivity|reflexivity].
Qed.
Print Assumptions C149_missing_value_refuted.
(* a parameter file that is accepted need not name a DEF, a guide or an output: five lines with lef are enough.  So are
   options without them *)
Theorem C149_accepted_incomplete_refuted : exists ls v, count ls 5 /\ last_says ls "lef" v /\ unsaid ls "def" /\ unsaid ls "guide" /\ unsaid ls "output" /\
  forall atoi scan files g, files "p"%string = Some (text ls) -> exists g', main atoi scan files ["p"%string] g = Run g' /\ g' "DEF_FILE"%string = g "DEF_FILE"%string.
Proof.
  assert (exists l, l = "lef:a"%string) as (l & L) by eauto. assert (S : says l "lef" "a") by (subst l; apply says_iff; split; [intros (r & E); discriminate|reflexivity]).
  assert (C : counts l) by (exists "lef"%string, "a"%string; split; [exact S|]; split; [discriminate|cbn; auto]).
  assert (U : forall f, f <> "lef"%string -> unsaid [l; l; l; l; l] f).
  { intros f N x v I H. assert (X : x = l) by (cbn in I; destruct I as [I|[I|[I|[I|[I|[]]]]]]; congruence). subst x. destruct (says_fun _ _ _ _ _ S H) as (E & _). exact (N (eq_sym E)). }
  exists [l; l; l; l; l], "a"%string. split; [change 5 with (0 + 1 + 1 + 1 + 1 + 1); repeat (constructor; [exact C|]); constructor|].
  split; [exists [l; l; l; l], l, []; split; [reflexivity|]; split; [exact S|intros ? ? []]|]. split; [apply U; discriminate|]. split; [apply U; discriminate|]. split; [apply U; discriminate|].
  intros atoi scan files g F. eexists. split; [unfold main, read_params; rewrite F; subst l; lazy; reflexivity|reflexivity].
Qed.
Print Assumptions C149_accepted_incomplete_refuted.
(* a line with a field that is not known, for one with a space before the colon, is left out without a word; it does not count *)
Example C149_space_ex : unsaid ["lef :a"%string] "lef" /\ last_says ["lef :a"%string] "lef " "a".
Proof.
  assert (S : says "lef :a" "lef " "a") by (apply says_iff; split; [intros (r & E); discriminate|reflexivity]). split; [intros l v [<-|[]] H; destruct (says_fun _ _ _ _ _ S H); congruence|exists [], "lef :a"%string, []; split; [reflexivity|]; split; [exact S|intros ? ? []]].
Qed.
Example C149_file_ex : let ls := ["# settings"; "lef:a.lef"; "def:a.def"; "guide:a.guide"; "output:b.def"; "verbose:1"; "threads:8"; "def:c.def"; ""]%string in
  count ls 6 /\ Forall (fun l => ~ has nl l) ls /\ last_says ls "def" "c.def".
Proof.
  assert (Y : forall l f v, says l f v -> f <> "verbose"%string -> In f (map fst meaning) -> counts l) by (intros l f v A B C; exists f, v; auto).
  assert (Q : forall l f v, ~ comment l -> field_value l = (f, v) -> says l f v) by (intros; apply says_iff; auto).
  assert (NC : forall c r, c <> "#"%char -> ~ comment (String c r)) by (intros c r N (r' & E); congruence). split; [|split].
  - change 6 with (0 + 1 + 1 + 1 + 1 + 1 + 1).
    apply count_no; [intros (f & v & S & _); apply says_iff in S as (S & _); apply S; eexists; reflexivity|].
    repeat match goal with
      | |- count (("verbose:1"%string) :: _) _ => apply count_no; [intros (f & v & S & N & _); apply says_iff in S as (_ & S); injection S as <- <-; congruence|]
      | |- count (""%string :: _) _ => apply count_no; [intros (f & v & S & N & I); apply says_iff in S as (_ & S); injection S as <- <-; cbn in I; intuition discriminate|]
      | |- count (_ :: _) _ => apply count_yes; [eapply Y; [apply Q; [apply NC; discriminate|reflexivity]|discriminate|cbn; auto 20]|]
      end. constructor.
  - repeat (constructor; [rewrite <- hasb_has; vm_compute; discriminate|]). constructor.
  - exists ["# settings"; "lef:a.lef"; "def:a.def"; "guide:a.guide"; "output:b.def"; "verbose:1"; "threads:8"]%string, "def:c.def"%string, [""%string]. split; [reflexivity|]. split; [apply Q; [apply NC; discriminate|reflexivity]|]. intros l' v' [<-|[]] S. apply says_iff in S as (_ & S). discriminate S.
Qed.
Example C149_line_ex : forall atoi scan files g, exists g', main atoi scan files ["-lef"; "a.lef"; "-def"; "a.def"; "-def"; "b.def"]%string g = Run g' /\ g' "DEF_FILE"%string = VStr "b.def" /\ g' "LEF_FILE"%string = VStr "a.lef".
Proof. intros. eexists. split; [lazy; reflexivity|split; reflexivity]. Qed.
