From Verif Require Import Base CliModel CliSpec.
From Coq Require Import List String Ascii.
Open Scope list_scope.

Lemma app_str_nil s : (s ++ "")%string = s. Proof. induction s as [|c s IH]; [reflexivity|]. cbn. rewrite IH. reflexivity. Qed.
Lemma split_nonempty s : split_nl s <> [].
Proof. destruct s as [|c s]; [discriminate|]. cbn [split_nl]. destruct (Ascii.eqb c nl); [discriminate|]. destruct (split_nl s); discriminate. Qed.
Lemma has_cons c d s : has c (String d s) <-> c = d \/ has c s.
Proof.
  split.
  - intros ([|x a] & b & H); cbn in H; injection H as -> H; [left; reflexivity|right; exists a, b; exact H].
  - intros [->|(a & b & ->)]; [exists EmptyString, s; reflexivity|exists (String d a), b; reflexivity].
Qed.
Lemma has_nil c : ~ has c EmptyString.
Proof. intros ([|x a] & b & H); discriminate. Qed.
Fixpoint hasb (c : ascii) (s : string) : bool := match s with EmptyString => false | String d s => Ascii.eqb c d || hasb c s end.
Lemma hasb_has c s : hasb c s = true <-> has c s.
Proof.
  induction s as [|d s IH]; cbn [hasb]; [split; [discriminate|intros H; destruct (has_nil _ H)]|]. rewrite has_cons, Bool.orb_true_iff, IH. rewrite Ascii.eqb_eq. reflexivity.
Qed.
Lemma split_app a s : ~ has nl a -> split_nl (a ++ s) = match split_nl s with [] => [] | l :: ls => (a ++ l)%string :: ls end.
Proof.
  induction a as [|c a IH]; intros N; cbn [String.append]; [destruct (split_nl s); reflexivity|]. cbn [split_nl].
  destruct (Ascii.eqb_spec c nl) as [->|E]; [exfalso; apply N, has_cons; auto|]. rewrite IH by (intros H; apply N, has_cons; auto). destruct (split_nl s) eqn:Q; [destruct (split_nonempty _ Q)|reflexivity].
Qed.
Lemma split_text ls : ls <> [] -> Forall (fun l => ~ has nl l) ls -> split_nl (text ls) = ls.
Proof.
  induction ls as [|l ls IH]; intros N F; [contradiction|]. inversion F as [|x y F1 F2]; subst. destruct ls as [|l' ls].
  - cbn [text]. rewrite <- (app_str_nil l) at 1. rewrite split_app by exact F1. cbn. rewrite app_str_nil. reflexivity.
  - change (text (l :: l' :: ls)) with (l ++ String nl (text (l' :: ls)))%string. rewrite split_app by exact F1. cbn [split_nl]. rewrite Ascii.eqb_refl. rewrite app_str_nil. f_equal. apply IH; [discriminate|exact F2].
Qed.
Lemma cut_some f v : ~ has ":" f -> cut_colon (f ++ String ":" v) = Some (f, v).
Proof.
  induction f as [|c f IH]; intros N; cbn [String.append cut_colon]; [reflexivity|]. destruct (Ascii.eqb_spec c ":") as [->|E]; [exfalso; apply N, has_cons; auto|]. rewrite IH by (intros H; apply N, has_cons; auto). reflexivity.
Qed.
Lemma cut_none s : ~ has ":" s -> cut_colon s = None.
Proof.
  induction s as [|c f IH]; intros N; cbn [cut_colon]; [reflexivity|]. destruct (Ascii.eqb_spec c ":") as [->|E]; [exfalso; apply N, has_cons; auto|]. rewrite IH by (intros H; apply N, has_cons; auto). reflexivity.
Qed.
Lemma cut_inv s : match cut_colon s with Some (f, v) => ~ has ":" f /\ s = (f ++ String ":" v)%string | None => ~ has ":" s end.
Proof.
  induction s as [|c s IH]; cbn [cut_colon]; [apply has_nil|]. destruct (Ascii.eqb_spec c ":") as [->|E]; [split; [apply has_nil|reflexivity]|]. destruct (cut_colon s) as [[f v]|].
  - destruct IH as (N & ->). split; [|reflexivity]. intros H. apply has_cons in H as [H|H]; [congruence|exact (N H)].
  - intros H. apply has_cons in H as [H|H]; [congruence|exact (IH H)].
Qed.
Definition comment (l : string) : Prop := exists r, l = String "#" r.
Lemma comment_dec l : comment l \/ ~ comment l.
Proof. destruct l as [|c r]; [right; intros (r & H); discriminate|]. destruct (Ascii.eqb_spec c "#") as [->|N]; [left; exists r; reflexivity|right; intros (r' & H); injection H as -> _; congruence]. Qed.
Lemma says_iff l f v : says l f v <-> ~ comment l /\ field_value l = (f, v).
Proof.
  unfold says, field_value. assert (C : (forall r, l <> String "#" r) <-> ~ comment l) by (split; [intros H (r & E); exact (H r E)|intros H r E; apply H; exists r; exact E]). rewrite C. split; intros (A & B); (split; [exact A|]).
  - destruct B as [(N & ->)|(N & -> & ->)]; [rewrite cut_some by exact N; reflexivity|rewrite cut_none by exact N; reflexivity].
  - assert (H := cut_inv l). destruct (cut_colon l) as [[f' v']|]; injection B as <- <-; [left; exact H|right; auto].
Qed.
Section P.
Variable atoi : string -> Z.
Notation param_line := (param_line atoi).
Notation convert := (convert atoi).
Definition step (f v : string) (st : (string -> value) * Z) : (string -> value) * Z :=
  match lookup f fields with
  | None => st
  | Some (x, k) => ((if String.eqb f "def" then set (set (fst st) x (convert k v)) "REF_OUT_FILE" (convert KStr v) else set (fst st) x (convert k v)), if String.eqb f "verbose" then snd st else snd st + 1)
  end.
Lemma line_comment l st : comment l -> param_line l st = st.
Proof. intros (r & ->). reflexivity. Qed.
Lemma line_other l st : ~ comment l -> param_line l st = let '(f, v) := field_value l in let '(g, n) := st in
    match lookup f fields with None => (g, n) | Some (x, k) => let g := set g x (convert k v) in let g := if String.eqb f "def" then set g "REF_OUT_FILE" (convert KStr v) else g in (g, if String.eqb f "verbose" then n else n + 1) end.
Proof. intros N. unfold param_line. destruct l as [|c r]; [reflexivity|]. destruct c as [[] [] [] [] [] [] [] []]; try reflexivity. destruct N. exists r. reflexivity. Qed.
Lemma line_says l f v st : says l f v -> param_line l st = step f v st.
Proof.
  intros H. apply says_iff in H as (N & E). rewrite line_other by exact N. rewrite E. unfold step. destruct st as [g n]. cbn [fst snd]. destruct (lookup f fields) as [[x k]|]; [|reflexivity]. destruct (String.eqb f "def"); reflexivity.
Qed.
Lemma line_cases l : comment l \/ exists f v, says l f v.
Proof. destruct (comment_dec l) as [C|N]; [auto|right]. destruct (field_value l) as [f v] eqn:E. exists f, v. apply says_iff. auto. Qed.
Lemma says_fun l f v f' v' : says l f v -> says l f' v' -> f = f' /\ v = v'.
Proof. intros H H'. apply says_iff in H as (_ & H), H' as (_ & H'). rewrite H in H'. injection H'. auto. Qed.
Lemma comment_quiet l f v : comment l -> ~ says l f v.
Proof. intros C H. apply says_iff in H as (N & _). exact (N C). Qed.
Lemma lookup_in {A} (l : list (string * A)) s a : lookup s l = Some a -> In (s, a) l.
Proof. induction l as [|[k b] l IH]; cbn; [discriminate|]. destruct (String.eqb_spec s k) as [->|N]; [intros H; injection H as ->; auto|auto]. Qed.
Lemma in_lookup {A} (l : list (string * A)) s a : NoDup (map fst l) -> In (s, a) l -> lookup s l = Some a.
Proof.
  induction l as [|[k b] l IH]; cbn; [intros _ []|]. intros N [E|I]; inversion N as [|x y N1 N2]; subst; [injection E as -> ->; rewrite String.eqb_refl; reflexivity|].
  destruct (String.eqb_spec s k) as [->|E]; [exfalso; apply N1; apply (in_map fst) in I; exact I|exact (IH N2 I)].
Qed.
Lemma nodupb l : (fix go (l : list string) := match l with [] => true | x :: l => negb (existsb (String.eqb x) l) && go l end) l = true -> NoDup l.
Proof.
  induction l as [|x l IH]; intros H; constructor; apply Bool.andb_true_iff in H as (A & B); [|exact (IH B)]. intros I. apply Bool.negb_true_iff in A. assert (E : existsb (String.eqb x) l = true) by (apply existsb_exists; exists x; rewrite String.eqb_refl; auto). congruence.
Qed.
Lemma fields_nodup : NoDup (map fst fields). Proof. apply nodupb. vm_compute. reflexivity. Qed.
Lemma globals_nodup : NoDup ("REF_OUT_FILE"%string :: map (fun f => fst (snd f)) fields). Proof. apply nodupb. vm_compute. reflexivity. Qed.
Lemma global_inj f f' x k k' : In (f, (x, k)) fields -> In (f', (x, k')) fields -> f = f' /\ k = k'.
Proof.
  assert (N := globals_nodup). apply NoDup_cons_iff in N as (_ & N). revert N. generalize fields. induction l as [|[a [b c]] l IH]; intros N; [intros []|]. cbn in N. inversion N as [|y z N1 N2]; subst.
  intros [E|I] [E'|I'].
  - injection E as -> -> ->. injection E' as -> ->. auto.
  - injection E as -> -> ->. exfalso. apply N1. apply in_map_iff. exists (f', (x, k')). auto.
  - injection E' as -> -> ->. exfalso. apply N1. apply in_map_iff. exists (f, (x, k)). auto.
  - exact (IH N2 I I').
Qed.
Lemma not_ref f x k : In (f, (x, k)) fields -> x <> "REF_OUT_FILE"%string.
Proof. intros I ->. assert (N := globals_nodup). apply NoDup_cons_iff in N as (N1 & _). apply N1. apply in_map_iff. exists (f, ("REF_OUT_FILE"%string, k)). auto. Qed.
Lemma set_same g x v : set g x v x = v. Proof. unfold set. rewrite String.eqb_refl. reflexivity. Qed.
Lemma set_other g x v y : y <> x -> set g x v y = g y. Proof. unfold set. intros N. apply String.eqb_neq in N. rewrite N. reflexivity. Qed.
Lemma step_this f x k v st : In (f, (x, k)) fields -> fst (step f v st) x = convert k v.
Proof. intros I. unfold step. rewrite (in_lookup _ _ _ fields_nodup I). cbn [fst]. destruct (String.eqb f "def"); [rewrite set_other by exact (not_ref f x k I)|]; apply set_same. Qed.
Lemma step_other f f' x k v st : In (f, (x, k)) fields -> f' <> f -> fst (step f' v st) x = fst st x.
Proof.
  intros I N. unfold step. destruct (lookup f' fields) as [[x' k']|] eqn:L; [|reflexivity]. apply lookup_in in L. assert (D : x <> x') by (intros <-; destruct (global_inj _ _ _ _ _ I L); congruence). cbn [fst].
  destruct (String.eqb f' "def"); [rewrite set_other by exact (not_ref f x k I)|]; apply set_other; exact D.
Qed.
Lemma step_ref v st : fst (step "def" v st) "REF_OUT_FILE"%string = VStr v.
Proof. reflexivity. Qed.
Lemma step_ref_other f v st : f <> "def"%string -> fst (step f v st) "REF_OUT_FILE"%string = fst st "REF_OUT_FILE"%string.
Proof.
  intros N. unfold step. destruct (lookup f fields) as [[x' k']|] eqn:L; [|reflexivity]. apply lookup_in in L. apply String.eqb_neq in N. rewrite N. cbn [fst]. apply set_other. intros E. exact (not_ref _ _ _ L (eq_sym E)).
Qed.
Lemma step_rest f v st x : x <> "REF_OUT_FILE"%string -> (forall f' k, ~ In (f', (x, k)) fields) -> fst (step f v st) x = fst st x.
Proof.
  intros N A. unfold step. destruct (lookup f fields) as [[x' k']|] eqn:L; [|reflexivity]. apply lookup_in in L. assert (D : x <> x') by (intros <-; exact (A _ _ L)). cbn [fst].
  destruct (String.eqb f "def"); [rewrite set_other by exact N|]; apply set_other; exact D.
Qed.
Definition run (ls : list string) (st : (string -> value) * Z) := fold_left (fun st l => param_line l st) ls st.
Lemma run_snoc ls l st : run (ls ++ [l]) st = param_line l (run ls st).
Proof. unfold run. rewrite fold_left_app. reflexivity. Qed.
Lemma unsaid_snoc ls l f : unsaid (ls ++ [l]) f -> unsaid ls f /\ forall v, ~ says l f v.
Proof. intros U. split; [intros l' v I; apply U, in_app_iff; auto|intros v; apply U, in_app_iff; cbn; auto]. Qed.
Lemma last_snoc ls l f v : last_says (ls ++ [l]) f v -> says l f v \/ (last_says ls f v /\ forall v', ~ says l f v').
Proof.
  intros (a & x & b & E & S & U). destruct b as [|b0 b1] using rev_ind.
  - apply app_inj_tail in E as (-> & ->). auto.
  - clear IHb1. right. change (ls ++ [l] = a ++ (x :: b1) ++ [b0]) in E. rewrite app_assoc in E. apply app_inj_tail in E as (-> & ->). split; [exists a, x, b1; split; [reflexivity|]; split; [exact S|]; intros l' v' I; apply U, in_app_iff; auto|intros v'; apply U, in_app_iff; cbn; auto].
Qed.
Lemma run_field ls f x k st : In (f, (x, k)) fields ->
  (forall v, last_says ls f v -> fst (run ls st) x = convert k v) /\ (unsaid ls f -> fst (run ls st) x = fst st x).
Proof.
  intros I. induction ls as [|l ls IH] using rev_ind; [split; [intros v ([|] & y & b & E & _); discriminate|reflexivity]|]. destruct IH as (A & B). rewrite run_snoc.
  assert (O : (forall v, ~ says l f v) -> fst (param_line l (run ls st)) x = fst (run ls st) x).
  { intros U. destruct (line_cases l) as [C|(f' & v' & S)]; [rewrite line_comment by exact C; reflexivity|]. rewrite (line_says l f' v') by exact S. apply (step_other f f' x k); [exact I|]. intros ->. exact (U v' S). }
  split.
  - intros v L. apply last_snoc in L as [S|(L & U)]; [rewrite (line_says l f v) by exact S; apply step_this; exact I|rewrite O by exact U; exact (A v L)].
  - intros U. apply unsaid_snoc in U as (U & N). rewrite O by exact N. exact (B U).
Qed.
Lemma run_ref ls st : (forall v, last_says ls "def" v -> fst (run ls st) "REF_OUT_FILE"%string = VStr v) /\ (unsaid ls "def" -> fst (run ls st) "REF_OUT_FILE"%string = fst st "REF_OUT_FILE"%string).
Proof.
  induction ls as [|l ls IH] using rev_ind; [split; [intros v ([|] & y & b & E & _); discriminate|reflexivity]|]. destruct IH as (A & B). rewrite run_snoc.
  assert (O : (forall v, ~ says l "def" v) -> fst (param_line l (run ls st)) "REF_OUT_FILE"%string = fst (run ls st) "REF_OUT_FILE"%string).
  { intros U. destruct (line_cases l) as [C|(f' & v' & S)]; [rewrite line_comment by exact C; reflexivity|]. rewrite (line_says l f' v') by exact S. apply step_ref_other. intros ->. exact (U v' S). }
  split.
  - intros v L. apply last_snoc in L as [S|(L & U)]; [rewrite (line_says l "def" v) by exact S; apply step_ref|rewrite O by exact U; exact (A v L)].
  - intros U. apply unsaid_snoc in U as (U & N). rewrite O by exact N. exact (B U).
Qed.
Lemma run_rest ls x st : x <> "REF_OUT_FILE"%string -> (forall f' k, ~ In (f', (x, k)) fields) -> fst (run ls st) x = fst st x.
Proof.
  intros N A. induction ls as [|l ls IH] using rev_ind; [reflexivity|]. rewrite run_snoc, <- IH. destruct (line_cases l) as [C|(f' & v' & S)]; [rewrite line_comment by exact C; reflexivity|]. rewrite (line_says l f' v') by exact S. apply step_rest; assumption.
Qed.
Lemma step_count f v st : snd (step f v st) = snd st + (if existsb (String.eqb f) (map fst fields) && negb (String.eqb f "verbose") then 1 else 0).
Proof.
  unfold step. destruct (lookup f fields) as [[x k]|] eqn:L.
  - assert (E : existsb (String.eqb f) (map fst fields) = true) by (apply existsb_exists; exists f; rewrite String.eqb_refl; split; [apply lookup_in in L; apply (in_map fst) in L; exact L|reflexivity]). rewrite E. cbn [snd andb]. destruct (String.eqb f "verbose"); cbn; lia.
  - assert (E : existsb (String.eqb f) (map fst fields) = false).
    { destruct (existsb (String.eqb f) (map fst fields)) eqn:Q; [|reflexivity]. apply existsb_exists in Q as (y & I & E). apply String.eqb_eq in E as <-. apply in_map_iff in I as ([a b] & Ea & I). cbn in Ea. subst a. rewrite (in_lookup _ _ _ fields_nodup I) in L. discriminate. }
    rewrite E. cbn [andb]. lia.
Qed.
Lemma counts_dec l : counts l \/ ~ counts l.
Proof.
  destruct (line_cases l) as [C|(f & v & S)]; [right; intros (f & v & S & _); exact (comment_quiet _ _ _ C S)|].
  destruct (String.eqb_spec f "verbose") as [E|N]; [right; intros (f' & v' & S' & N & _); destruct (says_fun _ _ _ _ _ S S'); congruence|].
  destruct (in_dec string_dec f (map fst meaning)) as [I|I]; [left; exists f, v; auto|right; intros (f' & v' & S' & _ & I'); destruct (says_fun _ _ _ _ _ S S'); congruence].
Qed.
Lemma count_total ls : exists n, count ls n.
Proof. induction ls as [|l ls (n & H)]; [exists 0; constructor|]. destruct (counts_dec l); [exists (n + 1); constructor; assumption|exists n; constructor; assumption]. Qed.
Lemma count_line l st : (counts l -> snd (param_line l st) = snd st + 1) /\ (~ counts l -> snd (param_line l st) = snd st).
Proof.
  destruct (line_cases l) as [C|(f & v & S)].
  - rewrite line_comment by exact C. split; [intros (f & v & S & _); destruct (comment_quiet _ _ _ C S)|reflexivity].
  - rewrite (line_says l f v) by exact S. rewrite step_count. split.
    + intros (f' & v' & S' & N & I). destruct (says_fun _ _ _ _ _ S S') as (<- & _). change meaning with fields in I. assert (E : existsb (String.eqb f) (map fst fields) = true) by (apply existsb_exists; exists f; rewrite String.eqb_refl; auto). rewrite E. apply String.eqb_neq in N. rewrite N. reflexivity.
    + intros N. destruct (existsb (String.eqb f) (map fst fields)) eqn:Q; [|cbn [andb]; lia]. destruct (String.eqb_spec f "verbose") as [E|V]; [cbn [andb negb]; lia|]. exfalso. apply N. exists f, v. split; [exact S|]. split; [exact V|]. apply existsb_exists in Q as (y & I & E). apply String.eqb_eq in E as <-. exact I.
Qed.
Lemma run_count ls : forall n st, count ls n -> snd (run ls st) = snd st + n.
Proof.
  induction ls as [|l ls IH]; intros n st H; inversion H; subst; [cbn; lia| |]; change (run (l :: ls) st) with (run ls (param_line l st)); destruct (count_line l st) as (A & B).
  - rewrite (IH n0) by assumption. rewrite A by assumption. lia.
  - rewrite (IH n) by assumption. rewrite B by assumption. lia.
Qed.
(* the command line *)
Variable scan : string -> option Z.
Lemma known_in o : known o = true <-> In o option_names.
Proof. unfold known. rewrite existsb_exists. split; [intros (x & I & E); apply String.eqb_eq in E as ->; exact I|intros I; exists o; rewrite String.eqb_refl; auto]. Qed.
Lemma options_stop ovs o rest : Forall (fun ov => In (fst ov) option_names) ovs -> ~ In o option_names -> forall g, options atoi scan (pairs ovs ++ o :: rest) g = Code 2.
Proof.
  intros F N. induction F as [|[x v] ovs H F IH]; intros g; cbn [pairs flat_map app fst snd options].
  - destruct (known o) eqn:K; [apply known_in in K; contradiction|reflexivity].
  - assert (K : known x = true) by (apply known_in; exact H). rewrite K. destruct (option_step atoi scan x v g) as [g'|] eqn:E; [apply IH|reflexivity].
Qed.
Lemma step_known o v g : In o option_names -> option_step atoi scan o v g <> None.
Proof. intros [<-|[<-|[<-|[<-|[<-|[<-|[]]]]]]]; discriminate. Qed.
Lemma options_crash ovs o : Forall (fun ov => In (fst ov) option_names) ovs -> In o option_names -> forall g, options atoi scan (pairs ovs ++ [o]) g = Crash.
Proof.
  intros F N. induction F as [|[x v] ovs H F IH]; intros g; cbn [pairs flat_map app fst snd options].
  - apply known_in in N. rewrite N. reflexivity.
  - assert (K : known x = true) by (apply known_in; exact H). rewrite K. destruct (option_step atoi scan x v g) as [g'|] eqn:E; [apply IH|destruct (step_known x v g H E)].
Qed.
Lemma options_run ovs : Forall (fun ov => In (fst ov) option_names) ovs -> forall g, options atoi scan (pairs ovs) g = Run (fold_left (fun g ov => match option_step atoi scan (fst ov) (snd ov) g with Some g => g | None => g end) ovs g).
Proof.
  intros F. induction F as [|[x v] ovs H F IH]; intros g; cbn [pairs flat_map app fst snd options fold_left]; [reflexivity|].
  assert (K : known x = true) by (apply known_in; exact H). rewrite K. destruct (option_step atoi scan x v g) as [g'|] eqn:E; [apply IH|destruct (step_known x v g H E)].
Qed.
Definition stp (o v : string) (g : string -> value) := match option_step atoi scan o v g with Some g => g | None => g end.
Definition go (ovs : list (string * string)) (g : string -> value) := fold_left (fun g ov => stp (fst ov) (snd ov) g) ovs g.
Lemma given_snoc P ovs o' v' o v : last_given P (ovs ++ [(o', v')]) o v -> (o' = o /\ v' = v /\ P v) \/ (last_given P ovs o v /\ (o' = o -> ~ P v')).
Proof.
  intros (a & b & E & Q & U). destruct b as [|b0 b1] using rev_ind.
  - apply app_inj_tail in E as (-> & E). injection E as -> ->. auto.
  - clear IHb1. right. change (ovs ++ [(o', v')] = a ++ ((o, v) :: b1) ++ [b0]) in E. rewrite app_assoc in E. apply app_inj_tail in E as (-> & <-). split; [exists a, b1; split; [reflexivity|]; split; [exact Q|]|intros ->; apply (U v'), in_app_iff; cbn; auto]. intros w I. apply (U w), in_app_iff. auto.
Qed.
Lemma go_setting (o x : string) (P : string -> Prop) (c : string -> value) : (forall v, P v \/ ~ P v) ->
  (forall v g, P v -> stp o v g x = c v) -> (forall v g, ~ P v -> stp o v g x = g x) -> (forall o' v g, o' <> o -> stp o' v g x = g x) ->
  forall ovs g, (forall v, last_given P ovs o v -> go ovs g x = c v) /\ (ungiven P ovs o -> go ovs g x = g x).
Proof.
  intros D S1 S2 S3 ovs g. induction ovs as [|[o' v'] ovs IH] using rev_ind; [split; [intros v ([|] & b & E & _); discriminate|reflexivity]|]. destruct IH as (A & B).
  unfold go in *. rewrite fold_left_app. cbn [fold_left fst snd]. set (g1 := fold_left _ ovs g) in *. split.
  - intros v L. apply given_snoc in L as [(-> & -> & Q)|(L & N)]; [exact (S1 v g1 Q)|]. destruct (string_dec o' o) as [->|E]; [rewrite S2 by exact (N eq_refl)|rewrite S3 by exact E]; exact (A v L).
  - intros U. assert (U' : ungiven P ovs o) by (intros v I; apply (U v), in_app_iff; auto). destruct (string_dec o' o) as [->|E]; [rewrite S2 by (apply (U v'), in_app_iff; cbn; auto)|rewrite S3 by exact E]; exact (B U').
Qed.
Lemma stp_frame o v g x : stp o v g x <> g x -> (o = "-lef" /\ x = "LEF_FILE")%string \/ (o = "-def" /\ (x = "DEF_FILE" \/ x = "REF_OUT_FILE"))%string \/ (o = "-guide" /\ x = "GUIDE_FILE")%string \/
  (o = "-threads" /\ x = "MAX_THREADS")%string \/ (o = "-output" /\ x = "OUT_FILE")%string \/ (o = "-verbose" /\ x = "VERBOSE")%string.
Proof.
  unfold stp, option_step. intros H.
  destruct (String.eqb_spec o "-lef") as [->|_]; [unfold set in H; destruct (String.eqb_spec x "LEF_FILE"); [auto|congruence]|].
  destruct (String.eqb_spec o "-def") as [->|_]; [unfold set in H; destruct (String.eqb_spec x "REF_OUT_FILE"); [auto 10|]; destruct (String.eqb_spec x "DEF_FILE"); [auto 10|congruence]|].
  destruct (String.eqb_spec o "-guide") as [->|_]; [unfold set in H; destruct (String.eqb_spec x "GUIDE_FILE"); [auto 10|congruence]|].
  destruct (String.eqb_spec o "-threads") as [->|_]; [destruct (scan v); [unfold set in H; destruct (String.eqb_spec x "MAX_THREADS"); [auto 10|congruence]|congruence]|].
  destruct (String.eqb_spec o "-output") as [->|_]; [unfold set in H; destruct (String.eqb_spec x "OUT_FILE"); [auto 10|congruence]|].
  destruct (String.eqb_spec o "-verbose") as [->|_]; [unfold set in H; destruct (String.eqb_spec x "VERBOSE"); [auto 10|congruence]|]. congruence.
Qed.
Lemma value_dec (a b : value) : a = b \/ a <> b.
Proof. destruct a as [s|z|s], b as [s'|z'|s']; try (right; discriminate); [destruct (string_dec s s')|destruct (Z.eq_dec z z')|destruct (string_dec s s')]; subst; auto; right; congruence. Qed.
Ltac frame := let o' := fresh in let v := fresh in let g := fresh in let N := fresh in let D := fresh in
  intros o' v g N; match goal with |- ?a = ?b => destruct (value_dec a b) as [D|D]; [exact D|exfalso; apply stp_frame in D; intuition congruence] end.
Lemma go_lef : forall ovs g, (forall v, last_given any ovs "-lef" v -> go ovs g "LEF_FILE"%string = VStr v) /\ (ungiven any ovs "-lef" -> go ovs g "LEF_FILE"%string = g "LEF_FILE"%string).
Proof. apply (go_setting "-lef" "LEF_FILE" any VStr); [left; exact I|reflexivity|intros v g N; destruct (N I)|frame]. Qed.
Lemma go_def : forall ovs g, (forall v, last_given any ovs "-def" v -> go ovs g "DEF_FILE"%string = VStr v) /\ (ungiven any ovs "-def" -> go ovs g "DEF_FILE"%string = g "DEF_FILE"%string).
Proof. apply (go_setting "-def" "DEF_FILE" any VStr); [left; exact I|reflexivity|intros v g N; destruct (N I)|frame]. Qed.
Lemma go_ref : forall ovs g, (forall v, last_given any ovs "-def" v -> go ovs g "REF_OUT_FILE"%string = VStr v) /\ (ungiven any ovs "-def" -> go ovs g "REF_OUT_FILE"%string = g "REF_OUT_FILE"%string).
Proof. apply (go_setting "-def" "REF_OUT_FILE" any VStr); [left; exact I|reflexivity|intros v g N; destruct (N I)|frame]. Qed.
Lemma go_guide : forall ovs g, (forall v, last_given any ovs "-guide" v -> go ovs g "GUIDE_FILE"%string = VStr v) /\ (ungiven any ovs "-guide" -> go ovs g "GUIDE_FILE"%string = g "GUIDE_FILE"%string).
Proof. apply (go_setting "-guide" "GUIDE_FILE" any VStr); [left; exact I|reflexivity|intros v g N; destruct (N I)|frame]. Qed.
Lemma go_output : forall ovs g, (forall v, last_given any ovs "-output" v -> go ovs g "OUT_FILE"%string = VStr v) /\ (ungiven any ovs "-output" -> go ovs g "OUT_FILE"%string = g "OUT_FILE"%string).
Proof. apply (go_setting "-output" "OUT_FILE" any VStr); [left; exact I|reflexivity|intros v g N; destruct (N I)|frame]. Qed.
Lemma go_verbose : forall ovs g, (forall v, last_given any ovs "-verbose" v -> go ovs g "VERBOSE"%string = VInt (atoi v)) /\ (ungiven any ovs "-verbose" -> go ovs g "VERBOSE"%string = g "VERBOSE"%string).
Proof. apply (go_setting "-verbose" "VERBOSE" any (fun v => VInt (atoi v))); [left; exact I|reflexivity|intros v g N; destruct (N I)|frame]. Qed.
Lemma go_threads : forall ovs g, (forall v z, last_given (fun v => scan v <> None) ovs "-threads" v -> scan v = Some z -> go ovs g "MAX_THREADS"%string = VInt z) /\ (ungiven (fun v => scan v <> None) ovs "-threads" -> go ovs g "MAX_THREADS"%string = g "MAX_THREADS"%string).
Proof.
  intros ovs g. assert (H := go_setting "-threads" "MAX_THREADS" (fun v => scan v <> None) (fun v => match scan v with Some z => VInt z | None => VInt 0 end)).
  assert (K : (forall v, last_given (fun v => scan v <> None) ovs "-threads" v -> go ovs g "MAX_THREADS"%string = (fun v => match scan v with Some z => VInt z | None => VInt 0 end) v) /\ (ungiven (fun v => scan v <> None) ovs "-threads" -> go ovs g "MAX_THREADS"%string = g "MAX_THREADS"%string)).
  { apply H.
    - intros v. destruct (scan v); [left; discriminate|right; congruence].
    - intros v g' N. unfold stp, option_step. cbn [String.eqb Ascii.eqb]. cbn. destruct (scan v); [reflexivity|congruence].
    - intros v g' N. unfold stp, option_step. cbn. destruct (scan v); [destruct N; discriminate|reflexivity].
    - frame. }
  destruct K as (A & B). split; [|exact B]. intros v z L E. rewrite (A v L). cbn. rewrite E. reflexivity.
Qed.
Lemma go_rest ovs g x : ~ In x ["LEF_FILE"; "DEF_FILE"; "REF_OUT_FILE"; "GUIDE_FILE"; "MAX_THREADS"; "OUT_FILE"; "VERBOSE"]%string -> go ovs g x = g x.
Proof.
  intros N. revert g. induction ovs as [|[o v] ovs IH]; intros g; [reflexivity|]. unfold go in *. cbn [fold_left fst snd]. rewrite IH. destruct (value_dec (stp o v g x) (g x)) as [D|D]; [exact D|]. exfalso. apply N. apply stp_frame in D. cbn. intuition congruence.
Qed.
End P.
