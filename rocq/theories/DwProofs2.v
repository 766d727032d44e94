From Coq Require Import String.
From Verif Require Import Base DwModel DwSpec DwProofs.
Local Open Scope string_scope.
Local Open Scope Z_scope.
Local Open Scope list_scope.

Section T.
Variable ty : string -> ptype.
Lemma ro_mono f : forall f' c ts x, (f <= f')%nat -> read_options ty f c ts = Some x -> read_options ty f' c ts = Some x.
Proof.
  induction f as [|f IH]; intros f' c ts x L H; [discriminate|]. destruct f' as [|f']; [lia|]. cbn [read_options] in *. destruct (eat "+" ts) as [r|]; [|exact H]. destruct (read_option ty c r) as [[c' r']|]; [|exact H]. apply IH; [lia|exact H].
Qed.
(* one option *)
Lemma pt_orient_ok x y o r : is_orient o -> pt_orient (W "(" :: Nu x :: Nu y :: W ")" :: W (orient_str o) :: r) = Some (x, y, o, r).
Proof. intros H. unfold pt_orient, pt. change (eat "(" (W "(" :: ?r)) with (Some r). cbv iota beta. cbn [num]. change (eat ")" (W ")" :: ?r)) with (Some r). cbv iota beta. rewrite orient_ok by exact H. reflexivity. Qed.

(* a property of what is left to read that holds before an option if it holds after it *)
Variable Q : comp -> list tok -> Prop.
Hypothesis Q_step : forall c c' b rest, read_option ty c (b ++ rest) = Some (c', rest) -> Q c' rest -> Q c ((W "+" :: b) ++ rest).

Definition o_source (o : option string) := opt (fun s => [W "+"; W "SOURCE"; W s]) o.
Definition o_gen (o : option (string * string)) := opt (fun g => [W "+"; W "GENERATE"; W (fst g)] ++ (if String.eqb (snd g) "" then [] else [W (snd g)])) o.
Definition o_weight (o : option Z) := opt (fun w => [W "+"; W "WEIGHT"; Nu w]) o.
Definition o_eeq (o : option string) := opt (fun s => [W "+"; W "EEQMASTER"; W s]) o.
Definition o_region (o : option string) := opt (fun s => [W "+"; W "REGION"; W s]) o.
Definition o_mask (o : option string) := opt (fun s => [W "+"; W "MASKSHIFT"; W s]) o.
Definition o_halo (o : option (bool * (Z * Z * Z * Z))) := opt (fun h => match h with (soft, (l, b, r, t)) => [W "+"; W "HALO"] ++ (if soft : bool then [W "SOFT"] else []) ++ [Nu l; Nu b; Nu r; Nu t] end) o.
Definition o_rhalo (o : option (Z * string * string)) := opt (fun h => match h with (d, a, b) => [W "+"; W "ROUTEHALO"; Nu d; W a; W b] end) o.

Lemma ro_source i m ns o p g w e rg mk h rh ps rest : (forall s, o = Some s -> In s ["NETLIST"; "DIST"; "USER"; "TIMING"]) ->
  Q (mkCo i m ns o p g w e rg mk h rh ps) rest -> Q (mkCo i m ns None p g w e rg mk h rh ps) (o_source o ++ rest).
Proof.
  intros H R. destruct o as [s|]; [|exact R]. apply (Q_step _ (mkCo i m ns (Some s) p g w e rg mk h rh ps) [W "SOURCE"; W s]); [|exact R]. specialize (H s eq_refl). repeat destruct H as [<-|H]; try reflexivity. contradiction.
Qed.
Lemma ro_place i m ns s p g w e rg mk h rh ps rest : place_wf p -> ~ (exists a b o, p = Cover a b o) ->
  Q (mkCo i m ns s p g w e rg mk h rh ps) rest -> Q (mkCo i m ns s NoPlace g w e rg mk h rh ps) (print_place p ++ rest).
Proof.
  intros H C R. destruct p as [|a b o|a b o|a b o|]; cbn [print_place place_wf] in *.
  - exact R.
  - apply (Q_step _ (mkCo i m ns s (Fixed a b o) g w e rg mk h rh ps) [W "FIXED"; W "("; Nu a; Nu b; W ")"; W (orient_str o)]); [|exact R].
    change (read_option ty ?c ([W "FIXED"; W "("; Nu a; Nu b; W ")"; W (orient_str o)] ++ rest)) with (match pt_orient (W "(" :: Nu a :: Nu b :: W ")" :: W (orient_str o) :: rest) with Some (x, y, o', r) => Some (set_place (Fixed x y o') c, r) | None => None end). rewrite pt_orient_ok by exact H. reflexivity.
  - elim C. exists a, b, o. reflexivity.
  - apply (Q_step _ (mkCo i m ns s (Placed a b o) g w e rg mk h rh ps) [W "PLACED"; W "("; Nu a; Nu b; W ")"; W (orient_str o)]); [|exact R].
    change (read_option ty ?c ([W "PLACED"; W "("; Nu a; Nu b; W ")"; W (orient_str o)] ++ rest)) with (match pt_orient (W "(" :: Nu a :: Nu b :: W ")" :: W (orient_str o) :: rest) with Some (x, y, o', r) => Some (set_place (Placed x y o') c, r) | None => None end). rewrite pt_orient_ok by exact H. reflexivity.
  - apply (Q_step _ (mkCo i m ns s Unplaced g w e rg mk h rh ps) [W "UNPLACED"]); [reflexivity|exact R].
Qed.
Lemma ro_gen i m ns s p o w e rg mk h rh ps rest : (forall a b, o = Some (a, b) -> is_name a /\ is_name b) -> stops rest ->
  Q (mkCo i m ns s p o w e rg mk h rh ps) rest -> Q (mkCo i m ns s p None w e rg mk h rh ps) (o_gen o ++ rest).
Proof.
  intros H S R. destruct o as [[a b]|]; [|exact R]. destruct (H a b eq_refl) as [H1 H2].
  apply (Q_step _ (mkCo i m ns s p (Some (a, b)) w e rg mk h rh ps) ([W "GENERATE"; W a] ++ (if String.eqb b "" then [] else [W b]))); [|exact R]. cbn [app].
  change (read_option ty ?c (W "GENERATE" :: W a :: ?r0)) with (match word (W a :: r0) with Some (s, r) => match word r with Some (m, r) => Some (set_gen (s, m) c, r) | None => Some (set_gen (s, "") c, r) end | None => None end). rewrite word_name by exact H1.
  destruct (String.eqb_spec b "") as [->|N]; cbn [app]; [rewrite word_stops by exact S|rewrite word_name by exact H2]; reflexivity.
Qed.
Lemma ro_weight i m ns s p g o e rg mk h rh ps rest : 
  Q (mkCo i m ns s p g o e rg mk h rh ps) rest -> Q (mkCo i m ns s p g None e rg mk h rh ps) (o_weight o ++ rest).
Proof. intros R. destruct o as [w|]; [|exact R]. apply (Q_step _ (mkCo i m ns s p g (Some w) e rg mk h rh ps) [W "WEIGHT"; Nu w]); [reflexivity|exact R]. Qed.
Lemma ro_eeq i m ns s p g w o rg mk h rh ps rest : (forall n, o = Some n -> is_name n) ->
  Q (mkCo i m ns s p g w o rg mk h rh ps) rest -> Q (mkCo i m ns s p g w None rg mk h rh ps) (o_eeq o ++ rest).
Proof.
  intros H R. destruct o as [n|]; [|exact R]. apply (Q_step _ (mkCo i m ns s p g w (Some n) rg mk h rh ps) [W "EEQMASTER"; W n]); [|exact R].
  change (read_option ty ?c ([W "EEQMASTER"; W n] ++ rest)) with (match word (W n :: rest) with Some (s, r) => Some (set_eeq s c, r) | None => None end). rewrite word_name by (apply H; reflexivity). reflexivity.
Qed.
Lemma ro_region i m ns s p g w e o mk h rh ps rest : (forall n, o = Some n -> is_name n) ->
  Q (mkCo i m ns s p g w e o mk h rh ps) rest -> Q (mkCo i m ns s p g w e None mk h rh ps) (o_region o ++ rest).
Proof.
  intros H R. destruct o as [n|]; [|exact R]. apply (Q_step _ (mkCo i m ns s p g w e (Some n) mk h rh ps) [W "REGION"; W n]); [|exact R].
  change (read_option ty ?c ([W "REGION"; W n] ++ rest)) with (match word (W n :: rest) with Some (s, r) => Some (set_region s c, r) | None => None end). rewrite word_name by (apply H; reflexivity). reflexivity.
Qed.
Lemma ro_mask i m ns s p g w e rg o h rh ps rest : (forall n, o = Some n -> is_name n) ->
  Q (mkCo i m ns s p g w e rg o h rh ps) rest -> Q (mkCo i m ns s p g w e rg None h rh ps) (o_mask o ++ rest).
Proof.
  intros H R. destruct o as [n|]; [|exact R]. apply (Q_step _ (mkCo i m ns s p g w e rg (Some n) h rh ps) [W "MASKSHIFT"; W n]); [|exact R].
  change (read_option ty ?c ([W "MASKSHIFT"; W n] ++ rest)) with (match word (W n :: rest) with Some (s, r) => Some (set_mask s c, r) | None => None end). rewrite word_name by (apply H; reflexivity). reflexivity.
Qed.
Lemma ro_halo i m ns s p g w e rg mk o rh ps rest :
  Q (mkCo i m ns s p g w e rg mk o rh ps) rest -> Q (mkCo i m ns s p g w e rg mk None rh ps) (o_halo o ++ rest).
Proof.
  intros R. destruct o as [[soft [[[l b] r] t]]|]; [|exact R].
  apply (Q_step _ (mkCo i m ns s p g w e rg mk (Some (soft, (l, b, r, t))) rh ps) ([W "HALO"] ++ (if soft then [W "SOFT"] else []) ++ [Nu l; Nu b; Nu r; Nu t])); [|exact R]. destruct soft; reflexivity.
Qed.
Lemma ro_rhalo i m ns s p g w e rg mk h o ps rest : (forall d a b, o = Some (d, a, b) -> is_name a /\ is_name b) ->
  Q (mkCo i m ns s p g w e rg mk h o ps) rest -> Q (mkCo i m ns s p g w e rg mk h None ps) (o_rhalo o ++ rest).
Proof.
  intros H R. destruct o as [[[d a] b]|]; [|exact R]. destruct (H d a b eq_refl) as [H1 H2]. apply (Q_step _ (mkCo i m ns s p g w e rg mk h (Some (d, a, b)) ps) [W "ROUTEHALO"; Nu d; W a; W b]); [|exact R].
  change (read_option ty ?c ([W "ROUTEHALO"; Nu d; W a; W b] ++ rest)) with (match word (W a :: W b :: rest) with Some (a, r) => match word r with Some (b, r) => Some (set_rhalo (d, a, b) c, r) | None => None end | None => None end). rewrite (word_name a) by exact H1. rewrite (word_name b) by exact H2. reflexivity.
Qed.
Definition plus_or_nil (l : list tok) : Prop := l = [] \/ exists r, l = W "+" :: r.
Lemma stops_app l r : plus_or_nil l -> stops r -> stops (l ++ r).
Proof. intros [->|(x & ->)] H; [exact H|reflexivity]. Qed.
Lemma pn_place p : plus_or_nil (print_place p). Proof. destruct p; [left|right; eexists|right; eexists|right; eexists|right; eexists]; reflexivity. Qed.
Lemma pn_source o : plus_or_nil (o_source o). Proof. destruct o; [right; eexists|left]; reflexivity. Qed.
Lemma pn_gen o : plus_or_nil (o_gen o). Proof. destruct o; [right; eexists|left]; reflexivity. Qed.
Lemma pn_weight o : plus_or_nil (o_weight o). Proof. destruct o; [right; eexists|left]; reflexivity. Qed.
Lemma pn_eeq o : plus_or_nil (o_eeq o). Proof. destruct o; [right; eexists|left]; reflexivity. Qed.
Lemma pn_region o : plus_or_nil (o_region o). Proof. destruct o; [right; eexists|left]; reflexivity. Qed.
Lemma pn_mask o : plus_or_nil (o_mask o). Proof. destruct o; [right; eexists|left]; reflexivity. Qed.
Lemma pn_halo o : plus_or_nil (o_halo o). Proof. destruct o as [[? [[[? ?] ?] ?]]|]; [right; eexists|left]; reflexivity. Qed.
Lemma pn_rhalo o : plus_or_nil (o_rhalo o). Proof. destruct o as [[[? ?] ?]|]; [right; eexists|left]; reflexivity. Qed.
Lemma pn_props ps : plus_or_nil (flat_map print_prop ps). Proof. destruct ps; [left|right; eexists]; reflexivity. Qed.

Definition no_props (c : comp) : comp := mkCo (c_id c) (c_model c) (c_nets c) (c_source c) (c_place c) (c_gen c) (c_weight c) (c_eeq c) (c_region c) (c_mask c) (c_halo c) (c_rhalo c) [].
Lemma print_comp_eq c : print_comp c = [W "-"; W (c_id c); W (c_model c)] ++ map W (c_nets c) ++ o_source (c_source c) ++ print_place (c_place c) ++ o_gen (c_gen c) ++ o_weight (c_weight c) ++ o_eeq (c_eeq c) ++ o_region (c_region c) ++ o_mask (c_mask c) ++ o_halo (c_halo c) ++ o_rhalo (c_rhalo c) ++ flat_map print_prop (c_props c) ++ [W ";"].
Proof. reflexivity. Qed.
(* the options before the properties *)
Lemma comp_options c tail : comp_wf c -> ~ is_cover c -> stops tail -> Q (no_props c) tail ->
  let l := o_source (c_source c) ++ print_place (c_place c) ++ o_gen (c_gen c) ++ o_weight (c_weight c) ++ o_eeq (c_eeq c) ++ o_region (c_region c) ++ o_mask (c_mask c) ++ o_halo (c_halo c) ++ o_rhalo (c_rhalo c) in
  Q (mkCo (c_id c) (c_model c) (c_nets c) None NoPlace None None None None None None None []) (l ++ tail).
Proof.
  intros (W1 & W2 & W3 & W4 & W5 & W6 & W7 & W8 & W9 & W10 & W11) NC S R. unfold no_props in R. unfold is_cover in NC. destruct c as [i m ns s p g w e rg mk h rh ps]. cbn [c_id c_model c_nets c_source c_place c_gen c_weight c_eeq c_region c_mask c_halo c_rhalo c_props] in *. cbn zeta. rewrite <- !app_assoc.
  apply ro_source; [exact W4|]. apply ro_place; [exact W5|intros (a & b & o & ->); apply NC; exact I|].
  apply ro_gen; [exact W6| |]. { repeat (apply stops_app; [first [apply pn_weight|apply pn_eeq|apply pn_region|apply pn_mask|apply pn_halo|apply pn_rhalo]|]). exact S. }
  apply ro_weight, ro_eeq; [exact W7|]. apply ro_region; [exact W8|]. apply ro_mask; [exact W9|]. apply ro_halo, ro_rhalo; [exact W10|]. exact R.
Qed.
End T.
Section U.
Variable ty : string -> ptype.
Lemma read_comp_eq c tail : comp_wf c -> stops tail ->
  let l := o_source (c_source c) ++ print_place (c_place c) ++ o_gen (c_gen c) ++ o_weight (c_weight c) ++ o_eeq (c_eeq c) ++ o_region (c_region c) ++ o_mask (c_mask c) ++ o_halo (c_halo c) ++ o_rhalo (c_rhalo c) in
  read_comp ty ([W "-"; W (c_id c); W (c_model c)] ++ map W (c_nets c) ++ l ++ tail) =
  match read_options ty (S (length (l ++ tail))) (mkCo (c_id c) (c_model c) (c_nets c) None NoPlace None None None None None None None []) (l ++ tail) with
  | Some (c, r) => match eat ";" r with Some r => Some (c, r) | None => None end | None => None end.
Proof.
  intros (W1 & W2 & W3 & _) S. cbn zeta. set (l := o_source _ ++ _ ++ _). unfold read_comp. cbn [app]. change (eat "-" (W "-" :: ?r)) with (Some r). cbv iota beta. rewrite (word_name (c_id c)) by exact W1. rewrite (word_name (c_model c)) by exact W2.
  rewrite words_names; [reflexivity|exact W3|]. subst l. rewrite <- !app_assoc. repeat (apply stops_app; [first [apply pn_source|apply pn_place|apply pn_gen|apply pn_weight|apply pn_eeq|apply pn_region|apply pn_mask|apply pn_halo|apply pn_rhalo]|]). exact S.
Qed.
Lemma reads_step x c c' b rest : read_option ty c (b ++ rest) = Some (c', rest) ->
  (exists f, (f <= S (length rest))%nat /\ read_options ty f c' rest = Some x) -> exists f, (f <= S (length ((W "+" :: b) ++ rest)))%nat /\ read_options ty f c ((W "+" :: b) ++ rest) = Some x.
Proof.
  intros H (f & L & R). exists (S f). split; [cbn [app length]; rewrite app_length; lia|]. cbn [app read_options]. change (eat "+" (W "+" :: ?r)) with (Some r). cbv iota beta. rewrite H. exact R.
Qed.
Lemma comp_read c rest : comp_wf c -> ~ is_cover c -> c_props c = [] -> read_comp ty (print_comp c ++ rest) = Some (c, rest).
Proof.
  intros H NC P. rewrite print_comp_eq, P. cbn [flat_map]. rewrite app_nil_l.
  pose proof (read_comp_eq c (W ";" :: rest) H eq_refl) as E. cbn zeta in E. repeat rewrite <- app_assoc in E; repeat rewrite <- app_assoc. cbn [app] in E |- *. rewrite E. clear E.
  destruct (comp_options ty _ (reads_step (no_props c, W ";" :: rest)) c (W ";" :: rest) H NC eq_refl) as (f & L & R).
  { exists 1%nat. split; [cbn; lia|reflexivity]. }
  repeat rewrite <- app_assoc in R. repeat rewrite <- app_assoc in L. erewrite ro_mono; [| |exact R]; [|exact L]. change (eat ";" (W ";" :: rest)) with (Some rest). cbv iota beta. unfold no_props. rewrite <- P. destruct c; reflexivity.
Qed.
Lemma fails_step c c' b rest : read_option ty c (b ++ rest) = Some (c', rest) ->
  (forall f, read_options ty f c' rest = None) -> forall f, read_options ty f c ((W "+" :: b) ++ rest) = None.
Proof.
  intros H R [|f]; [reflexivity|]. cbn [app read_options]. change (eat "+" (W "+" :: ?r)) with (Some r). cbv iota beta. rewrite H. apply R.
Qed.
Lemma pairs_type n v t : pairs [n; v; t] = None. Proof. reflexivity. Qed.
Lemma type_name t : is_name (ptype_str t).
Proof. unfold is_name. destruct t; intros H; cbn in H; repeat destruct H as [H|H]; try discriminate H; exact H. Qed.
Lemma comp_property_lost c rest : comp_wf c -> ~ is_cover c -> c_props c <> [] -> read_comp ty (print_comp c ++ rest) = None.
Proof.
  intros H NC P. rewrite print_comp_eq. set (tail := flat_map print_prop (c_props c) ++ W ";" :: rest).
  assert (S0 : stops tail). { subst tail. apply stops_app; [apply pn_props|reflexivity]. }
  pose proof (read_comp_eq c tail H S0) as E. cbn zeta in E. repeat rewrite <- app_assoc in E; repeat rewrite <- app_assoc. cbn [app] in E |- *. fold tail. rewrite E. clear E.
  pose proof (comp_options ty _ fails_step c tail H NC S0) as R. cbn zeta in R. repeat rewrite <- app_assoc in R. rewrite R; [reflexivity|]. clear R.
  destruct H as (_ & _ & _ & _ & _ & _ & _ & _ & _ & _ & HP). destruct (c_props c) as [|[[n v] t] ps] eqn:EP; [contradiction|]. destruct (HP (n, v, t) (or_introl eq_refl)) as [N1 N2]. cbn [fst snd] in N1, N2.
  intros [|f]; [reflexivity|]. subst tail. cbn [flat_map]. unfold print_prop at 1. cbn [fst snd app]. repeat rewrite <- app_assoc. cbn [app]. cbn [read_options]. change (eat "+" (W "+" :: ?r)) with (Some r). cbv iota beta.
  set (r := flat_map print_prop ps ++ W ";" :: rest). assert (S1 : stops r). { subst r. apply stops_app; [apply pn_props|reflexivity]. }
  change (read_option ty ?c0 (W "PROPERTY" :: ?rr)) with (let (l, r) := words rr in match l with [] => None | _ => match pairs l with Some ps => Some (add_props (map (fun p => (fst p, snd p, ty (fst p))) ps) c0, r) | None => None end end).
  change (W n :: W v :: W (ptype_str t) :: r) with (map W [n; v; ptype_str t] ++ r). rewrite words_names; [reflexivity| |exact S1].
  intros s [<-|[<-|[<-|[]]]]; [exact N1|exact N2|apply type_name].
Qed.
Lemma comp_cover_lost c rest : comp_wf c -> is_cover c -> read_comp ty (print_comp c ++ rest) = None.
Proof.
  intros H IC. rewrite print_comp_eq. unfold is_cover in IC. destruct (c_place c) as [|a b o|a b o|a b o|] eqn:EP; try contradiction.
  pose proof (read_comp_eq c (flat_map print_prop (c_props c) ++ W ";" :: rest) H (stops_app _ (W ";" :: rest) (pn_props _) eq_refl)) as E. cbn zeta in E. rewrite EP in E. repeat rewrite <- app_assoc in E; repeat rewrite <- app_assoc. cbn [app] in E |- *. rewrite E. clear E.
  match goal with |- match ?e with _ => _ end = _ => enough (Z : e = None) by (rewrite Z; reflexivity) end.
  set (tl := print_place (Cover a b o) ++ _). assert (F : forall c0 f, read_options ty f c0 tl = None). { intros c0 [|f]; reflexivity. }
  destruct H as (_ & _ & _ & W4 & _). generalize (S (length (o_source (c_source c) ++ tl))). 
  apply (ro_source ty _ fails_step); [exact W4|]. apply F.
Qed.
End U.
