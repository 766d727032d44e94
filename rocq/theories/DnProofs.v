From Coq Require Import String.
From Verif Require Import Base DwModel DwSpec DwProofs SnModel SnProofs DpProofs DvModel DvSpec DvProofs DnModel DnSpec.
Local Open Scope string_scope.
Local Open Scope Z_scope.
Local Open Scope list_scope.

Section Types.
Variable type_of : string -> ptype.
(* --- properties: the word for the type is left over --- *)
Lemma ptype_name p : is_name (ptype_str p). Proof. apply sign_name. destruct p; reflexivity. Qed.
Lemma prop_words a b p r : is_name a -> is_name b -> stops r -> words (W a :: W b :: W (ptype_str p) :: r) = ([a; b; ptype_str p], r).
Proof. intros A B S. apply (words_names [a; b; ptype_str p] r); [|exact S]. intros s [<-|[<-|[<-|[]]]]; [exact A|exact B|apply ptype_name]. Qed.
Lemma props_stop ps rest : stops (flat_map print_prop ps ++ W ";" :: rest).
Proof. destruct ps as [|p ps]; reflexivity. Qed.

(* --- regions --- *)
Lemma two_read p r : two_pts (print_rrect p ++ r) = Some (p, r). Proof. destruct p as [[[a b] c] d]. reflexivity. Qed.
Lemma rrects_read l : forall f r, eat "(" r = None -> (length l < f)%nat -> read_rrects f (flat_map print_rrect l ++ r) = Some (l, r).
Proof.
  induction l as [|x l IH]; intros f r E L; (destruct f as [|f]; [cbn [length] in L; lia|]); cbn [flat_map read_rrects].
  - cbn [app]. rewrite E. reflexivity.
  - rewrite <- app_assoc. assert (P : exists y, eat "(" (print_rrect x ++ flat_map print_rrect l ++ r) = Some y) by (destruct x as [[[a b] c] d]; eexists; reflexivity). destruct P as (y & ->).
    rewrite two_read. rewrite IH; [reflexivity|exact E|cbn [length] in L; lia].
Qed.
Lemma rrects_len l : (length l <= length (flat_map print_rrect l))%nat.
Proof. induction l as [|[[[a b] c] d] l IH]; cbn [flat_map length]; [lia|]. rewrite app_length. cbn [print_rrect length]. lia. Qed.
Definition reg_tail (g : region) : list tok := opt (fun s => [W "+"; W "TYPE"; W s]) (rg_type g) ++ flat_map print_prop (rg_props g) ++ [W ";"].
Lemma tail_paren g rest : eat "(" (reg_tail g ++ rest) = None.
Proof. unfold reg_tail. destruct (rg_type g); [reflexivity|]. cbn [opt app]. destruct (rg_props g); reflexivity. Qed.
Lemma region_head g rest : is_name (rg_name g) -> rg_rects g <> [] ->
  read_region type_of (print_region g ++ rest) = read_regopts type_of (S (length (reg_tail g ++ rest))) (mkRg (rg_name g) (rg_rects g) None []) (reg_tail g ++ rest).
Proof.
  intros N R. unfold print_region, read_region. repeat rewrite <- app_assoc. cbn [app]. rewrite eat_same. rewrite word_name by exact N. destruct (rg_rects g) as [|x l]; [contradiction|]. cbn [flat_map]. rewrite <- app_assoc. rewrite two_read.
  replace (opt (fun s => [W "+"; W "TYPE"; W s]) (rg_type g) ++ flat_map print_prop (rg_props g) ++ W ";" :: rest) with (reg_tail g ++ rest) by (unfold reg_tail; repeat rewrite <- app_assoc; reflexivity).
  rewrite rrects_read; [reflexivity|apply tail_paren|]. rewrite app_length. pose proof (rrects_len l). lia.
Qed.
Lemma type_ok s : s = "FENCE" \/ s = "GUIDE" -> forall r, one_of region_types (W s :: r) = Some (s, r).
Proof. intros H r. apply one_of_read; [destruct H as [->| ->]; [left|right; left]; reflexivity|]. intros x [<-|[<-|[]]]; apply sign_name; reflexivity. Qed.
Lemma region_read g rest : region_wf g -> rg_props g = [] -> read_region type_of (print_region g ++ rest) = Some (g, rest).
Proof.
  intros (N & R & T & _) P. rewrite region_head by assumption. unfold reg_tail. rewrite P. cbn [flat_map app]. destruct g as [n l [s|] ps]; cbn [rg_name rg_rects rg_type rg_props] in *; subst ps; cbn [opt app length read_regopts].
  - rewrite eat_other by discriminate. rewrite eat_same. unfold read_regopt. rewrite eat_same. cbn [rg_type]. rewrite type_ok by (apply T; reflexivity). rewrite eat_same. reflexivity.
  - rewrite eat_same. reflexivity.
Qed.
Lemma region_broken g rest : region_wf g -> rg_props g <> [] -> read_region type_of (print_region g ++ rest) = None.
Proof.
  intros (N & R & T & Pw) P. rewrite region_head by assumption. unfold reg_tail. destruct g as [n l t [|[[a b] k] ps]]; cbn [rg_name rg_rects rg_type rg_props] in *; [contradiction|].
  destruct (Pw (a, b, k) (or_introl eq_refl)) as (A & B). cbn [fst snd] in A, B.
  assert (C : forall f g', read_regopts type_of f g' (flat_map print_prop ((a, b, k) :: ps) ++ W ";" :: rest) = None).
  { intros [|f] g'; [reflexivity|]. cbn [flat_map]. rewrite <- app_assoc. change (print_prop (a, b, k) ++ ?r) with (W "+" :: W "PROPERTY" :: W a :: W b :: W (ptype_str k) :: r). cbn [read_regopts]. rewrite eat_other by discriminate. rewrite eat_same. unfold read_regopt. rewrite eat_other by discriminate. rewrite eat_same.
    rewrite prop_words; [reflexivity|exact A|exact B|apply props_stop]. }
  repeat rewrite <- app_assoc. cbn [app]. destruct t as [s|]; cbn [opt]; [|apply C]. cbn [app]. cbn [read_regopts]. rewrite eat_other by discriminate. rewrite eat_same. unfold read_regopt at 1. rewrite eat_same. cbn [rg_type]. rewrite type_ok by (apply T; reflexivity). apply C.
Qed.

(* --- nondefault rules --- *)
Definition free_of (ts : list tok) : Prop := eat "DIAGWIDTH" ts = None /\ eat "SPACING" ts = None /\ eat "WIREEXT" ts = None.
Lemma ndl_end f l rest : free_of rest -> read_ndlopts (S f) l rest = Some (l, rest).
Proof. intros (F1 & F2 & F3). cbn [read_ndlopts]. rewrite F1, F2, F3. reflexivity. Qed.
Lemma ndl_ext f n w d s e rest : free_of rest -> read_ndlopts (S (S f)) (mkNl n w d s None) (maybe "WIREEXT" e ++ rest) = Some (mkNl n w d s e, rest).
Proof. intros F. destruct e as [e|]; [|apply ndl_end; exact F]. transitivity (read_ndlopts (S f) (mkNl n w d s (Some e)) rest); [reflexivity|apply ndl_end; exact F]. Qed.
Lemma ndl_spc f n w d s e rest : free_of rest -> read_ndlopts (S (S (S f))) (mkNl n w d None None) (maybe "SPACING" s ++ maybe "WIREEXT" e ++ rest) = Some (mkNl n w d s e, rest).
Proof. intros F. destruct s as [s|]; [|apply ndl_ext; exact F]. transitivity (read_ndlopts (S (S f)) (mkNl n w d (Some s) None) (maybe "WIREEXT" e ++ rest)); [reflexivity|apply ndl_ext; exact F]. Qed.
Lemma ndl_diag f n w d s e rest : free_of rest -> read_ndlopts (S (S (S (S f)))) (mkNl n w None None None) (maybe "DIAGWIDTH" d ++ maybe "SPACING" s ++ maybe "WIREEXT" e ++ rest) = Some (mkNl n w d s e, rest).
Proof. intros F. destruct d as [d|]; [|apply ndl_spc; exact F]. transitivity (read_ndlopts (S (S (S f))) (mkNl n w (Some d) None None) (maybe "SPACING" s ++ maybe "WIREEXT" e ++ rest)); [reflexivity|apply ndl_spc; exact F]. Qed.
Lemma ndl_mono f : forall f' l ts x, read_ndlopts f l ts = Some x -> (length ts < f')%nat -> read_ndlopts f' l ts = Some x.
Proof.
  induction f as [|f IH]; intros f' l ts x H L; [discriminate|]. destruct f' as [|f']; [lia|]. cbn [read_ndlopts] in *. destruct ts as [|[k|k] ts]; [exact H| |exact H]. cbn [eat length] in *.
  repeat match goal with |- context[String.eqb ?a ?b] => destruct (String.eqb a b); [destruct ts as [|[u|u] ts]; cbn [num length] in *; [discriminate|discriminate|apply IH; [exact H|lia]]|] end. exact H.
Qed.
Lemma ndlayer_read l rest : is_name (nl_name l) -> free_of rest -> read_ndlayer ([W (nl_name l); W "WIDTH"; Nu (nl_width l)] ++ maybe "DIAGWIDTH" (nl_diag l) ++ maybe "SPACING" (nl_spc l) ++ maybe "WIREEXT" (nl_ext l) ++ rest) = Some (l, rest).
Proof.
  intros N F. unfold read_ndlayer. cbn [app]. rewrite word_name by exact N. rewrite eat_same. cbn [num]. destruct l as [n w d s e]. cbn [nl_name nl_width nl_diag nl_spc nl_ext]. eapply ndl_mono; [apply (ndl_diag 0); exact F|lia].
Qed.
Section Ndr.
Variable Q : ndr -> list tok -> Prop.
Hypothesis Q_step : forall d d' t rest, read_ndopt type_of d (t ++ rest) = Some (d', rest) -> Q d' rest -> Q d (W "+" :: t ++ rest).
Definition plus (ts : list tok) : Prop := exists r, ts = W "+" :: r \/ ts = W ";" :: r.
Lemma plus_free ts : plus ts -> free_of ts. Proof. intros (r & [-> | ->]); repeat split; reflexivity. Qed.
Lemma n_layers l : forall n h ls vs rs cs ps rest, (forall x, In x l -> is_name (nl_name x)) -> plus rest -> Q (mkNd n h (ls ++ l) vs rs cs ps) rest -> Q (mkNd n h ls vs rs cs ps) (flat_map print_ndlayer l ++ rest).
Proof.
  induction l as [|x l IH]; intros n h ls vs rs cs ps rest H P R; [rewrite app_nil_r in R; exact R|]. cbn [flat_map]. rewrite <- app_assoc.
  replace (print_ndlayer x ++ flat_map print_ndlayer l ++ rest) with (W "+" :: (W "LAYER" :: [W (nl_name x); W "WIDTH"; Nu (nl_width x)] ++ maybe "DIAGWIDTH" (nl_diag x) ++ maybe "SPACING" (nl_spc x) ++ maybe "WIREEXT" (nl_ext x)) ++ flat_map print_ndlayer l ++ rest) by reflexivity.
  apply (Q_step _ (mkNd n h (ls ++ [x]) vs rs cs ps)).
  - cbn [app]. unfold read_ndopt. rewrite eat_other by discriminate. rewrite eat_same. repeat rewrite <- app_assoc. assert (F : free_of (flat_map print_ndlayer l ++ rest)) by (destruct l; [apply plus_free, P|repeat split; reflexivity]).
    pose proof (ndlayer_read x _ (H x (or_introl eq_refl)) F) as E. cbn [app] in E. rewrite E. reflexivity.
  - apply IH; [intros y Y; apply H; right; exact Y|exact P|]. rewrite <- app_assoc. exact R.
Qed.
Lemma n_vias l : forall n h ls vs rs cs ps rest, (forall x, In x l -> is_name x) -> Q (mkNd n h ls (vs ++ l) rs cs ps) rest -> Q (mkNd n h ls vs rs cs ps) (flat_map (fun s => [W "+"; W "VIA"; W s]) l ++ rest).
Proof.
  induction l as [|x l IH]; intros n h ls vs rs cs ps rest H R; [rewrite app_nil_r in R; exact R|]. cbn [flat_map]. rewrite <- app_assoc. apply (Q_step _ (mkNd n h ls (vs ++ [x]) rs cs ps) [W "VIA"; W x]).
  - cbn [app]. unfold read_ndopt. do 2 rewrite eat_other by discriminate. rewrite eat_same. rewrite word_name by (apply H; left; reflexivity). reflexivity.
  - apply IH; [intros y Y; apply H; right; exact Y|]. rewrite <- app_assoc. exact R.
Qed.
Lemma n_vrules l : forall n h ls vs rs cs ps rest, (forall x, In x l -> is_name x) -> Q (mkNd n h ls vs (rs ++ l) cs ps) rest -> Q (mkNd n h ls vs rs cs ps) (flat_map (fun s => [W "+"; W "VIARULE"; W s]) l ++ rest).
Proof.
  induction l as [|x l IH]; intros n h ls vs rs cs ps rest H R; [rewrite app_nil_r in R; exact R|]. cbn [flat_map]. rewrite <- app_assoc. apply (Q_step _ (mkNd n h ls vs (rs ++ [x]) cs ps) [W "VIARULE"; W x]).
  - cbn [app]. unfold read_ndopt. do 3 rewrite eat_other by discriminate. rewrite eat_same. rewrite word_name by (apply H; left; reflexivity). reflexivity.
  - apply IH; [intros y Y; apply H; right; exact Y|]. rewrite <- app_assoc. exact R.
Qed.
Lemma n_cuts l : forall n h ls vs rs cs ps rest, (forall s k, In (s, k) l -> is_name s) -> Q (mkNd n h ls vs rs (cs ++ l) ps) rest -> Q (mkNd n h ls vs rs cs ps) (flat_map (fun p => [W "+"; W "MINCUTS"; W (fst p); Nu (snd p)]) l ++ rest).
Proof.
  induction l as [|[s k] l IH]; intros n h ls vs rs cs ps rest H R; [rewrite app_nil_r in R; exact R|]. cbn [flat_map fst snd]. rewrite <- app_assoc. apply (Q_step _ (mkNd n h ls vs rs (cs ++ [(s, k)]) ps) [W "MINCUTS"; W s; Nu k]).
  - cbn [app]. unfold read_ndopt. do 4 rewrite eat_other by discriminate. rewrite eat_same. rewrite word_name by (apply (H s k); left; reflexivity). reflexivity.
  - apply IH; [intros a b Y; apply (H a b); right; exact Y|]. rewrite <- app_assoc. exact R.
Qed.
Lemma n_all d rest : ndr_wf d -> plus rest -> Q (mkNd (nd_name d) (nd_hard d) (nd_layers d) (nd_vias d) (nd_vrules d) (nd_cuts d) []) rest ->
  Q (mkNd (nd_name d) false [] [] [] [] []) (flag (nd_hard d) "HARDSPACING" ++ flat_map print_ndlayer (nd_layers d) ++ flat_map (fun s => [W "+"; W "VIA"; W s]) (nd_vias d) ++
    flat_map (fun s => [W "+"; W "VIARULE"; W s]) (nd_vrules d) ++ flat_map (fun p => [W "+"; W "MINCUTS"; W (fst p); Nu (snd p)]) (nd_cuts d) ++ rest).
Proof.
  intros (N & L & V & R & C & _) P H. assert (K : Q (mkNd (nd_name d) (nd_hard d) [] [] [] [] []) (flat_map print_ndlayer (nd_layers d) ++ flat_map (fun s => [W "+"; W "VIA"; W s]) (nd_vias d) ++
    flat_map (fun s => [W "+"; W "VIARULE"; W s]) (nd_vrules d) ++ flat_map (fun p => [W "+"; W "MINCUTS"; W (fst p); Nu (snd p)]) (nd_cuts d) ++ rest)).
  { apply n_layers; [exact L| |].
    - destruct (nd_vias d); [|eexists; left; reflexivity]. destruct (nd_vrules d); [|eexists; left; reflexivity]. destruct (nd_cuts d); [exact P|eexists; left; reflexivity].
    - apply n_vias; [exact V|]. apply n_vrules; [exact R|]. apply n_cuts; [exact C|]. exact H. }
  destruct (nd_hard d); [|exact K]. apply (Q_step _ (mkNd (nd_name d) true [] [] [] [] []) [W "HARDSPACING"]); [reflexivity|exact K].
Qed.
End Ndr.
Definition okn (x : ndr * list tok) (d : ndr) (ts : list tok) : Prop := forall f, (length ts < f)%nat -> read_ndopts type_of f d ts = Some x.
Lemma okn_step x d d' t rest : read_ndopt type_of d (t ++ rest) = Some (d', rest) -> okn x d' rest -> okn x d (W "+" :: t ++ rest).
Proof. intros E R f L. destruct f as [|f]; [lia|]. cbn [read_ndopts]. rewrite eat_other by discriminate. rewrite eat_same, E. apply R. cbn [length] in L. rewrite app_length in L. lia. Qed.
Definition badn (d : ndr) (ts : list tok) : Prop := forall f, read_ndopts type_of f d ts = None.
Lemma badn_step d d' t rest : read_ndopt type_of d (t ++ rest) = Some (d', rest) -> badn d' rest -> badn d (W "+" :: t ++ rest).
Proof. intros E R f. destruct f as [|f]; [reflexivity|]. cbn [read_ndopts]. rewrite eat_other by discriminate. rewrite eat_same, E. apply R. Qed.
Lemma ndr_read d rest : ndr_wf d -> nd_props d = [] -> read_ndr type_of (print_ndr d ++ rest) = Some (d, rest).
Proof.
  intros Wf P. unfold print_ndr. rewrite P. cbn [flat_map]. repeat rewrite <- app_assoc. cbn [app]. unfold read_ndr. rewrite eat_same. rewrite word_name by exact (proj1 Wf).
  match goal with |- read_ndopts _ (S (length ?t)) ?v ?t = Some ?x => cut (okn x v t); [intros K; apply K; lia|] end.
  apply (n_all _ (okn_step _)); [exact Wf|eexists; right; reflexivity|]. intros f L. destruct f as [|f]; [lia|]. cbn [read_ndopts]. rewrite eat_same. destruct d. cbn in *. subst. reflexivity.
Qed.
Lemma ndr_broken d rest : ndr_wf d -> nd_props d <> [] -> read_ndr type_of (print_ndr d ++ rest) = None.
Proof.
  intros Wf P. unfold print_ndr. repeat rewrite <- app_assoc. cbn [app]. unfold read_ndr. rewrite eat_same. rewrite word_name by exact (proj1 Wf).
  match goal with |- read_ndopts _ _ ?v ?t = None => cut (badn v t); [intros K; apply K|] end.
  assert (Pw : forall p, In p (nd_props d) -> prop_wf p) by (destruct Wf as (_ & _ & _ & _ & _ & Pw); exact Pw). destruct (nd_props d) as [|[[a b] k] ps] eqn:E; [contradiction|]. destruct (Pw (a, b, k) (or_introl eq_refl)) as (A & B). cbn [fst snd] in A, B.
  apply (n_all _ badn_step); [exact Wf|eexists; left; reflexivity|]. intros f. destruct f as [|f]; [reflexivity|]. cbn [flat_map]. rewrite <- app_assoc. change (print_prop (a, b, k) ++ ?r) with (W "+" :: W "PROPERTY" :: W a :: W b :: W (ptype_str k) :: r). cbn [read_ndopts]. rewrite eat_other by discriminate. rewrite eat_same. unfold read_ndopt. do 5 rewrite eat_other by discriminate. rewrite eat_same.
  rewrite prop_words; [reflexivity|exact A|exact B|apply props_stop].
Qed.
End Types.
