From Coq Require Import String Ascii.
From Verif Require Import Base DwModel DwSpec DwProofs SnModel SnProofs DdModel DdSpec.
Local Open Scope string_scope.
Local Open Scope Z_scope.
Local Open Scope list_scope.

Lemma drop_last_snoc s c : drop_last (s ++ String c "")%string = s.
Proof. induction s as [|a s IH]; [reflexivity|]. cbn [append drop_last]. rewrite IH. destruct s; reflexivity. Qed.
Lemma unquote_quotes s : unquote (in_quotes s) = Some s.
Proof. unfold unquote, in_quotes. rewrite Ascii.eqb_refl. rewrite drop_last_snoc. reflexivity. Qed.
Lemma objects_names : forall x, In x objects -> is_name x.
Proof. intros x H. apply sign_name. cbn [objects In] in H. repeat destruct H as [<-|H]; try reflexivity; contradiction. Qed.
Lemma obj_ok d : pdef_wf d -> In (df_obj d) objects.
Proof. intros (O & _). cbn [In] in O. unfold objects. cbn [In]. tauto. Qed.
Definition def_vals (a : option (Z * Z)) (n : option Z) : list tok := match a with Some (a, b) => [W "RANGE"; Nu a; Nu b] | None => [] end ++ match n with Some n => [Nu n] | None => [] end.
Lemma vals_read a n r : exists x, read_range (def_vals a n ++ W ";" :: r) = Some (a, x) /\ read_num x = (n, W ";" :: r).
Proof. destruct a as [[a b]|]; destruct n as [n|]; eexists; split; reflexivity. Qed.
Lemma pdef_head o n r : In o objects -> is_name n -> read_pdef (W o :: W n :: r) = let* (k, a, v, r) := read_kind r in let* r := eat ";" r in Some (mkDf o n k a v, r).
Proof. intros O N. unfold read_pdef. rewrite one_of_read; [|exact O|exact objects_names]. rewrite word_name by exact N. reflexivity. Qed.
Lemma pdef_input d rest : pdef_wf d -> read_pdef (def_pdef d ++ rest) = Some (d, rest).
Proof.
  intros Wf. pose proof (obj_ok d Wf) as O. destruct Wf as (_ & N & K). destruct d as [o n k a v]. cbn [df_obj df_name df_kind df_range df_num] in *. unfold def_pdef. cbn [df_obj df_name df_kind df_range df_num]. repeat rewrite <- app_assoc. cbn [app]. rewrite pdef_head by assumption.
  assert (V : forall t, match a with Some (a, b) => [W "RANGE"; Nu a; Nu b] | None => [] end ++ match v with Some n => [Nu n] | None => [] end ++ t = def_vals a v ++ t) by (intros t; unfold def_vals; rewrite <- app_assoc; reflexivity). rewrite V.
  destruct k as [| | |s|s]; cbn [app]; unfold read_kind.
  - rewrite eat_same. destruct (vals_read a v rest) as (x & -> & ->). rewrite eat_same. reflexivity.
  - rewrite eat_other by discriminate. rewrite eat_same. destruct (vals_read a v rest) as (x & -> & ->). rewrite eat_same. reflexivity.
  - destruct K as (-> & ->). reflexivity.
  - destruct K as (-> & ->). do 2 rewrite eat_other by discriminate. rewrite eat_same. rewrite unquote_quotes. reflexivity.
  - destruct K as (S & _ & -> & ->). do 3 rewrite eat_other by discriminate. rewrite eat_same. rewrite word_name by exact S. reflexivity.
Qed.
Lemma copied_wf d : pdef_wf d -> pdef_wf (copied d).
Proof.
  intros (O & N & K). split; [exact O|split; [exact N|]]. destruct d as [o n k a v]. cbn [copied df_kind df_range df_num] in *. destruct k as [| | |s|s]; try exact Logic.I.
  - destruct K as (-> & ->). split; reflexivity.
  - destruct K as (-> & ->). destruct (String.eqb s ""); split; reflexivity.
  - destruct K as (S & E & -> & ->). repeat split; assumption.
Qed.
Lemma print_copied d : pdef_wf d -> no_map d -> print_pdef d = def_pdef (copied d).
Proof.
  intros (O & N & K) M. destruct d as [o n k a v]. cbn [copied df_kind df_range df_num] in *. unfold print_pdef, def_pdef, copied. cbn [df_obj df_name df_kind df_range df_num].
  destruct k as [| | |s|s]; [destruct a as [[a b]|]; destruct v; reflexivity|destruct a as [[a b]|]; destruct v; reflexivity|destruct K as (-> & ->); reflexivity| |contradiction M].
  destruct K as (-> & ->). cbn [kind_string]. destruct (String.eqb s ""); reflexivity.
Qed.
Lemma pdef_copy d rest : pdef_wf d -> no_map d -> read_pdef (print_pdef d ++ rest) = Some (copied d, rest).
Proof. intros Wf M. rewrite print_copied by assumption. apply pdef_input. apply copied_wf. exact Wf. Qed.
Lemma pdef_broken d rest : pdef_wf d -> ~ no_map d -> read_pdef (print_pdef d ++ rest) = None.
Proof.
  intros Wf M. pose proof (obj_ok d Wf) as O. destruct Wf as (_ & N & K). destruct d as [o n k a v]. unfold no_map in M. cbn [df_obj df_name df_kind df_range df_num] in *. destruct k as [| | |s|s]; try (exfalso; apply M; exact Logic.I). destruct K as (S & E & -> & ->).
  unfold print_pdef. cbn [df_obj df_name df_kind df_range df_num kind_word opt kind_string app]. rewrite (proj2 (String.eqb_neq s "") E). cbn [app]. rewrite pdef_head by assumption. reflexivity.
Qed.
Lemma copied_same d : no_map d -> (copied d = d <-> pdef_short d).
Proof.
  intros M. destruct d as [o n k a v]. unfold no_map, pdef_short, copied in *. cbn [df_obj df_name df_kind df_range df_num] in *. split.
  - intros E. injection E as E1 E2 E3. split; [|split].
    + intros x y ->. cbn [option_map fst snd] in E2. injection E2 as E2 E4. split; apply g6_exact; assumption.
    + intros x ->. cbn [option_map] in E3. injection E3 as E3. apply g6_exact. exact E3.
    + intros ->. cbn in E1. discriminate E1.
  - intros (R & V & K). f_equal.
    + destruct k as [| | |s|s]; try reflexivity. destruct (String.eqb_spec s "") as [->|X]; [contradiction K; reflexivity|reflexivity].
    + destruct a as [[a b]|]; [|reflexivity]. destruct (R a b eq_refl) as (A & B). cbn [option_map fst snd]. rewrite (proj2 (g6_exact a) A), (proj2 (g6_exact b) B). reflexivity.
    + destruct v as [v|]; [|reflexivity]. cbn [option_map]. rewrite (proj2 (g6_exact v) (V v eq_refl)). reflexivity.
Qed.
(* --- sections --- *)
Section Sec.
Variables (pr : pdef -> list tok) (f : pdef -> pdef).
Hypothesis starts : forall d, exists n r, pr d = W (df_obj d) :: W n :: r.
Lemma not_end d r : In (df_obj d) objects -> eat "END" (pr d ++ r) = None.
Proof. intros O. destruct (starts d) as (n & t & ->). cbn [app]. apply eat_other. intros E. rewrite <- E in O. cbn [objects In] in O. repeat destruct O as [O|O]; try discriminate; contradiction. Qed.
Lemma pdefs_len l : (length l <= length (flat_map pr l))%nat.
Proof. induction l as [|d l IH]; cbn [flat_map length]; [lia|]. rewrite app_length. destruct (starts d) as (n & r & ->). cbn [length]. lia. Qed.
Lemma more_pdefs l : forall g t, (forall d, In d l -> In (df_obj d) objects /\ forall r, read_pdef (pr d ++ r) = Some (f d, r)) ->
  read_more_pdefs (length l + g) (flat_map pr l ++ t) = match read_more_pdefs g t with Some (m, r) => Some (map f l ++ m, r) | None => None end.
Proof.
  induction l as [|d l IH]; intros g t H; cbn [length Nat.add flat_map map app]; [destruct (read_more_pdefs g t) as [[? ?]|]; reflexivity|].
  rewrite <- app_assoc. cbn [read_more_pdefs]. destruct (H d (or_introl eq_refl)) as (O & R). rewrite not_end by exact O. rewrite R. rewrite IH by (intros; apply H; right; assumption). destruct (read_more_pdefs g t) as [[? ?]|]; reflexivity.
Qed.
Lemma pdefs_all l t : (forall d, In d l -> In (df_obj d) objects /\ forall r, read_pdef (pr d ++ r) = Some (f d, r)) -> exists g,
  read_pdefs (W "PROPERTYDEFINITIONS" :: flat_map pr l ++ t) = match read_more_pdefs (S g) t with Some (m, r) => Some (map f l ++ m, r) | None => None end.
Proof.
  intros H. unfold read_pdefs. rewrite eat_same. pose proof (pdefs_len l) as L. exists (length (flat_map pr l ++ t) - length l)%nat. rewrite <- more_pdefs by exact H. f_equal. rewrite app_length. lia.
Qed.
End Sec.
