From Coq Require Import String.
From Verif Require Import Base DwModel DwSpec DwProofs DwProofs2.
Local Open Scope string_scope.
Local Open Scope Z_scope.
Local Open Scope list_scope.

Section T.
Variable ty : string -> ptype.
Definition good (c : comp) : Prop := comp_wf c /\ ~ is_cover c /\ c_props c = [].
Lemma eat_dash c ts : exists r, eat "-" (print_comp c ++ ts) = Some r.
Proof. rewrite print_comp_eq. eexists. reflexivity. Qed.
(* components read one after the other *)
Lemma comps_step l : forall f r, (forall c, In c l -> good c) ->
  read_comps ty (length l + f) (flat_map print_comp l ++ r) = match read_comps ty f r with Some (l', r') => Some (l ++ l', r') | None => None end.
Proof.
  induction l as [|c l IH]; intros f r H; cbn [length Nat.add flat_map app]. { destruct (read_comps ty f r) as [[? ?]|]; reflexivity. }
  rewrite <- app_assoc. cbn [read_comps]. destruct (eat_dash c (flat_map print_comp l ++ r)) as (x & ->). destruct (H c (or_introl eq_refl)) as (G1 & G2 & G3). rewrite comp_read by assumption. rewrite IH by (intros; apply H; right; assumption). destruct (read_comps ty f r) as [[? ?]|]; reflexivity.
Qed.
Lemma print_comps_eq l : forall n, l <> [] -> Z.max 1 n = Z.of_nat (length l) -> print_comps n l = flat_map print_comp l ++ [W "END"; W "COMPONENTS"].
Proof.
  induction l as [|c l IH]; intros n N E; [contradiction|]. cbn [print_comps flat_map length] in *. destruct l as [|c' l].
  - cbn [length] in E. destruct (Z.leb_spec (n - 1) 0); [|lia]. cbn [print_comps flat_map]. rewrite !app_nil_r. reflexivity.
  - destruct (Z.leb_spec (n - 1) 0); [cbn [length] in E; lia|]. rewrite (IH (n - 1)); [|discriminate|lia]. rewrite <- app_assoc. reflexivity.
Qed.
Lemma print_comps_more l : forall n, Z.of_nat (length l) < n -> print_comps n l = flat_map print_comp l.
Proof.
  induction l as [|c l IH]; intros n E; [reflexivity|]. cbn [print_comps flat_map length] in *. destruct (Z.leb_spec (n - 1) 0); [lia|]. rewrite (IH (n - 1)) by lia. reflexivity.
Qed.
Lemma print_comp_len c : (1 <= length (print_comp c))%nat. Proof. rewrite print_comp_eq. cbn [app length]. lia. Qed.
Lemma flat_len l : (length l <= length (flat_map print_comp l))%nat.
Proof. induction l as [|c l IH]; cbn [flat_map length]; [lia|]. rewrite app_length. pose proof (print_comp_len c). lia. Qed.
Lemma section_read n l rest : (forall c, In c l -> good c) -> Z.max 1 n = Z.of_nat (length l) -> read_section ty (print_section n l ++ rest) = Some (n, l, rest).
Proof.
  intros H E. assert (N : l <> []) by (intros ->; cbn in E; lia). unfold read_section, print_section. rewrite (print_comps_eq l n N E). rewrite <- !app_assoc. change (eat "COMPONENTS" ([W "COMPONENTS"; Nu n; W ";"] ++ ?r)) with (Some (Nu n :: W ";" :: r)). cbv iota beta. cbn [num]. change (eat ";" (W ";" :: ?r)) with (Some r). cbv iota beta.
  set (ts := flat_map _ _ ++ _). assert (L : exists f, S (length ts) = (length l + S f)%nat). { subst ts. rewrite app_length. pose proof (flat_len l). cbn [app length]. exists (length (flat_map print_comp l) - length l + S (S (length rest)))%nat. lia. }
  destruct L as (f & ->). subst ts. rewrite comps_step by exact H. cbn. rewrite app_nil_r. reflexivity.
Qed.
(* a count that is too large, or no component *)
Lemma section_more n l rest : (forall c, In c l -> good c) -> Z.of_nat (length l) < n \/ l = [] -> eat "-" rest = None -> eat "END" rest = None -> read_section ty (print_section n l ++ rest) = None.
Proof.
  intros H N E1 E2. assert (E : print_comps n l = flat_map print_comp l). { destruct N as [N| ->]; [apply print_comps_more; exact N|reflexivity]. }
  unfold read_section, print_section. rewrite E. rewrite <- !app_assoc. change (eat "COMPONENTS" ([W "COMPONENTS"; Nu n; W ";"] ++ ?r)) with (Some (Nu n :: W ";" :: r)). cbv iota beta. cbn [num]. change (eat ";" (W ";" :: ?r)) with (Some r). cbv iota beta.
  set (ts := flat_map _ _ ++ _). assert (L : exists f, S (length ts) = (length l + S f)%nat). { subst ts. rewrite app_length. pose proof (flat_len l). exists (length (flat_map print_comp l) - length l + length rest)%nat. lia. }
  destruct L as (f & ->). subst ts. rewrite comps_step by exact H. cbn [read_comps]. rewrite E1, E2. reflexivity.
Qed.
(* a count that is too small: the section ends early *)
Lemma print_comps_early l : forall n, l <> [] -> n <= Z.of_nat (length l) -> exists r, print_comps n l = flat_map print_comp (firstn (Z.to_nat (Z.max 1 n)) l) ++ [W "END"; W "COMPONENTS"] ++ r.
Proof.
  induction l as [|c l IH]; intros n N E; [contradiction|]. cbn [print_comps length] in *. destruct (Z.leb_spec (n - 1) 0).
  - replace (Z.to_nat (Z.max 1 n)) with 1%nat by lia. cbn [firstn flat_map]. exists (print_comps (n - 1) l). rewrite app_nil_r. reflexivity.
  - destruct l as [|c' l]; [cbn [length] in E; lia|]. destruct (IH (n - 1)) as (r & ->); [discriminate|lia|]. exists r. replace (Z.to_nat (Z.max 1 n)) with (S (Z.to_nat (Z.max 1 (n - 1)))) by lia. cbn [firstn flat_map]. rewrite <- app_assoc. reflexivity.
Qed.
Lemma section_less n l rest : (forall c, In c l -> good c) -> l <> [] -> n <= Z.of_nat (length l) -> exists r, read_section ty (print_section n l ++ rest) = Some (n, firstn (Z.to_nat (Z.max 1 n)) l, r).
Proof.
  intros H N E. destruct (print_comps_early l n N E) as (r & P). exists (r ++ rest). set (l1 := firstn _ _) in *.
  unfold read_section, print_section. rewrite P. repeat rewrite <- app_assoc. change (eat "COMPONENTS" ([W "COMPONENTS"; Nu n; W ";"] ++ ?r)) with (Some (Nu n :: W ";" :: r)). cbv iota beta. cbn [num]. change (eat ";" (W ";" :: ?r)) with (Some r). cbv iota beta.
  set (ts := flat_map _ _ ++ _). assert (L : exists f, S (length ts) = (length l1 + S f)%nat). { subst ts. rewrite app_length. pose proof (flat_len l1). cbn [app length]. exists (length (flat_map print_comp l1) - length l1 + S (S (length (r ++ rest))))%nat. lia. }
  destruct L as (f & ->). subst ts. rewrite comps_step. 2: { intros c I. apply H. subst l1. rewrite <- (firstn_skipn (Z.to_nat (Z.max 1 n)) l). apply in_or_app. left. exact I. } cbn. rewrite app_nil_r. reflexivity.
Qed.
(* one unreadable component makes the section unreadable if it comes before the first END *)
Lemma section_broken n l c l' rest : (forall c, In c l -> good c) -> Z.of_nat (length l) < n \/ l = [] -> comp_wf c -> is_cover c \/ c_props c <> [] -> read_section ty (print_section n (l ++ c :: l') ++ rest) = None.
Proof.
  intros H N Wc B. assert (P : exists r, print_comps n (l ++ c :: l') = flat_map print_comp l ++ print_comp c ++ r).
  { revert n N. clear -l. induction l as [|d l IH]; intros n N. { cbn. eexists. reflexivity. } destruct N as [N|N]; [|discriminate]. cbn [length app print_comps flat_map] in *. destruct (Z.leb_spec (n - 1) 0); [lia|]. destruct (IH (n - 1)) as (r & ->); [left; lia|]. exists r. cbn [app]. rewrite <- app_assoc. reflexivity. }
  destruct P as (r & P). unfold read_section, print_section. rewrite P. repeat rewrite <- app_assoc. change (eat "COMPONENTS" ([W "COMPONENTS"; Nu n; W ";"] ++ ?r)) with (Some (Nu n :: W ";" :: r)). cbv iota beta. cbn [num]. change (eat ";" (W ";" :: ?r)) with (Some r). cbv iota beta.
  set (ts := flat_map _ _ ++ _). assert (L : exists f, S (length ts) = (length l + S f)%nat). { subst ts. rewrite !app_length. pose proof (flat_len l). eexists. rewrite Nat.add_succ_r. f_equal. instantiate (1 := (length (flat_map print_comp l) - length l + (length (print_comp c) + length (r ++ rest)))%nat). rewrite app_length. lia. }
  destruct L as (f & ->). subst ts. rewrite comps_step by exact H. cbn [read_comps]. destruct (eat_dash c (r ++ rest)) as (x & ->).
  assert (R : read_comp ty (print_comp c ++ r ++ rest) = None). { destruct (c_place c) eqn:EP; try (apply comp_property_lost; [exact Wc|unfold is_cover; rewrite EP; tauto|destruct B as [B|B]; [unfold is_cover in B; rewrite EP in B; contradiction|exact B]]). apply comp_cover_lost; [exact Wc|unfold is_cover; rewrite EP; exact I]. }
  rewrite R. reflexivity.
Qed.
End T.
