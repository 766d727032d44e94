(* Proofs about the readers of LEF 5.8 rules: minimum step, cut classes, spacing tables. *)
From Verif Require Import Base L58Model L58Spec.
From Coq Require Import List String.
Open Scope list_scope.

Section P.
Variable T : Type.
Variable dbu int_of : T -> Z.
Notation word := (word T).
Notation KW k := (@K T k).

(* ---- cut classes ---- *)
Lemma cutclass_rule r rest name w l n : cutclass_go T dbu int_of (cc_words T r ++ rest) name w l n = cc_mean T dbu int_of r :: cutclass_go T dbu int_of rest (Some (qr_name T r)) (dbu (qr_width T r)) (option_map dbu (qr_length T r)) (option_map int_of (qr_cuts T r)).
Proof. destruct r as [nm wd [len|] [cuts|]]; reflexivity. Qed.
Lemma cutclass_rules rs : forall name w l n, cutclass_go T dbu int_of (flat_map (cc_words T) rs) name w l n = map (cc_mean T dbu int_of) rs.
Proof. induction rs as [|r rs IH]; intros; [reflexivity|]. cbn [flat_map map]. rewrite cutclass_rule, IH. reflexivity. Qed.

(* ---- minimum step ---- *)
Lemma minstep_more ss : forall rest skip v, minstep_go T dbu int_of (map Other ss ++ rest) skip v = minstep_go T dbu int_of rest (match ss with [] => skip | _ => true end) v.
Proof. induction ss as [|s ss IH]; intros; [reflexivity|]. cbn [map app minstep_go]. rewrite IH. destruct ss; reflexivity. Qed.
Definition ms_after (r : ms_rule T) (v : ms_con) : ms_con :=
  mkMs (dbu (mr_len T r)) (match mr_edges T r with Some e => int_of (fst e) | None => m_edges v end) (match mr_adj T r with Some a => dbu a | None => m_adj v end) (match mr_eol T r with Some w => dbu w | None => m_eol v end).
Lemma minstep_rule r rest skip v : minstep_go T dbu int_of (ms_words T r ++ rest) skip v =
  (match mr_more T r with [] => [ms_after r v] | _ => [] end) ++ minstep_go T dbu int_of rest (match mr_more T r with [] => false | _ => true end) (ms_after r v).
Proof.
  destruct r as [len edges eol more]. unfold ms_words, ms_after, mr_adj. cbn [mr_len mr_edges mr_eol mr_more]. rewrite <- !app_assoc.
  destruct edges as [[e [a|]]|], eol as [w|]; cbn [opt app minstep_go fst snd m_len m_edges m_adj m_eol]; rewrite minstep_more; destruct more; reflexivity.
Qed.
(* the values left by earlier rules do not matter if each rule gives what they gave *)
Definition none_left (v : ms_con) (rs : list (ms_rule T)) : Prop :=
  (m_edges v = -1 \/ Forall (fun r => mr_edges T r <> None) rs) /\ (m_adj v = -1 \/ Forall (fun r => mr_adj T r <> None) rs) /\ (m_eol v = -1 \/ Forall (fun r => mr_eol T r <> None) rs).
Lemma minstep_rules rs : (forall i j a b, (i < j)%nat -> nth_error rs i = Some a -> nth_error rs j = Some b -> gives_as T a b) ->
  forall skip v, none_left v rs -> minstep_go T dbu int_of (flat_map (ms_words T) rs) skip v = flat_map (ms_mean T dbu int_of) rs.
Proof.
  induction rs as [|r rs IH]; intros G skip v (N1 & N2 & N3); [reflexivity|]. cbn [flat_map]. rewrite minstep_rule.
  assert (E : ms_after r v = mkMs (dbu (mr_len T r)) (given T int_of (option_map fst (mr_edges T r))) (given T dbu (mr_adj T r)) (given T dbu (mr_eol T r))).
  { unfold ms_after. f_equal.
    - destruct (mr_edges T r) as [[e a]|] eqn:Q; [reflexivity|]. destruct N1 as [N1|N1]; [exact N1|]. inversion N1; congruence.
    - destruct (mr_adj T r) eqn:Q; [reflexivity|]. destruct N2 as [N2|N2]; [exact N2|]. inversion N2; congruence.
    - destruct (mr_eol T r) eqn:Q; [reflexivity|]. destruct N3 as [N3|N3]; [exact N3|]. inversion N3; congruence. }
  assert (A : forall b, In b rs -> gives_as T r b). { intros b I. apply In_nth_error in I as (j & I). apply (G O (S j)); [lia|reflexivity|exact I]. }
  rewrite IH.
  - unfold ms_mean at 2. destruct (mr_more T r); [rewrite E; reflexivity|reflexivity].
  - intros i j a b L Ei Ej. apply (G (S i) (S j)); [lia|exact Ei|exact Ej].
  - rewrite E. unfold none_left. cbn [m_edges m_adj m_eol]. split; [|split].
    + destruct (mr_edges T r) as [e|] eqn:Q; [right|left; reflexivity]. apply Forall_forall. intros b I. apply (A b I). rewrite Q. discriminate.
    + destruct (mr_adj T r) as [e|] eqn:Q; [right|left; reflexivity]. apply Forall_forall. intros b I. apply (A b I). rewrite Q. discriminate.
    + destruct (mr_eol T r) as [e|] eqn:Q; [right|left; reflexivity]. apply Forall_forall. intros b I. apply (A b I). rewrite Q. discriminate.
Qed.

(* ---- spacing tables ---- *)
Notation pgo := (prl_go T dbu).
Lemma prl_cols xs : forall rest mask lo hi ew rows cols tbl cur, pgo (map Num xs ++ rest) mask lo hi ew rows cols tbl cur false = pgo rest mask lo hi ew rows (cols ++ map dbu xs) tbl cur false.
Proof. induction xs as [|x xs IH]; intros; [cbn; rewrite app_nil_r; reflexivity|]. cbn [map app prl_go]. rewrite IH, <- app_assoc. reflexivity. Qed.
Lemma prl_vals xs : forall rest mask lo hi ew rows cols tbl cur, pgo (map Num xs ++ rest) mask lo hi ew rows cols tbl cur true = pgo rest mask lo hi ew rows cols tbl (cur ++ map dbu xs) true.
Proof. induction xs as [|x xs IH]; intros; [cbn; rewrite app_nil_r; reflexivity|]. cbn [map app prl_go]. rewrite IH, <- app_assoc. reflexivity. Qed.
Lemma exceptions_app rs1 : forall i rs2, exceptions T dbu i (rs1 ++ rs2) = exceptions T dbu i rs1 ++ exceptions T dbu (i + Z.of_nat (List.length rs1)) rs2.
Proof.
  induction rs1 as [|r rs1 IH]; intros i rs2; [cbn; f_equal; lia|]. cbn [app exceptions]. rewrite IH, <- app_assoc. do 3 f_equal. cbn [List.length]. lia.
Qed.
(* a row in progress is added to the table *)
Definition flush (tbl : list (list Z)) (cur : list Z) : list (list Z) := match cur with [] => tbl | _ => tbl ++ [cur] end.
Lemma flush_vals tbl vs : vs <> [] -> flush tbl (map dbu vs) = tbl ++ [map dbu vs].
Proof. destruct vs; [congruence|reflexivity]. Qed.
Lemma prl_rows rs : Forall (fun r => snd r <> []) rs -> forall mask lo hi ew rows cols tbl cur st, (st = false -> cur = []) ->
  pgo (flat_map (prl_row T) rs ++ [KW SEMI]) mask lo hi ew rows cols tbl cur st =
  Some (mkPrl (rows ++ map (fun r => dbu (fst (fst r))) rs) cols (flush tbl cur ++ map (fun r => map dbu (snd r)) rs) (ew ++ exceptions T dbu (Z.of_nat (List.length rows)) rs) false mask None).
Proof.
  induction rs as [|r rs IH]; intros V mask lo hi ew rows cols tbl cur st H.
  - cbn [flat_map app prl_go map exceptions]. rewrite !app_nil_r. destruct st, cur; try reflexivity. discriminate (H eq_refl).
  - inversion V as [|x l V1 V2]; subst. destruct r as [[w e] vs]. cbn [fst snd] in *. cbn [flat_map]. unfold prl_row at 1. cbn [fst snd]. rewrite <- !app_assoc. cbn [app prl_go].
    fold (flush tbl cur). destruct e as [[a b]|]; cbn [opt app prl_go fst snd]; rewrite prl_vals; cbn [app]; rewrite (IH V2) by discriminate; rewrite flush_vals by exact V1;
      cbn [map fst snd exceptions]; rewrite app_length; cbn [List.length app]; rewrite <- !app_assoc; cbn [app]; do 2 f_equal.
    + replace (Z.of_nat (List.length rows + 1)) with (Z.of_nat (List.length rows) + 1) by lia. rewrite Z.add_simpl_r. reflexivity.
    + replace (Z.of_nat (List.length rows + 1)) with (Z.of_nat (List.length rows) + 1) by lia. reflexivity.
Qed.
Definition prl_good (r : prl_rule T) : Prop := t_wrong T r = false /\ t_eol T r = None /\ Forall (fun x => snd x <> []) (t_rows T r).
Lemma prl_rule_read r : prl_good r -> prl_read T dbu (skipn 2 (prl_words T r)) = Some (prl_mean T dbu r).
Proof.
  intros (W & E & V). destruct r as [wr m eo lens rows]. cbn in W, E, V. subst wr eo. unfold prl_words, prl_read. cbn [t_wrong t_mask t_eol t_lens t_rows flag opt app skipn].
  assert (R : forall m', pgo (map Num lens ++ flat_map (prl_row T) rows ++ [KW SEMI]) m' 0 0 [] [] [] [] [] false = Some (prl_mean T dbu (mkT T false m' None lens rows))).
  { intros m'. rewrite prl_cols. rewrite (prl_rows rows V) by reflexivity. reflexivity. }
  destruct m; [exact (R true)|exact (R false)].
Qed.
Lemma table_plain ws : plain T ws -> forall rest ss k, table_go T dbu (ws ++ rest) ss k = table_go T dbu rest (ss ++ ws) k.
Proof.
  induction ws as [|w ws IH]; intros P rest ss k; [cbn; rewrite app_nil_r; reflexivity|].
  assert (IH' := IH (fun k I => P k (or_intror I))). cbn [app]. replace (ss ++ w :: ws) with ((ss ++ [w]) ++ ws) by (rewrite <- app_assoc; reflexivity). rewrite <- IH'.
  destruct w as [k'|x|s]; [|reflexivity|reflexivity]. destruct (P k' (or_introl eq_refl)) as (A & B & C). destruct k'; try reflexivity; congruence.
Qed.
Lemma num_plain xs : plain T (map Num xs). Proof. intros k I. apply in_map_iff in I as (x & E & _). discriminate E. Qed.
Lemma app_plain a b : plain T a -> plain T b -> plain T (a ++ b). Proof. intros A B k I. apply in_app_iff in I as [I|I]; auto. Qed.
Lemma rows_plain rs : plain T (flat_map (prl_row T) rs).
Proof.
  intros k I. apply in_flat_map in I as ([[w e] vs] & _ & I). unfold prl_row in I. cbn [fst snd] in I. apply in_app_iff in I as [I|I]; [destruct I as [I|[I|[]]]; [injection I as <-; repeat split; discriminate|discriminate I]|].
  apply in_app_iff in I as [I|I]; [|apply (num_plain vs k I)]. destruct e as [[a b]|]; [|destruct I]. destruct I as [I|[I|[I|[]]]]; [injection I as <-; repeat split; discriminate|discriminate I|discriminate I].
Qed.
Lemma table_prl r rest k ss : prl_good r -> exists ss', table_go T dbu (prl_words T r ++ rest) ss k = ocons (Some (prl_mean T dbu r)) (table_go T dbu rest ss' true).
Proof.
  intros G. rewrite <- (prl_rule_read r G). destruct r as [wr m eo lens rows]. unfold prl_words. cbn [t_wrong t_mask t_eol t_lens t_rows skipn]. rewrite <- !app_assoc. cbn [app table_go].
  set (body := flag T wr [KW WRONGDIRECTION] ++ flag T m [KW SAMEMASK] ++ opt T eo (fun x => [KW EXCEPTEOL; Num x]) ++ map Num lens ++ flat_map (prl_row T) rows).
  assert (P : plain T body).
  { unfold body. apply app_plain; [destruct wr; intros k' I; [destruct I as [I|[]]; injection I as <-; repeat split; discriminate|destruct I]|].
    apply app_plain; [destruct m; intros k' I; [destruct I as [I|[]]; injection I as <-; repeat split; discriminate|destruct I]|].
    apply app_plain; [destruct eo; intros k' I; [destruct I as [I|[I|[]]]; [injection I as <-; repeat split; discriminate|discriminate I]|destruct I]|].
    apply app_plain; [apply num_plain|apply rows_plain]. }
  exists (body ++ [KW SEMI]). replace (flag T wr [KW WRONGDIRECTION] ++ flag T m [KW SAMEMASK] ++ opt T eo (fun x => [KW EXCEPTEOL; Num x]) ++ map Num lens ++ flat_map (prl_row T) rows ++ KW SEMI :: rest) with (body ++ KW SEMI :: rest) by (unfold body; rewrite <- !app_assoc; reflexivity).
  rewrite table_plain by exact P. cbn [app table_go]. f_equal. f_equal. unfold body. rewrite <- !app_assoc. reflexivity.
Qed.
Lemma table_prls rs : Forall prl_good rs -> forall ss k, table_go T dbu (flat_map (prl_words T) rs) ss k = Some (map (prl_mean T dbu) rs).
Proof.
  induction rs as [|r rs IH]; intros G ss k; [reflexivity|]. inversion G as [|x l G1 G2]; subst. cbn [flat_map map]. destruct (table_prl r (flat_map (prl_words T) rs) k ss G1) as (ss' & E). rewrite E, (IH G2). reflexivity.
Qed.
Lemma table_others os : Forall (plain T) os -> forall rest ss, exists ss', table_go T dbu (flat_map (other_table T) os ++ rest) ss false = table_go T dbu rest ss' false.
Proof.
  induction os as [|o os IH]; intros P rest ss; [exists ss; reflexivity|]. inversion P as [|x l P1 P2]; subst. cbn [flat_map]. unfold other_table at 1. rewrite <- !app_assoc. cbn [app table_go]. rewrite table_plain by exact P1. cbn [app table_go].
  apply IH. exact P2.
Qed.
End P.
