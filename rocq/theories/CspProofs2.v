(* The readers of LEF 5.8 cut spacing rules end. *)
From Verif Require Import Base CspModel CspSpec CspProofs.
From Coq Require Import List String.
Open Scope list_scope.

Section P.
Variable T : Type.
Variable dbu int_of : T -> Z.
Variable cls : word T -> option Z.
Notation word := (word T).
Notation KW k := (@K T k).
Definition numbered (ws : list word) : Prop := forall a b, ws = a ++ [KW TWOCUTSSPACING] ++ b -> exists x c, b = Num T x :: c.
Definition num_first (ws : list word) : bool := match ws with Num _ _ :: _ => true | _ => false end.
Fixpoint okws (ws : list word) : bool :=
  match ws with
  | [] => true
  | w :: r => (if isk T TWOCUTSSPACING w then num_first r else true) && (match r with [] => isk T SEMI w | _ => true end) && okws r
  end.
Definition ok (s : st T) : Prop := okws (s_ws T s) = true.
Lemma okws_tl : forall w r, okws (w :: r) = true -> okws r = true. Proof. intros w r H. cbn [okws] in H. apply andb_prop in H as [_ H]. exact H. Qed.
Lemma okws_end : forall w r, okws (w :: r) = true -> isk T SEMI w = false -> r <> [].
Proof. intros w r H E ->. cbn [okws] in H. rewrite E, andb_false_r in H. discriminate H. Qed.
Lemma isk_other : forall k w, isk T TWOCUTSSPACING w = true -> code k <> code TWOCUTSSPACING -> isk T k w = false.
Proof. intros k [k'|x|x] H N; try reflexivity. cbn [isk] in *. apply Z.eqb_eq in H. apply Z.eqb_neq. congruence. Qed.
Lemma isk_not : forall k k' w, isk T k w = true -> code k <> code k' -> isk T k' w = false.
Proof. intros k k' [j|x|x] H N; try reflexivity. cbn [isk] in *. apply Z.eqb_eq in H. apply Z.eqb_neq. congruence. Qed.
Lemma ok_rd : forall s k no, ok s -> (forall w s', ok s' -> ok (k w s')) -> (forall s', ok s' -> ok (no s')) -> ok (rd T s k no).
Proof.
  intros s k no H Hk Hn. unfold rd. destruct (s_bad T s); [exact (Hn s H)|]. unfold ok in H. destruct (s_ws T s) as [|w r] eqn:E.
  - apply Hn. unfold ok, fail. cbn [s_ws]. rewrite E. reflexivity.
  - apply Hk. unfold ok, at_ws. cbn [s_ws]. exact (okws_tl _ _ H).
Qed.
Lemma ok_rdn : forall s k no, ok s -> (forall w s', ok s' -> ok (k w s')) -> (forall s', ok s' -> ok (no s')) -> ok (rdn T s k no).
Proof.
  intros s k no H Hk Hn. unfold rdn. destruct (s_bad T s); [exact (Hn s H)|]. unfold ok in H. destruct (s_ws T s) as [|w r] eqn:E.
  - apply Hn. unfold ok, fail. cbn [s_ws]. rewrite E. reflexivity.
  - destruct w as [k'|x|x]; try (apply Hn; unfold ok, fail; cbn [s_ws]; rewrite E; exact H). apply Hk. unfold ok, at_ws. cbn [s_ws]. exact (okws_tl _ _ H).
Qed.
Lemma ok_put : forall x s, ok s -> ok (put T x s). Proof. intros x s H. exact H. Qed.
Lemma ok_skip : forall s, ok s -> ok (skip T s). Proof. intros s H. exact H. Qed.
Lemma ok_id : forall s, ok s -> ok (id T s). Proof. intros s H. exact H. Qed.
Lemma ok_seek : forall ws s, okws ws = true -> ok s -> ok (seek T ws s). Proof. intros ws s W H. unfold seek. destruct (s_bad T s); [exact H|exact W]. Qed.
Lemma ok_class : forall s, ok s -> ok (class_name T cls s).
Proof. intros s H. apply ok_rd; [exact H| |exact ok_skip]. intros w s' H'. destruct (cls w); exact H'. Qed.
Lemma two_ends : forall n ws s, (List.length ws < n)%nat -> ws <> [] -> okws ws = true -> forall pos, okws pos = true -> s_bad T s = false -> s_ws T s = ws -> exists s', two_go T dbu n pos s = Some s' /\ ok s'.
Proof.
  induction n as [|n IH]; intros ws s L N O pos P B E; [lia|]. cbn [two_go]. rewrite B, E. destruct ws as [|w r]; [congruence|]. cbn [List.length] in L.
  pose proof (okws_tl _ _ O) as Or. destruct (isk T TWOCUTSSPACING w) eqn:E1.
  - cbn [at_ws s_ws]. cbn [okws] in O. rewrite E1 in O. apply andb_prop in O as [O _]. apply andb_prop in O as [O _]. destruct r as [|[k|x|x] r]; try discriminate O.
    cbn [List.length] in L. apply (IH r); [lia|exact (okws_end _ _ Or eq_refl)|exact (okws_tl _ _ Or)|exact (okws_tl _ _ Or)|exact B|reflexivity].
  - destruct (isk T SAMECUT w) eqn:E2.
    + apply (IH r); [lia| |exact Or|exact Or|exact B|reflexivity]. apply (okws_end w r O). apply (isk_not SAMECUT); [exact E2|discriminate].
    + eexists. split; [reflexivity|]. apply ok_seek; [exact P|exact Or].
Qed.
Lemma adj_word_ends : forall w s, ok s -> s_bad T s = false -> exists s', adj_word T dbu int_of cls w s = Some s' /\ ok s'.
Proof.
  intros w s H B. unfold adj_word.
  assert (R : forall f, exists s', Some (rdn T s (fun x s => put T (f x) s) (skip T)) = Some s' /\ ok s').
  { intros f. eexists. split; [reflexivity|]. apply ok_rdn; [exact H|intros; apply ok_put; assumption|exact ok_skip]. }
  destruct (isk T EXACTALIGNED w); [apply R|].
  destruct (isk T TWOCUTS w).
  { destruct (s_ws T s) as [|[k|x|x] r] eqn:E; try (eexists; split; [reflexivity|]; unfold ok, skip, fail; cbn [s_ws]; rewrite E; try reflexivity; unfold ok in H; rewrite E in H; exact H).
    unfold ok in H. rewrite E in H. apply (two_ends _ r); [lia|exact (okws_end _ _ H eq_refl)|exact (okws_tl _ _ H)|exact (okws_tl _ _ H)|exact B|reflexivity]. }
  destruct (isk T WITHIN w); [apply R|]. destruct (isk T EXCEPTSAMEPGNET w); [eexists; split; [reflexivity|exact H]|]. destruct (isk T EXCEPTALLWITHIN w); [apply R|].
  destruct (isk T ENCLOSURE w).
  { eexists. split; [reflexivity|]. apply ok_rdn; [|intros; apply ok_put; assumption|exact ok_skip]. apply ok_rd; [exact H| |exact ok_id]. intros w' s' H'.
    destruct (isk T ABOVE w'); [exact H'|]. destruct (isk T BELOW w'); [exact H'|]. apply ok_seek; [exact H|exact H']. }
  destruct (isk T CUTCLASS w).
  { eexists. split; [reflexivity|]. pose proof (ok_class s H) as C. apply ok_rd; [exact C| |exact ok_id]. intros w1 s1 H1. apply ok_rd; [exact H1| |exact ok_id]. intros w2 s2 H2.
    destruct (isk T TO w1 && isk T ALL w2); [exact H2|]. apply ok_seek; [exact C|exact H2]. }
  destruct (isk T NOPRL w); [eexists; split; [reflexivity|exact H]|]. destruct (isk T SIDEPARALLELOVERLAP w); [eexists; split; [reflexivity|exact H]|].
  destruct (isk T SAMEMASK w); eexists; (split; [reflexivity|exact H]).
Qed.
Lemma adj_ends : forall n s, ok s -> adj_go T dbu int_of cls n s <> None.
Proof.
  induction n as [|n IH]; intros s H; cbn [adj_go]; [discriminate|]. destruct (s_bad T s) eqn:B; [discriminate|]. unfold ok in H. destruct (s_ws T s) as [|w r]; [discriminate|].
  destruct (adj_word_ends w (at_ws T r s)) as (s' & -> & H'); [exact (okws_tl _ _ H)|exact B|]. apply IH, H'.
Qed.
Lemma cuts_ends : forall n s, ok s -> cuts_go T dbu int_of cls n s <> None.
Proof.
  induction n as [|n IH]; intros s H; cbn [cuts_go]; [discriminate|]. destruct (s_bad T s) eqn:B; [discriminate|]. unfold ok in H. destruct (s_ws T s) as [|w r]; [discriminate|].
  assert (O : ok (at_ws T r s)) by exact (okws_tl _ _ H). generalize dependent (at_ws T r s). intros s1 O.
  assert (R : forall f, ok (rdn T s1 (fun x s => put T (f x) s) (skip T))) by (intros f; apply ok_rdn; [exact O|intros; apply ok_put; assumption|exact ok_skip]).
  destruct (CspModel.head T dbu w s1) as [s2|] eqn:E.
  - apply IH. unfold CspModel.head in E. destruct (isk T SPACING w); [injection E as <-; apply R|]. destruct (isk T CENTERTOCENTER w); [injection E as <-; exact O|]. destruct (isk T SAMENET w); [injection E as <-; exact O|].
    destruct (isk T SAMEMETAL w); [injection E as <-; exact O|]. destruct (isk T SAMEVIA w); [injection E as <-; exact O|discriminate E].
  - destruct (isk T ADJACENTCUTS w); [apply adj_ends, R|apply IH, O].
Qed.
Lemma numbered_tl : forall w r, numbered (w :: r) -> numbered r.
Proof. intros w r H a b ->. apply (H (w :: a) b). reflexivity. Qed.
Lemma numbered_suffix : forall a b, numbered (a ++ b) -> numbered b.
Proof. induction a as [|w a IH]; intros b H; [exact H|]. apply IH. exact (numbered_tl _ _ H). Qed.
Lemma numbered_okws : forall ws r, numbered (ws ++ [KW SEMI] ++ r) -> okws (ws ++ [KW SEMI]) = true.
Proof.
  induction ws as [|w ws IH]; intros r H; [reflexivity|]. cbn [app okws]. rewrite (IH r (numbered_tl _ _ H)), andb_true_r. apply andb_true_intro. split.
  - destruct w as [k|x|x]; try reflexivity. destruct k; try reflexivity. replace (isk T TWOCUTSSPACING (KW TWOCUTSSPACING)) with true by reflexivity.
    destruct (H [] (ws ++ [KW SEMI] ++ r) eq_refl) as (x & c & E). destruct ws as [|w ws]; [discriminate E|]. cbn [app] in *. injection E as -> _. reflexivity.
  - destruct ws; reflexivity.
Qed.
(* the words kept are a part of those before *)
Lemma collect_suffix : forall ws ss, exists a, ss ++ ws = a ++ fold_left (collect T) ws ss.
Proof.
  induction ws as [|w ws IH]; intros ss; [exists []; rewrite app_nil_r; reflexivity|]. cbn [fold_left]. unfold collect at 2. destruct (isk T SPACING w).
  - destruct (IH [w]) as (a & E). exists (ss ++ a). rewrite <- app_assoc, <- E. reflexivity.
  - destruct (IH (ss ++ [w])) as (a & E). exists a. rewrite <- E, <- app_assoc. reflexivity.
Qed.
Lemma okws_suffix : forall a b, okws (a ++ b) = true -> okws b = true.
Proof. induction a as [|w a IH]; intros b H; [exact H|]. exact (IH b (okws_tl _ _ H)). Qed.
Lemma rule_ends : forall ws, okws ws = true -> rule_read T dbu int_of cls ws <> Hangs T.
Proof.
  intros ws H. unfold rule_read. destruct (fold_left (keyword T) ws HNone); try discriminate; [unfold layer_read, verdict; destruct (s_skip T _); discriminate|].
  unfold cuts_read. set (ss := fold_left (collect T) ws []). assert (O : ok (st0 T ss)).
  { unfold ok, st0. cbn [s_ws]. destruct (collect_suffix ws []) as (a & E). cbn [app] in E. rewrite E in H. exact (okws_suffix _ _ H). }
  pose proof (cuts_ends (List.length ss) (st0 T ss) O) as N. destruct (cuts_go T dbu int_of cls (List.length ss) (st0 T ss)); [|congruence]. unfold verdict. destruct (s_skip T s); discriminate.
Qed.
Lemma semi : forall w, isk T SEMI w = true -> w = KW SEMI. Proof. intros [k|x|x] H; try discriminate H. destruct k; try discriminate H. reflexivity. Qed.
Lemma spacing_ends : forall ws ss, numbered (ss ++ ws) -> cut_spacing_go T dbu int_of cls ws ss <> None.
Proof.
  induction ws as [|w ws IH]; intros ss H; cbn [cut_spacing_go]; [discriminate|].
  assert (H' : numbered (collect T ss w ++ ws)).
  { unfold collect. destruct (isk T SPACING w); [exact (numbered_suffix ss _ H)|]. rewrite <- app_assoc. exact H. }
  destruct (isk T SEMI w) eqn:E; [|apply IH, H']. apply semi in E as ->.
  assert (R : rule_read T dbu int_of cls (collect T ss (KW SEMI)) <> Hangs T) by (apply rule_ends; apply (numbered_okws ss ws H)).
  pose proof (IH _ H') as N. destruct (rule_read T dbu int_of cls (collect T ss (KW SEMI))), (cut_spacing_go T dbu int_of cls ws (collect T ss (KW SEMI))); congruence.
Qed.
End P.
