(* Proofs about the index of routed shapes. *)
From Verif Require Import Base GeomModel GeomSpec GeomProofs FmModel FmSpec FmProofs FmProofs2 GiModel GiProofs GiProofs2 ClipModel RqModel RqSpec.
From Coq Require Import List Permutation.
Open Scope list_scope.

Lemma box_eqb_spec a c : box_eqb a c = true <-> a = c.
Proof. unfold box_eqb. rewrite andb_true_iff, !pt_eq_spec. destruct a, c; cbn. split; [intros [-> ->]; reflexivity|intros E; injection E; auto]. Qed.
Lemma ient_eqb_spec (a c : ient) : ient_eqb a c = true <-> a = c.
Proof.
  unfold ient_eqb. rewrite !andb_true_iff, Z.eqb_eq, box_eqb_spec, Nat.eqb_eq. destruct a as [[l b] i], c as [[l' b'] i']; cbn.
  split; [intros [[-> ->] ->]; reflexivity|intros E; injection E; auto].
Qed.
Lemma touch_spec a q : proper a -> proper q -> touch a q = true <-> meets a q.
Proof.
  intros [A1 A2] [Q1 Q2]. unfold touch, meets. rewrite !andb_true_iff, !Z.leb_le. split.
  - intros [[[H1 H2] H3] H4]. exists (Z.max (bleft a) (bleft q)), (Z.max (bbottom a) (bbottom q)). lia.
  - intros (x & y & H). lia.
Qed.

Section St.
Variable T : Type.
Variable entry : T -> Z * box.
Variable ord : list ient -> list ient.
Hypothesis ordP : forall l, Permutation (ord l) l.
Notation db := (s_db T). Notation ix := (s_ix T).
Definition ents (d : list (nat * T)) : list ient := map (fun o => (entry (snd o), fst o)) d.
Definition sync (s : store T) : Prop := NoDup (map fst (db s)) /\ Permutation (ix s) (ents (db s)).

Lemma look_in i s t : NoDup (map fst (db s)) -> (look T i s = Some t <-> In (i, t) (db s)).
Proof.
  unfold look. generalize (db s) as d. intros d ND. induction d as [|[j u] d IH]; [split; [discriminate|intros []]|].
  cbn [find fst] in *. cbn in ND. inversion ND as [|x l NI ND']; subst. destruct (Nat.eqb j i) eqn:E.
  - apply Nat.eqb_eq in E. subst j. cbn [option_map snd]. split; [intros H; injection H as ->; left; reflexivity|].
    intros [H|H]; [injection H as ->; reflexivity|]. exfalso. apply NI. apply (in_map fst) in H. exact H.
  - apply Nat.eqb_neq in E. rewrite (IH ND'). split; [right; assumption|]. intros [H|H]; [injection H as H _; contradiction|exact H].
Qed.
Lemma look_some i s : In i (map fst (db s)) -> exists t, look T i s = Some t.
Proof.
  unfold look. generalize (db s) as d. intros d I. destruct (find (fun o => Nat.eqb (fst o) i) d) as [o|] eqn:F; [eexists; reflexivity|].
  exfalso. apply in_map_iff in I as (o & <- & I). apply (find_none _ _ F) in I. rewrite Nat.eqb_refl in I. discriminate I.
Qed.
Lemma fresh_new s i : In i (map fst (db s)) -> (i < fresh T s)%nat.
Proof.
  unfold fresh. generalize (map fst (db s)) as l. induction l as [|j l IH]; [intros []|]. intros [->|I]; cbn; [lia|]. apply IH in I. lia.
Qed.
Lemma add_sync t s : sync s -> sync (add T entry t s) /\ db (add T entry t s) = db s ++ [(fresh T s, t)].
Proof.
  intros [ND PM]. split; [|reflexivity]. split; cbn [s_db s_ix add].
  - rewrite map_app. cbn. apply (Permutation_NoDup (l := fresh T s :: map fst (db s))); [apply Permutation_cons_append|]. constructor; [|exact ND].
    intros I. apply fresh_new in I. lia.
  - unfold ents. rewrite map_app. cbn. apply Permutation_app_tail. exact PM.
Qed.
Lemma ix_remove_perm e l : In e l -> Permutation l (e :: ix_remove e l).
Proof.
  induction l as [|x l IH]; [intros []|]. intros I. cbn. destruct (ient_eqb x e) eqn:E.
  - apply ient_eqb_spec in E. subst. apply Permutation_refl.
  - destruct I as [->|I]; [rewrite (proj2 (ient_eqb_spec e e) eq_refl) in E; discriminate E|]. eapply Permutation_trans; [constructor; apply IH; exact I|apply perm_swap].
Qed.
Lemma without i t (d : list (nat * T)) : NoDup (map fst d) -> In (i, t) d -> Permutation d ((i, t) :: filter (fun o => negb (Nat.eqb (fst o) i)) d).
Proof.
  intros ND. induction d as [|[j u] d IH]; [intros []|]. cbn in ND. inversion ND as [|x l NI ND']; subst. intros [E|I].
  - injection E as -> ->. cbn [filter fst]. rewrite Nat.eqb_refl. cbn [negb]. constructor.
    replace (filter (fun o => negb (Nat.eqb (fst o) i)) d) with d; [apply Permutation_refl|]. symmetry. apply filter_all. intros [k v] I. cbn. destruct (Nat.eqb k i) eqn:EK; [|reflexivity].
    apply Nat.eqb_eq in EK. subst k. exfalso. apply NI. apply (in_map fst) in I. exact I.
  - cbn [filter fst]. destruct (Nat.eqb j i) eqn:E.
    + apply Nat.eqb_eq in E. subst j. exfalso. apply NI. apply (in_map fst) in I. exact I.
    + cbn [negb]. eapply Permutation_trans; [constructor; apply (IH ND' I)|apply perm_swap].
Qed.
Lemma del_sync i s : sync s -> In i (map fst (db s)) ->
  exists s', del T entry i s = Some s' /\ sync s' /\ db s' = filter (fun o => negb (Nat.eqb (fst o) i)) (db s).
Proof.
  intros [ND PM] I. destruct (look_some i s I) as (t & E). unfold del. rewrite E. eexists. split; [reflexivity|]. split; [|reflexivity].
  apply look_in in E; [|exact ND]. pose proof (without i t (db s) ND E) as W. split; cbn [s_db s_ix].
  - apply (Permutation_map fst) in W. apply (Permutation_NoDup W) in ND. cbn in ND. inversion ND; assumption.
  - assert (IE : In (entry t, i) (ix s)). { apply (Permutation_in _ (Permutation_sym PM)). unfold ents. apply in_map_iff. exists (i, t). auto. }
    apply ix_remove_perm in IE. apply (Permutation_map (fun o => (entry (snd o), fst o))) in W. cbn in W.
    apply (Permutation_cons_inv (a := (entry t, i))). eapply Permutation_trans; [apply Permutation_sym; exact IE|]. eapply Permutation_trans; [exact PM|exact W].
Qed.
Lemma change_sync i f s : sync s -> In i (map fst (db s)) ->
  exists s' t, change T entry i f s = Some s' /\ sync s' /\ In (i, t) (db s) /\ db s' = map (fun o => if Nat.eqb (fst o) i then (i, f t) else o) (db s).
Proof.
  intros [ND PM] I. destruct (look_some i s I) as (t & E). unfold change. rewrite E. exists (mkS T (map (fun o => if Nat.eqb (fst o) i then (i, f t) else o) (db s)) (ix_remove (entry t, i) (ix s) ++ [(entry (f t), i)])), t.
  split; [reflexivity|]. apply look_in in E; [|exact ND]. split; [|split; [exact E|reflexivity]]. pose proof (without i t (db s) ND E) as W.
  set (g := fun o : nat * T => if Nat.eqb (fst o) i then (i, f t) else o).
  split; cbn [s_db s_ix].
  - replace (map fst (map g (db s))) with (map fst (db s)); [exact ND|]. rewrite map_map. apply map_ext. intros [k v]. unfold g. cbn. destruct (Nat.eqb k i) eqn:EK; [apply Nat.eqb_eq in EK; subst; reflexivity|reflexivity].
  - assert (IE : In (entry t, i) (ix s)). { apply (Permutation_in _ (Permutation_sym PM)). unfold ents. apply in_map_iff. exists (i, t). auto. }
    apply ix_remove_perm in IE.
    assert (G : map g (filter (fun o => negb (Nat.eqb (fst o) i)) (db s)) = filter (fun o => negb (Nat.eqb (fst o) i)) (db s)).
    { rewrite <- (map_id (filter (fun o => negb (Nat.eqb (fst o) i)) (db s))) at 2. apply map_ext_in. intros [k v] IK. apply filter_In in IK as [_ IK]. unfold g. cbn in *. destruct (Nat.eqb k i); [discriminate IK|reflexivity]. }
    assert (W2 : Permutation (map g (db s)) ((i, f t) :: filter (fun o => negb (Nat.eqb (fst o) i)) (db s))).
    { eapply Permutation_trans; [apply Permutation_map; exact W|]. cbn [map]. unfold g at 1. cbn [fst]. rewrite Nat.eqb_refl, G. apply Permutation_refl. }
    apply (Permutation_map (fun o => (entry (snd o), fst o))) in W2. cbn in W2. eapply Permutation_trans; [|apply Permutation_sym; exact W2].
    eapply Permutation_trans; [apply Permutation_sym; apply Permutation_cons_append|]. constructor.
    apply (Permutation_cons_inv (a := (entry t, i))). eapply Permutation_trans; [apply Permutation_sym; exact IE|]. eapply Permutation_trans; [exact PM|].
    apply (Permutation_map (fun o => (entry (snd o), fst o))) in W. exact W.
Qed.
Lemma queried (c : ient -> bool) s : sync s ->
  NoDup (map snd (ord (filter c (ix s)))) /\ forall i, In i (map snd (ord (filter c (ix s)))) <-> exists t, In (i, t) (db s) /\ c (entry t, i) = true.
Proof.
  intros [ND PM]. split.
  - apply (Permutation_NoDup (l := map snd (filter c (ents (db s))))).
    + apply Permutation_map. eapply Permutation_trans; [|apply Permutation_sym; apply ordP]. apply filter_perm. apply Permutation_sym. exact PM.
    + unfold ents. revert ND. generalize (db s) as d. clear PM. induction d as [|[k v] d IH]; intros ND; [constructor|]. cbn in ND. inversion ND as [|x l NI ND']; subst. cbn.
      destruct (c (entry v, k)); [|apply IH; exact ND']. cbn. constructor; [|apply IH; exact ND'].
      intros J. apply NI. apply in_map_iff in J as (e & EQ & J). apply filter_In in J as [J _]. apply in_map_iff in J as ([k' v'] & <- & J). cbn in EQ. subst k'. apply (in_map fst) in J. exact J.
  - intros i. rewrite in_map_iff. split.
    + intros (e & <- & J). apply (Permutation_in _ (ordP _)) in J. apply filter_In in J as [J CE]. apply (Permutation_in _ PM) in J. apply in_map_iff in J as ([k v] & <- & J). cbn. exists v. auto.
    + intros (t & J & CE). exists (entry t, i). split; [reflexivity|]. apply (Permutation_in _ (Permutation_sym (ordP _))). apply filter_In. split; [|exact CE].
      apply (Permutation_in _ (Permutation_sym PM)). apply in_map_iff. exists (i, t). auto.
Qed.
Lemma query_present q s : sync s -> NoDup (query_all T ord q s) /\ forall i, In i (query_all T ord q s) -> In i (map fst (db s)).
Proof. intros S. destruct (queried (fun e => touch (snd (fst e)) q) s S) as [N Q]. split; [exact N|]. intros i I. apply Q in I as (t & I & _). apply (in_map fst) in I. exact I. Qed.
Lemma adds_sync ts : forall s, sync s -> sync (fold_left (fun s t => add T entry t s) ts s) /\ (forall o, In o (db s) -> In o (db (fold_left (fun s t => add T entry t s) ts s))) /\
  map snd (db (fold_left (fun s t => add T entry t s) ts s)) = map snd (db s) ++ ts.
Proof.
  induction ts as [|t ts IH]; intros s S; [cbn; split; [exact S|split; [auto|rewrite app_nil_r; reflexivity]]|]. cbn [fold_left]. destruct (add_sync t s S) as [S1 D1]. destruct (IH _ S1) as (S2 & D2 & D3). split; [exact S2|]. split.
  - intros o I. apply D2. rewrite D1. apply in_app_iff. auto.
  - rewrite D3, D1, map_app. cbn. rewrite <- app_assoc. reflexivity.
Qed.
Lemma dels_sync is : forall s, sync s -> NoDup is -> (forall i, In i is -> In i (map fst (db s))) ->
  exists s', each (del T entry) is s = Some s' /\ sync s' /\ db s' = filter (fun o => negb (existsb (Nat.eqb (fst o)) is)) (db s).
Proof.
  induction is as [|i is IH]; intros s S ND P.
  - exists s. split; [reflexivity|]. split; [exact S|]. symmetry. apply filter_all. reflexivity.
  - inversion ND as [|x l NI ND']; subst. destruct (del_sync i s S (P i (or_introl eq_refl))) as (s1 & E1 & S1 & D1).
    destruct (IH s1 S1 ND') as (s2 & E2 & S2 & D2).
    { intros j J. rewrite D1. specialize (P j (or_intror J)). apply in_map_iff in P as (o & <- & IO). apply in_map. apply filter_In. split; [exact IO|]. destruct (Nat.eqb (fst o) i) eqn:E; [|reflexivity]. apply Nat.eqb_eq in E. rewrite E in J. contradiction. }
    exists s2. split; [unfold each in *; cbn [fold_left]; rewrite E1; exact E2|]. split; [exact S2|]. rewrite D2, D1.
    clear. induction (db s) as [|o d IHd]; [reflexivity|]. cbn [filter existsb]. destruct (Nat.eqb (fst o) i); cbn [negb orb filter]; [exact IHd|]. destruct (existsb _ is); cbn [negb]; rewrite IHd; reflexivity.
Qed.
(* queries and the specification *)
Lemma sync_in_step (shp : T -> Z -> box -> Prop) (okT : T -> Prop) s :
  (forall t l r, okT t -> (shp t l r <-> entry t = (l, r))) -> (forall t, okT t -> proper (snd (entry t))) -> (forall i t, In (i, t) (db s) -> okT t) ->
  sync s -> in_step shp ord s.
Proof.
  intros SH PR OK S. split; [exact (proj1 S)|]. split.
  - intros l q PQ. destruct (queried (fun e => (fst (fst e) =? l) && touch (snd (fst e)) q) s S) as [N Q]. split; [exact N|]. intros i. unfold query. rewrite Q. cbn [fst snd]. split.
    + intros (t & I & C). apply andb_true_iff in C as [C1 C2]. apply Z.eqb_eq in C1. pose proof (OK i t I) as O. apply touch_spec in C2; [|apply PR; exact O|exact PQ].
      exists t, (snd (entry t)). split; [exact I|]. split; [|exact C2]. apply SH; [exact O|]. rewrite <- C1. destruct (entry t); reflexivity.
    + intros (t & r & I & C & M). pose proof (OK i t I) as O. exists t. split; [exact I|]. apply SH in C; [|exact O]. pose proof (PR t O) as P. rewrite C in *. cbn [fst snd] in *. rewrite Z.eqb_refl. apply touch_spec; assumption.
  - intros q PQ. destruct (queried (fun e => touch (snd (fst e)) q) s S) as [N Q]. split; [exact N|]. intros i. unfold query_all. rewrite Q. cbn [fst snd]. split.
    + intros (t & I & C). pose proof (OK i t I) as O. apply touch_spec in C; [|apply PR; exact O|exact PQ].
      exists t, (fst (entry t)), (snd (entry t)). split; [exact I|]. split; [|exact C]. apply SH; [exact O|]. destruct (entry t); reflexivity.
    + intros (t & l & r & I & C & M). pose proof (OK i t I) as O. exists t. split; [exact I|]. apply SH in C; [|exact O]. pose proof (PR t O) as P. rewrite C in *. cbn [fst snd] in *. apply touch_spec; assumption.
Qed.
End St.
