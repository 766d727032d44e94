(* Merging of overlapping wires: facts about one track, then the whole net. *)
From Verif Require Import Base GeomModel ConnModel ConnSpec ConnProofs.
From Coq Require Import Permutation Sorted.

Lemma NoDup_app_l {A} (l l' : list A) : NoDup (l ++ l') -> NoDup l.
Proof. induction l; cbn; intros H; constructor; inversion H; subst; auto. rewrite in_app_iff in *. tauto. Qed.
Lemma NoDup_app_r {A} (l l' : list A) : NoDup (l ++ l') -> NoDup l'.
Proof. induction l; cbn; intros H; [assumption|]. inversion H; auto. Qed.

Section OneTrack.
Variable spans : list span.
Hypothesis lt : forall x, In x spans -> sb x < se x.
Hypothesis nd : NoDup (map si spans).
Let V := fst (merge_helper (span_sort spans)).
Let N := snd (merge_helper (span_sort spans)).

Lemma track_groups : exists G, (forall s, In s spans <-> exists g, In g G /\ In s (fst g)) /\ NoDup (map si (concat (map fst G))) /\
  Forall grp G /\ ForallOrdPairs before G /\ Forall (fun x => fst x <> []) G /\ V = flat_map g_vic G /\ N = flat_map g_new G.
Proof.
  pose proof (span_sort_perm spans) as P.
  destruct (merge_groups (span_sort spans)) as (G & HG & H1 & H2 & H3 & H4).
  - apply span_sort_sorted.
  - intros x Hx. apply lt. rewrite <- P. assumption.
  - rewrite P. assumption.
  - exists G. split; [|split; [|split; [|split; [|split; [|]]]]]; auto.
    + intros s. rewrite <- P, <- HG. rewrite in_concat. split.
      * intros (l & Hl & Hs). apply in_map_iff in Hl as (g & <- & Hg). eauto.
      * intros (g & Hg & Hs). exists (fst g). split; [apply in_map|]; assumption.
    + rewrite HG, P. assumption.
    + unfold V, N. rewrite H4. auto.
Qed.
Lemma same_si a b l : NoDup (map si l) -> In a l -> In b l -> si a = si b -> a = b.
Proof.
  induction l as [|c l IH]; cbn; [easy|]. intros H [->|Ha] [->|Hb] E; inversion H as [|? ? Hn Hd]; subst; auto.
  - exfalso. apply Hn. rewrite E. apply in_map. assumption.
  - exfalso. apply Hn. rewrite <- E. apply in_map. assumption.
Qed.
(* a span in two groups: they are the same one *)
Lemma one_group G g g' s : NoDup (map si (concat (map fst G))) -> ForallOrdPairs before G -> In g G -> In g' G -> In s (fst g) -> In s (fst g') -> sb s < se s -> g = g'.
Proof.
  intros _ Ho Hg Hg' Hs Hs' L. destruct (ForallOrdPairs_In Ho g g' Hg Hg') as [?|[Hb|Hb]]; [assumption| |].
  - specialize (Hb s s Hs Hs'). lia.
  - specialize (Hb s s Hs' Hs). lia.
Qed.
Lemma in_vic s : In s spans -> (In (si s) V <-> forall G, (forall s, In s spans <-> exists g, In g G /\ In s (fst g)) -> NoDup (map si (concat (map fst G))) ->
  Forall grp G -> ForallOrdPairs before G -> Forall (fun x => fst x <> []) G -> V = flat_map g_vic G -> N = flat_map g_new G -> exists g, In g G /\ In s (fst g) /\ (2 <= length (fst g))%nat).
Proof.
  intros Hs. split.
  - intros Hv G A1 A2 _ A4 _ A6 _. rewrite A6 in Hv. apply in_flat_map in Hv as (g & Hg & Hi). unfold g_vic in Hi.
    destruct (2 <=? length (fst g))%nat eqn:E; [|destruct Hi]. apply in_map_iff in Hi as (s' & E' & Hs').
    assert (s' = s) as -> by (apply (same_si s' s spans nd); [apply A1; eauto|assumption|assumption]).
    exists g. repeat split; auto. lia.
  - intros H. destruct track_groups as (G & A1 & A2 & A3 & A4 & A5 & A6 & A7).
    destruct (H G A1 A2 A3 A4 A5 A6 A7) as (g & Hg & Hs' & Hl). rewrite A6. apply in_flat_map. exists g. split; [assumption|].
    unfold g_vic. replace (2 <=? length (fst g))%nat with true by lia. apply in_map. assumption.
Qed.

Lemma vic_from v : In v V -> exists s, In s spans /\ si s = v.
Proof.
  destruct track_groups as (G & A1 & A2 & A3 & A4 & A5 & A6 & A7). rewrite A6. intros Hv. apply in_flat_map in Hv as (g & Hg & Hi). unfold g_vic in Hi.
  destruct (2 <=? length (fst g))%nat eqn:E; [|destruct Hi]. apply in_map_iff in Hi as (s & E' & Hs). exists s. split; [apply A1; eauto|assumption].
Qed.
Lemma vic_nodup : NoDup V.
Proof.
  destruct track_groups as (G & _ & A2 & _ & _ & _ & A6 & _). rewrite A6. clear A6. induction G as [|g G IH]; cbn; [constructor|].
  cbn in A2. rewrite map_app in A2. unfold g_vic at 1. destruct (2 <=? length (fst g))%nat.
  - clear -A2 IH. specialize (IH (NoDup_app_r _ _ A2)).
    assert (S : forall x, In x (flat_map g_vic G) -> In x (map si (concat (map fst G)))).
    { intros x Hx. apply in_flat_map in Hx as (h & Hh & Hi). unfold g_vic in Hi. destruct (2 <=? length (fst h))%nat; [|destruct Hi].
      apply in_map_iff in Hi as (s & <- & Hs). apply in_map. apply in_concat. exists (fst h). split; [apply in_map|]; assumption. }
    revert A2 S IH. generalize (map si (fst g)) (map si (concat (map fst G))) (flat_map g_vic G). intros l m n. induction l as [|a l IHl]; cbn; intros A2 S IH; [assumption|].
    inversion A2 as [|? ? Hn Hd]; subst. constructor; [|apply IHl; assumption]. rewrite in_app_iff in *. intros [?|?]; apply Hn; auto.
  - apply IH. exact (NoDup_app_r _ _ A2).
Qed.
Lemma nonvic_single G s : (forall s, In s spans <-> exists g, In g G /\ In s (fst g)) -> V = flat_map g_vic G -> In s spans -> ~ In (si s) V -> exists g, In g G /\ fst g = [s].
Proof.
  intros A1 A6 Hs Hv. destruct (proj1 (A1 s) Hs) as (g & Hg & Hi). exists g. split; [assumption|].
  destruct (fst g) as [|a [|b l]] eqn:E; [destruct Hi|destruct Hi as [->|[]]; reflexivity|].
  exfalso. apply Hv. rewrite A6. apply in_flat_map. exists g. split; [assumption|]. unfold g_vic. rewrite E. cbn [length]. replace (2 <=? S (S (length l)))%nat with true by lia.
  apply in_map. assumption.
Qed.
Lemma new_hull G n : N = flat_map g_new G -> In n N -> exists g, In (g, n) G /\ (2 <= length g)%nat.
Proof.
  intros -> Hn. apply in_flat_map in Hn as ((g & h) & Hg & Hi). unfold g_new in Hi. cbn [fst snd] in Hi.
  destruct (2 <=? length g)%nat eqn:E; [|destruct Hi]. destruct Hi as [<-|[]]. exists g. split; [assumption|]. lia.
Qed.
Lemma hull_start g st en : grp (g, (st, en)) -> g <> [] -> (forall s, In s g -> sb s < se s) -> st < en /\ exists s, In s g /\ sb s = st.
Proof.
  intros (C1 & (sm & Cm & Em) & C3 & C4) Hn L. assert (st < en) by (destruct (C1 sm Cm); specialize (L sm Cm); lia). split; [assumption|].
  destruct (C3 (2 * st) ltac:(lia)) as (s & Hs & Hx). exists s. split; [assumption|]. destruct (C1 s Hs). lia.
Qed.

Lemma merge_cover x : (exists s, In s spans /\ 2 * sb s <= x <= 2 * se s) <->
  (exists s, In s spans /\ ~ In (si s) V /\ 2 * sb s <= x <= 2 * se s) \/ (exists n, In n N /\ 2 * fst n <= x <= 2 * snd n).
Proof.
  destruct track_groups as (G & A1 & A2 & A3 & A4 & A5 & A6 & A7). rewrite Forall_forall in A3. split.
  - intros (s & Hs & Hx). destruct (in_dec Nat.eq_dec (si s) V) as [Hv|Hv]; [|left; eauto]. right.
    apply (in_vic s Hs) with (G := G) in Hv as (g & Hg & Hi & Hl); auto; [|apply Forall_forall; assumption].
    exists (snd g). split.
    + rewrite A7. apply in_flat_map. exists g. split; [assumption|]. unfold g_new. replace (2 <=? length (fst g))%nat with true by lia. cbn; auto.
    + destruct g as (g & st & en). destruct (A3 _ Hg) as (C1 & _). destruct (C1 s Hi). cbn [fst snd]. lia.
  - intros [(s & Hs & _ & Hx)|(n & Hn & Hx)]; [eauto|].
    destruct (new_hull G n A7 Hn) as (g & Hg & Hl). destruct n as [st en]. destruct (A3 _ Hg) as (_ & _ & C3 & _).
    destruct (C3 x Hx) as (s & Hs & Hx'). exists s. split; [apply A1; exists (g, (st, en)); auto|assumption].
Qed.
Lemma merge_sep_kept s s' : In s spans -> In s' spans -> ~ In (si s) V -> ~ In (si s') V -> si s <> si s' -> se s <= sb s' \/ se s' <= sb s.
Proof.
  destruct track_groups as (G & A1 & A2 & A3 & A4 & A5 & A6 & A7). intros Hs Hs' Hv Hv' Hn.
  destruct (nonvic_single G s A1 A6 Hs Hv) as (g & Hg & Eg). destruct (nonvic_single G s' A1 A6 Hs' Hv') as (g' & Hg' & Eg').
  destruct (ForallOrdPairs_In A4 g g' Hg Hg') as [->|[Hb|Hb]].
  - rewrite Eg in Eg'. injection Eg' as <-. congruence.
  - left. apply Hb; [rewrite Eg|rewrite Eg']; cbn; auto.
  - right. apply Hb; [rewrite Eg'|rewrite Eg]; cbn; auto.
Qed.
Lemma merge_sep_new s n : In s spans -> ~ In (si s) V -> In n N -> se s <= fst n \/ snd n <= sb s.
Proof.
  destruct track_groups as (G & A1 & A2 & A3 & A4 & A5 & A6 & A7). rewrite Forall_forall in A3. intros Hs Hv Hn.
  destruct (nonvic_single G s A1 A6 Hs Hv) as (g & Hg & Eg). destruct (new_hull G n A7 Hn) as (g' & Hg' & Hl). destruct n as [st en].
  pose proof (A3 _ Hg') as Hh. destruct (hull_start g' st en Hh) as (_ & s0 & Hs0 & E0).
  { destruct g'; [cbn in Hl; lia|discriminate]. } { intros x Hx. apply lt. apply A1. exists (g', (st, en)). auto. }
  destruct Hh as (_ & (sm & Hm & Em) & _). cbn [fst snd].
  destruct (ForallOrdPairs_In A4 g _ Hg Hg') as [->|[Hb|Hb]].
  - cbn in Eg. subst g'. cbn in Hl. lia.
  - left. rewrite <- E0. apply Hb; [rewrite Eg; cbn; auto|assumption].
  - right. rewrite <- Em. apply Hb; [assumption|rewrite Eg; cbn; auto].
Qed.
Lemma merge_sep_news : ForallOrdPairs (fun n n' => snd n <= fst n') N.
Proof.
  destruct track_groups as (G & A1 & A2 & A3 & A4 & A5 & A6 & A7). rewrite A7.
  assert (L : forall g s, In g G -> In s (fst g) -> sb s < se s) by (intros g s Hg Hs; apply lt, A1; eauto).
  clear A1 A2 A6 A7 A5. induction G as [|g G IH]; cbn; [constructor|]. inversion A3 as [|? ? Hg HG]; subst. inversion A4 as [|? ? Hf Ho]; subst.
  specialize (IH HG Ho ltac:(intros; eapply L; cbn; eauto)). unfold g_new at 1. destruct (2 <=? length (fst g))%nat eqn:E; [|assumption]. cbn. constructor; [|assumption].
  apply Forall_forall. intros n Hn. apply in_flat_map in Hn as (g' & Hg' & Hi). unfold g_new in Hi. destruct (2 <=? length (fst g'))%nat eqn:E'; [|destruct Hi]. destruct Hi as [<-|[]].
  rewrite Forall_forall in Hf. specialize (Hf g' Hg'). rewrite Forall_forall in HG. specialize (HG g' Hg').
  destruct g' as (g' & st' & en'). destruct g as (g & st & en). cbn [fst snd] in *.
  destruct Hg as (_ & (sm & Hm & Em) & _). destruct (hull_start g' st' en' HG) as (_ & s0 & Hs0 & E0).
  { destruct g'; [cbn in E'; discriminate|discriminate]. } { intros x Hx. apply (L (g', (st', en'))); cbn; auto. }
  rewrite <- E0, <- Em. apply Hf; assumption.
Qed.
Lemma merge_count : (2 * length N <= length V)%nat.
Proof.
  destruct track_groups as (G & _ & _ & _ & _ & _ & A6 & A7). rewrite A6, A7. clear. induction G as [|g G IH]; cbn [flat_map]; [cbn; lia|].
  rewrite !app_length. unfold g_new at 1, g_vic at 1. destruct (2 <=? length (fst g))%nat eqn:E; cbn [length]; [rewrite map_length|]; lia.
Qed.
Lemma merge_partner s : In s spans -> In (si s) V -> exists s', In s' spans /\ si s' <> si s /\ sb s < se s' /\ sb s' < se s.
Proof.
  destruct track_groups as (G & A1 & A2 & A3 & A4 & A5 & A6 & A7). intros Hs Hv.
  apply (in_vic s Hs) with (G := G) in Hv as (g & Hg & Hi & Hl); auto.
  rewrite Forall_forall in A3. destruct g as (g & st & en). destruct (A3 _ Hg) as (_ & _ & _ & C4).
  destruct (C4 Hl s Hi) as (s' & Hs' & ?). exists s'. split; [apply A1; exists (g, (st, en)); auto|assumption].
Qed.
Lemma merge_new_lt n : In n N -> fst n < snd n.
Proof.
  destruct track_groups as (G & A1 & A2 & A3 & A4 & A5 & A6 & A7). rewrite Forall_forall in A3. intros Hn.
  destruct (new_hull G n A7 Hn) as (g' & Hg' & Hl). destruct n as [st en].
  destruct (hull_start g' st en (A3 _ Hg')) as (H & _); [destruct g'; [cbn in Hl; lia|discriminate]| |exact H].
  intros x Hx. apply lt. apply A1. exists (g', (st, en)). auto.
Qed.
End OneTrack.
