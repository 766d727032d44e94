(* Merging of overlapping wires. *)
From Verif Require Import Base GeomModel ConnModel ConnSpec.
From Coq Require Import Permutation Sorted.

Definition sb (s : span) : Z := fst (fst s).
Definition se (s : span) : Z := snd (fst s).
Definition si (s : span) : nat := snd s.

(* ---------- sorting *)
Lemma span_ins_perm a l : Permutation (span_ins a l) (a :: l).
Proof.
  induction l as [|b l IH]; cbn; [reflexivity|]. destruct (span_lt b a); [|reflexivity].
  rewrite IH. apply perm_swap.
Qed.
Lemma span_sort_perm l : Permutation (span_sort l) l.
Proof. induction l as [|a l IH]; cbn; [reflexivity|]. rewrite span_ins_perm. constructor. exact IH. Qed.
Lemma span_lt_b a b : span_lt a b = true -> sb a <= sb b.
Proof. destruct a as [[b1 e1] i1], b as [[b2 e2] i2]. unfold sb; cbn. zcases; intros; lia. Qed.
Lemma span_nlt_b a b : span_lt a b = false -> sb b <= sb a.
Proof. destruct a as [[b1 e1] i1], b as [[b2 e2] i2]. unfold sb; cbn. zcases; intros; lia. Qed.
Definition by_start (a b : span) : Prop := sb a <= sb b.
Lemma span_ins_sorted a l : StronglySorted by_start l -> StronglySorted by_start (span_ins a l).
Proof.
  induction l as [|b l IH]; cbn; intros H; [repeat constructor|].
  inversion H as [|? ? Hs Hf]; subst. destruct (span_lt b a) eqn:E.
  - constructor; [auto|]. rewrite span_ins_perm. constructor; [apply span_lt_b; assumption|assumption].
  - constructor; [assumption|]. apply span_nlt_b in E. constructor; [exact E|].
    eapply Forall_impl; [|exact Hf]. unfold by_start in *. intros; lia.
Qed.
Lemma span_sort_sorted l : StronglySorted by_start (span_sort l).
Proof. induction l; cbn; [constructor|apply span_ins_sorted; assumption]. Qed.

(* ---------- groups of overlapping spans *)
Definition group := (list span * (Z * Z))%type.
Definition grp (x : group) : Prop :=
  let '(g, (st, en)) := x in
  (forall s, In s g -> st <= sb s /\ se s <= en) /\
  (exists s, In s g /\ se s = en) /\
  (forall x, 2 * st <= x <= 2 * en -> exists s, In s g /\ 2 * sb s <= x <= 2 * se s) /\
  ((2 <= length g)%nat -> forall s, In s g -> exists s', In s' g /\ si s' <> si s /\ sb s < se s' /\ sb s' < se s).
Definition before (x y : group) : Prop := forall s s', In s (fst x) -> In s' (fst y) -> se s <= sb s'.
Definition g_vic (x : group) : list nat := if (2 <=? length (fst x))%nat then map si (fst x) else [].
Definition g_new (x : group) : list (Z * Z) := if (2 <=? length (fst x))%nat then [snd x] else [].

Definition minv (pre : list span) (st : mstate) : Prop :=
  (pre = [] /\ st = mkM 0 (2 ^ 31 - 1) None [] [] []) \/
  exists gs cur s e, pre = concat (map fst gs) ++ cur /\ cur <> [] /\
    Forall grp gs /\ grp (cur, (s, e)) /\ ForallOrdPairs before (gs ++ [(cur, (s, e))]) /\
    st = mkM (Z.of_nat (length cur) - 1) s (Some e) (map si cur) (flat_map g_vic gs) (flat_map g_new gs).

Lemma FOP_app {A} (R : A -> A -> Prop) l l' : ForallOrdPairs R (l ++ l') <->
  ForallOrdPairs R l /\ ForallOrdPairs R l' /\ forall x y, In x l -> In y l' -> R x y.
Proof.
  induction l as [|a l IH]; cbn.
  - split; [intros H; repeat split; [constructor|assumption|easy]|tauto].
  - split.
    + intros H. inversion H as [|? ? Hf Ho]; subst. apply IH in Ho as (H1 & H2 & H3). apply Forall_app in Hf as [Hf1 Hf2].
      split; [constructor; assumption|]. split; [assumption|]. intros x y [<-|Hx] Hy; [rewrite Forall_forall in Hf2; auto|auto].
    + intros (H1 & H2 & H3). inversion H1 as [|? ? Hf Ho]; subst. constructor.
      * apply Forall_app. split; [assumption|]. apply Forall_forall. auto.
      * apply IH. repeat split; auto.
Qed.

Lemma minv_step pre st s : minv pre st -> (forall x, In x (pre ++ [s]) -> sb x < se x) ->
  (forall x, In x pre -> sb x <= sb s) -> NoDup (map si (pre ++ [s])) -> minv (pre ++ [s]) (merge_step st s).
Proof.
  intros H Hlt Hs Hn. right. destruct s as [[b e] i].
  assert (Hbe : b < e) by (apply (Hlt (b, e, i)); rewrite in_app_iff; cbn; auto).
  assert (G1 : forall x, 2 * b <= x <= 2 * e -> exists s, In s [(b, e, i)] /\ 2 * sb s <= x <= 2 * se s).
  { intros x Hx. exists (b, e, i). cbn. auto. }
  assert (G0 : grp ([(b, e, i)], (b, e))).
  { split; [intros s [<-|[]]; unfold sb, se; cbn; lia|]. split; [exists (b, e, i); cbn; auto|]. split; [exact G1|cbn; lia]. }
  destruct H as [(-> & ->)|(gs & cur & st0 & en & -> & Hc & Hg & Hcur & Ho & ->)].
  - exists [], [(b, e, i)], b, e. split; [reflexivity|]. split; [discriminate|]. split; [constructor|]. split; [exact G0|]. split; [repeat constructor|reflexivity].
  - pose proof Hcur as (C1 & (sm & Cm & Em) & C3 & C4).
    apply FOP_app in Ho as (Ho1 & _ & Ho2).
    unfold merge_step. cbn [men mo mst mloc mvic mnew].
    destruct (en <=? b) eqn:Eb.
    + exists (gs ++ [(cur, (st0, en))]), [(b, e, i)], b, e.
      rewrite map_app, concat_app, !flat_map_app. cbn [map concat fst flat_map]. rewrite !app_nil_r.
      split; [rewrite <- ?app_assoc; reflexivity|]. split; [discriminate|].
      split; [apply Forall_app; split; [assumption|constructor; [assumption|constructor]]|]. split; [assumption|]. split.
      * apply FOP_app. split; [apply FOP_app; split; [assumption|split; [repeat constructor|assumption]]|]. split; [repeat constructor|].
        intros x y Hx [<-|[]]. intros s s' Hs1 Hs2. cbn in Hs2. destruct Hs2 as [<-|[]]. cbn.
        apply in_app_iff in Hx as [Hx|[<-|[]]].
        -- assert (Hle : se s <= sb sm) by (apply (Ho2 x (cur, (st0, en))); cbn; auto).
           assert (sb sm < se sm) by (apply Hlt; rewrite !in_app_iff; auto). lia.
        -- cbn in Hs1. destruct (C1 s Hs1). lia.
      * unfold g_vic, g_new. cbn [fst snd]. destruct cur as [|c1 [|c2 cur]]; [contradiction| |].
        -- cbn. rewrite ?app_nil_r. reflexivity.
        -- cbn [length]. rewrite ?app_nil_r. replace (2 <=? Z.of_nat (S (S (length cur))) - 1 + 1) with true by lia.
           replace (2 <=? S (S (length cur)))%nat with true by lia. reflexivity.
    + assert (Hsm : sb sm <= b) by (apply (Hs sm); rewrite in_app_iff; auto).
      assert (Hb0 : st0 <= b) by (destruct (C1 sm Cm); lia).
      exists gs, (cur ++ [(b, e, i)]), st0, (Z.max en e). rewrite app_assoc. split; [reflexivity|].
      split; [destruct cur; discriminate|]. split; [assumption|].
      assert (Hne : forall s, In s cur -> si s <> i).
      { intros s Hi Hc2. rewrite !map_app in Hn. cbn in Hn. apply (NoDup_remove_2 _ [] i) in Hn. rewrite app_nil_r in Hn. apply Hn. rewrite in_app_iff. right. subst i. apply in_map. assumption. }
      split; [|split].
      * split; [|split; [|split]].
        -- intros s Hi. apply in_app_iff in Hi as [Hi|[<-|[]]]; [destruct (C1 s Hi); lia|unfold sb, se; cbn; lia].
        -- destruct (Z.max_spec en e) as [[? ->]|[? ->]]; [exists (b, e, i)|exists sm]; rewrite in_app_iff; cbn; auto.
        -- intros x Hx. destruct (Z_le_gt_dec x (2 * en)).
           ++ destruct (C3 x ltac:(lia)) as (s & Hi & ?). exists s. rewrite in_app_iff. auto.
           ++ exists (b, e, i). rewrite in_app_iff. split; [cbn; auto|]. unfold sb, se; cbn [fst snd]. lia.
        -- intros _ s Hi. apply in_app_iff in Hi as [Hi|[<-|[]]].
           ++ destruct cur as [|c1 [|c2 cur]]; [contradiction| |].
              ** destruct Hi as [<-|[]]. destruct Cm as [<-|[]]. exists (b, e, i). split; [cbn; auto|]. split; [specialize (Hne c1 (or_introl eq_refl)); unfold si at 1; cbn; congruence|].
                 change (sb (b, e, i)) with b. change (se (b, e, i)) with e. lia.
              ** destruct (C4 ltac:(cbn; lia) s Hi) as (s' & ? & ?). exists s'. rewrite in_app_iff. auto.
           ++ exists sm. rewrite in_app_iff. split; [auto|]. split; [apply Hne; assumption|]. change (sb (b, e, i)) with b. change (se (b, e, i)) with e. lia.
      * apply FOP_app. split; [assumption|]. split; [repeat constructor|]. intros x y Hx [<-|[]]. intros s s' Hs1 Hs2. cbn in Hs2. apply in_app_iff in Hs2 as [Hs2|[<-|[]]].
        -- apply (Ho2 x (cur, (st0, en)) Hx (or_introl eq_refl)); assumption.
        -- assert (Hle : se s <= sb sm) by (apply (Ho2 x (cur, (st0, en))); cbn; auto). cbn. lia.
      * rewrite map_app, app_length. cbn. f_equal. lia.
Qed.

Lemma merge_groups spans : StronglySorted by_start spans -> (forall x, In x spans -> sb x < se x) -> NoDup (map si spans) ->
  exists G, concat (map fst G) = spans /\ Forall grp G /\ ForallOrdPairs before G /\ Forall (fun x => fst x <> []) G /\
    merge_helper spans = (flat_map g_vic G, flat_map g_new G).
Proof.
  intros Hs Hlt Hn.
  assert (I : forall rest pre st, minv pre st -> Forall (fun x => fst x <> []) ([] : list group) -> StronglySorted by_start (pre ++ rest) ->
    (forall x, In x (pre ++ rest) -> sb x < se x) -> NoDup (map si (pre ++ rest)) -> minv (pre ++ rest) (fold_left merge_step rest st)).
  { induction rest as [|s rest IH]; intros pre st Hi Hd Hs' Hlt' Hn'; cbn [fold_left]; [rewrite app_nil_r in *; assumption|].
    change (s :: rest) with ([s] ++ rest) in *. rewrite app_assoc in *. apply IH; auto.
    apply minv_step; auto.
    - intros x Hx. apply Hlt'. rewrite in_app_iff. auto.
    - intros x Hx. clear -Hs' Hx. rewrite <- app_assoc in Hs'. induction pre as [|p pre IH]; [destruct Hx|]. cbn in Hs'. inversion Hs' as [|? ? H1 H2]; subst.
      destruct Hx as [->|Hx]; [|auto]. rewrite Forall_forall in H2. apply H2. rewrite !in_app_iff. cbn. auto.
    - rewrite map_app in Hn'. clear -Hn'. revert Hn'. generalize (map si (pre ++ [s])) (map si rest). intros l l'. induction l as [|a l IH]; cbn; intros H; constructor; inversion H; subst; auto. rewrite in_app_iff in *. tauto. }
  specialize (I spans [] _ (or_introl (conj eq_refl eq_refl)) ltac:(constructor) Hs Hlt Hn). cbn [app] in I.
  unfold merge_helper. destruct I as [(-> & ->)|(gs & cur & s & e & -> & Hc & Hg & Hcur & Ho & ->)].
  { exists []. repeat split; constructor. }
  cbn [mo mvic mloc mnew mst men].
  (* the groups already closed are non-empty; drop empty ones *)
  exists (filter (fun x => match fst x with [] => false | _ => true end) gs ++ [(cur, (s, e))]).
  assert (F : forall {B} (f : group -> list B), (forall x, fst x = [] -> f x = []) ->
    flat_map f (filter (fun x => match fst x with [] => false | _ => true end) gs) = flat_map f gs).
  { intros B f Hf. clear -Hf. induction gs as [|g gs IH]; cbn; [reflexivity|]. destruct (fst g) eqn:E; cbn; rewrite IH; [rewrite (Hf g E)|]; reflexivity. }
  assert (Fin : forall x, In x (filter (fun x => match fst x with [] => false | _ => true end) gs) -> In x gs) by (intros x Hx; apply filter_In in Hx; tauto).
  split; [|split; [|split; [|split]]].
  - rewrite map_app, concat_app. cbn [map concat fst]. rewrite app_nil_r. f_equal.
    rewrite <- !flat_map_concat_map. apply (F _ fst). auto.
  - apply Forall_app. split; [|constructor; [assumption|constructor]]. rewrite Forall_forall in *. auto.
  - apply FOP_app in Ho as (Ho1 & _ & Ho2). apply FOP_app. split; [|split; [repeat constructor|auto]].
    clear -Ho1. induction Ho1 as [|g gs Hf Ho IH]; cbn; [constructor|]. destruct (fst g); [assumption|]. constructor; [|assumption].
    rewrite Forall_forall in *. intros x Hx. apply filter_In in Hx. apply Hf. tauto.
  - apply Forall_app. split; [|constructor; [assumption|constructor]]. apply Forall_forall. intros x Hx. apply filter_In in Hx as [_ Hx]. destruct (fst x); discriminate.
  - rewrite !flat_map_app. rewrite !F by (intros x Hx; unfold g_vic, g_new; rewrite Hx; reflexivity).
    cbn [flat_map]. rewrite !app_nil_r. unfold g_vic at 3, g_new at 3. cbn [fst snd].
    destruct cur as [|c1 [|c2 cur]]; [contradiction|cbn; rewrite !app_nil_r; reflexivity|].
    cbn [length]. replace (1 <=? Z.of_nat (S (S (length cur))) - 1) with true by lia. replace (2 <=? S (S (length cur)))%nat with true by lia. reflexivity.
Qed.
