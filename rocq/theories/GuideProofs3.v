(* The graph searched by genGuides_astar, and the meaning of its result. *)
From Verif Require Import Base Stl GeomModel GCellModel MazeModel TreeModel TreeSpec TreeProofs TreeProofs2 ConnModel ConnProofs3 ConnProofs4 ConnProofs5 GuideModel GuideSpec.

Section Ends.
Variable rects : list (Z * box).
Lemma guide_ends_at m x k j : at_node (guide_ends m x) k j <-> at_node m k j \/ (j = fst x /\ g_end (snd x) k).
Proof.
  destruct x as [i [l b]], k as [p kl]. unfold guide_ends, g_end. cbn [fst snd]. rewrite !nm_ins_at. split.
  - intros [[E ->]|[[E ->]|H]]; [injection E as -> ->; auto|injection E as -> ->; auto|auto].
  - intros [H|(-> & -> & [-> | ->])]; auto.
Qed.
Lemma guide_ends_ok m x : nm_ok m -> nm_ok (guide_ends m x).
Proof. intros H. unfold guide_ends. auto using nm_ins_ok. Qed.
Lemma fold_ends_at L : forall m k j, at_node (fold_left guide_ends L m) k j <-> at_node m k j \/ exists g, In (j, g) L /\ g_end g k.
Proof.
  induction L as [|[i g] L IH]; intros m k j; cbn [fold_left].
  - split; [auto|]. intros [?|(g & [] & _)]. assumption.
  - rewrite IH, guide_ends_at. cbn [fst snd]. split.
    + intros [[?|[-> ?]]|(g' & ? & ?)]; [auto|right; exists g; cbn; auto|right; exists g'; cbn; auto].
    + intros [?|(g' & [E|H] & ?)]; [auto|injection E as -> ->; auto|right; exists g'; auto].
Qed.
Lemma fold_ends_ok L : forall m, nm_ok m -> nm_ok (fold_left guide_ends L m).
Proof. induction L as [|x L IH]; intros m H; cbn [fold_left]; auto using guide_ends_ok. Qed.
Lemma no_node k j : ~ at_node [] k j.
Proof. intros (s & [] & _). Qed.
Lemma nm_unique (m : nmap) k s s' : nm_ok m -> In (k, s) m -> In (k, s') m -> s' = s.
Proof.
  unfold nm_ok. intros Hm Hs Hs'. induction m as [|[k0 s0] m IH]; [destruct Hs|]. cbn in Hm. inversion Hm as [|? ? Hn Hd]; subst.
  destruct Hs as [E|Hs], Hs' as [E'|Hs']; [congruence| | |auto].
  - injection E as -> ->. exfalso. apply Hn. apply (in_map fst) in Hs'. assumption.
  - injection E' as -> ->. exfalso. apply Hn. apply (in_map fst) in Hs. assumption.
Qed.
Lemma nm_find_in m k j : nm_ok m -> In j (nm_find m k) <-> at_node m k j.
Proof.
  intros Hm. unfold nm_find. destruct (find (fun e => loc_eqb k (fst e)) m) as [[k0 s]|] eqn:E.
  - apply find_some in E as [Hi E]. apply loc_eqb_iff in E. cbn in E. subst k0. cbn [snd]. split; [exists s; auto|]. intros (s' & Hs' & Hj). rewrite <- (nm_unique m k s s' Hm Hi Hs'). assumption.
  - split; [easy|]. intros (s & Hs & Hj). pose proof (find_none _ _ E _ Hs) as F. cbn in F. rewrite (proj2 (loc_eqb_iff k k) eq_refl) in F. discriminate.
Qed.
End Ends.

Section Astar.
Variable rects : list (Z * box).
Variable pins : list (list loc).
Variable va : Z.
Variable allowFT force : bool.
Notation gCnt := (length rects).
Notation nCnt := (length rects + length pins)%nat.
Notation nm := (buildNodeMap rects pins).
Notation adj := (guide_adj va allowFT nm gCnt force).
Definition item_of (i : nat) : gitem := match nth_error rects i with Some g => Gd g | None => Pn (i - gCnt) end.
Lemma node_at k i : at_node nm k i <-> (exists g, nth_error rects i = Some g /\ g_end g k) \/ (gCnt <= i)%nat /\ pin_cells pins (i - gCnt) k.
Proof.
  unfold buildNodeMap. rewrite nm_pins_at, fold_ends_at. setoid_rewrite in_numbered. split.
  - intros [[H|H]|(q & e & E & -> & Hk)]; [destruct (no_node _ _ H)|auto|]. right. split; [lia|]. replace (gCnt + q - gCnt)%nat with q by lia.
    rewrite nth_error_map in E. destruct (nth_error pins q) as [s|] eqn:Eq; [|discriminate]. injection E as <-. exists s. auto.
  - intros [H|(Hi & s & E & Hk)]; [auto|]. right. exists (i - gCnt)%nat, (0, s). rewrite nth_error_map, E. repeat split; auto. lia.
Qed.
Lemma nm_good : nm_ok nm.
Proof. unfold buildNodeMap. apply nm_pins_ok, fold_ends_ok. constructor. Qed.
Lemma node_guide k i : (i < gCnt)%nat -> at_node nm k i <-> exists g, nth_error rects i = Some g /\ g_end g k.
Proof. intros H. rewrite node_at. split; [intros [?|[? _]]; [assumption|lia]|auto]. Qed.
Lemma node_pin k i : (gCnt <= i)%nat -> at_node nm k i <-> pin_cells pins (i - gCnt) k.
Proof. intros H. rewrite node_at. split; [intros [(g & E & _)|[_ ?]]; [|assumption]|auto]. apply nth_error_None in H. congruence. Qed.
Lemma node_range k i : at_node nm k i -> (i < nCnt)%nat.
Proof.
  rewrite node_at. intros [(g & E & _)|(H & s & E & _)].
  - assert (i < gCnt)%nat by (apply nth_error_Some; congruence). lia.
  - assert (i - gCnt < length pins)%nat by (apply nth_error_Some; congruence). lia.
Qed.
Definition ft := allowFT || force.
(* the edges *)
Definition edge (i j : nat) : Prop :=
  (exists k, at_node nm k i /\ at_node nm k j /\ (i < gCnt)%nat /\ (j < gCnt)%nat /\ snd k <> va) \/
  (exists p l l', (i < gCnt)%nat /\ (j < gCnt)%nat /\ at_node nm (p, l) i /\ at_node nm (p, l') j /\ (l' = l + 2 \/ l = l' + 2)) \/
  (exists k, at_node nm k i /\ at_node nm k j /\ (((i < gCnt)%nat /\ (gCnt <= j)%nat /\ (ft = true \/ j <> gCnt)) \/ ((gCnt <= i)%nat /\ (j < gCnt)%nat /\ (ft = true \/ i = gCnt)))).
Lemma pair_edges_in l x y i j : In (i, j) (pair_edges va allowFT gCnt force l (x, y)) <->
  ((i = x /\ j = y) \/ (i = y /\ j = x)) /\
  (((i < gCnt)%nat /\ (j < gCnt)%nat /\ l <> va) \/ ((i < gCnt)%nat /\ (gCnt <= j)%nat /\ (ft = true \/ j <> gCnt)) \/ ((gCnt <= i)%nat /\ (j < gCnt)%nat /\ (ft = true \/ i = gCnt))).
Proof.
  unfold pair_edges. change (allowFT || force) with ft.
  destruct ((gCnt <=? x) && (gCnt <=? y))%nat eqn:E1; [cbn; split; [easy|]; lia|].
  destruct ((x <? gCnt) && (y <? gCnt))%nat eqn:E2.
  - destruct (negb (l =? va)) eqn:E3; cbn.
    + split; [|intros [[[-> ->]|[-> ->]] _]; auto]. intros [E|[E|[]]]; injection E as <- <-; (split; [auto|left; lia]).
    + split; [easy|]. lia.
  - destruct ft eqn:Ef.
    + split.
      * intros [E|[E|[]]]; injection E as <- <-; (split; [lia|]); right; [right|left]; repeat split; try lia; auto.
      * intros [[[-> ->]|[-> ->]] H]; cbn; destruct (le_lt_dec gCnt x); [left|right; left|right; left|left]; f_equal; lia.
    + destruct (Nat.max x y =? gCnt)%nat eqn:E4.
      * split.
        -- intros [E|[]]. injection E as <- <-. split; [lia|]. right. right. repeat split; try lia.
        -- intros [H1 [H|[(? & ? & [?|?])|(? & ? & [?|?])]]]; try discriminate; left; f_equal; lia.
      * split.
        -- intros [E|[]]. injection E as <- <-. split; [lia|]. right. left. repeat split; try lia.
        -- intros [H1 [H|[(? & ? & [?|?])|(? & ? & [?|?])]]]; try discriminate; left; f_equal; lia.
Qed.
Lemma adj_edge i j : In j (adj i) -> edge i j.
Proof.
  unfold guide_adj. rewrite in_map_iff. intros ([x y] & <- & H). apply filter_In in H as [H E]. cbn in E. apply Nat.eqb_eq in E as ->. cbn [snd].
  unfold guide_edges in H. apply in_flat_map in H as ([k s] & Hs & H). unfold entry_edges in H. cbn [fst snd] in H. apply in_app_iff in H as [H|H].
  - apply in_flat_map in H as ([a b] & Hp & H). apply pairs_in in Hp as [Ha Hb]. apply pair_edges_in in H as [H1 H2].
    assert (A : at_node nm k i /\ at_node nm k y) by (split; exists s; (split; [assumption|]); destruct H1 as [[-> ->]|[-> ->]]; assumption).
    destruct A as [A1 A2]. destruct H2 as [H2|H2]; [left; exists k; tauto|]. right. right. exists k. auto.
  - destruct k as [p l]. cbn [fst snd] in H. apply in_flat_map in H as (a & Ha & H). unfold layer_edges in H. destruct (a <? gCnt)%nat eqn:E1; [|destruct H].
    apply in_flat_map in H as (b & Hb & H). apply nm_find_in in Hb; [|apply nm_good]. destruct (b <? gCnt)%nat eqn:E2; [|destruct H].
    assert (A : at_node nm (p, l) a) by (exists s; auto). apply Nat.ltb_lt in E1, E2. right. left.
    destruct H as [H|[H|[]]]; injection H as <- <-; [exists p, l, (l + 2)|exists p, (l + 2), l]; auto 10.
Qed.
Lemma edge_adj i j : i <> j -> edge i j -> In j (adj i).
Proof.
  intros Hij. unfold guide_adj. rewrite in_map_iff. intros H. exists (i, j). split; [reflexivity|]. apply filter_In. split; [|apply Nat.eqb_refl].
  assert (P : forall k s, In (k, s) nm -> In i s -> In j s ->
     (((i < gCnt)%nat /\ (j < gCnt)%nat /\ snd k <> va) \/ ((i < gCnt)%nat /\ (gCnt <= j)%nat /\ (ft = true \/ j <> gCnt)) \/ ((gCnt <= i)%nat /\ (j < gCnt)%nat /\ (ft = true \/ i = gCnt))) ->
     In (i, j) (guide_edges va allowFT nm gCnt force)).
  { intros k s Hs Hi Hj Hc. unfold guide_edges. apply in_flat_map. exists (k, s). split; [assumption|]. unfold entry_edges. apply in_app_iff. left. cbn [fst snd]. apply in_flat_map.
    destruct (in_pairs s i j Hi Hj Hij) as [Hp|Hp]; [exists (i, j)|exists (j, i)]; (split; [assumption|]); apply pair_edges_in; auto. }
  destruct H as [(k & (s & Hs & Hi) & (s' & Hs' & Hj) & H)|[(p & l & l' & Hi & Hj & Ai & Aj & [-> | ->])|(k & (s & Hs & Hi) & (s' & Hs' & Hj) & H)]].
  - pose proof (nm_unique nm k s s' nm_good Hs Hs') as ->. apply (P k s Hs Hi Hj). tauto.
  - destruct Ai as (s & Hs & Hi'). unfold guide_edges. apply in_flat_map. exists ((p, l), s). split; [assumption|]. unfold entry_edges. apply in_app_iff. right. cbn [fst snd]. apply in_flat_map. exists i. split; [assumption|].
    unfold layer_edges. apply Nat.ltb_lt in Hi. rewrite Hi. apply in_flat_map. exists j. split; [apply nm_find_in; [apply nm_good|assumption]|]. apply Nat.ltb_lt in Hj. rewrite Hj. cbn. auto.
  - destruct Aj as (s & Hs & Hj'). unfold guide_edges. apply in_flat_map. exists ((p, l'), s). split; [assumption|]. unfold entry_edges. apply in_app_iff. right. cbn [fst snd]. apply in_flat_map. exists j. split; [assumption|].
    unfold layer_edges. apply Nat.ltb_lt in Hj. rewrite Hj. apply in_flat_map. exists i. split; [apply nm_find_in; [apply nm_good|assumption]|]. apply Nat.ltb_lt in Hi. rewrite Hi. cbn. auto.
  - pose proof (nm_unique nm k s s' nm_good Hs Hs') as ->. apply (P k s Hs Hi Hj). tauto.
Qed.
Lemma item_guide i : (i < gCnt)%nat -> exists g, nth_error rects i = Some g /\ item_of i = Gd g.
Proof. intros H. unfold item_of. destruct (nth_error rects i) as [g|] eqn:E; [eauto|]. apply nth_error_None in E. lia. Qed.
Lemma item_pin i : (gCnt <= i)%nat -> item_of i = Pn (i - gCnt).
Proof. intros H. unfold item_of. apply nth_error_None in H. rewrite H. reflexivity. Qed.
(* ft = false: edges leave no pin but the first and do not enter the first *)
Definition flow (i j : nat) : Prop := ft = true \/ (((gCnt <= i)%nat -> i = gCnt) /\ ((gCnt <= j)%nat -> j <> gCnt)).
Lemma edge_joined i j : edge i j <-> (i < nCnt)%nat /\ (j < nCnt)%nat /\ joined va (pin_cells pins) (item_of i) (item_of j) /\ flow i j.
Proof.
  split.
  - intros H. assert (R : (i < nCnt)%nat /\ (j < nCnt)%nat).
    { destruct H as [(k & A & B & _)|[(p & l & l' & _ & _ & A & B & _)|(k & A & B & _)]]; split; eapply node_range; eauto. }
    split; [apply R|]. split; [apply R|].
    destruct H as [(k & Ai & Aj & Hi & Hj & Hk)|[(p & l & l' & Hi & Hj & Ai & Aj & Hl)|(k & Ai & Aj & [(Hi & Hj & Hf)|(Hi & Hj & Hf)])]].
    + split; [|right; split; lia]. destruct (item_guide i Hi) as (g & Eg & ->), (item_guide j Hj) as (h & Eh & ->).
      apply node_guide in Ai as (g' & Eg' & Ai); [|assumption]. apply node_guide in Aj as (h' & Eh' & Aj); [|assumption].
      assert (g' = g) as -> by congruence. assert (h' = h) as -> by congruence. exists k, k. auto 10.
    + split; [|right; split; lia]. destruct (item_guide i Hi) as (g & Eg & ->), (item_guide j Hj) as (h & Eh & ->).
      apply node_guide in Ai as (g' & Eg' & Ai); [|assumption]. apply node_guide in Aj as (h' & Eh' & Aj); [|assumption].
      assert (g' = g) as -> by congruence. assert (h' = h) as -> by congruence. exists (p, l), (p, l'). cbn [fst snd]. tauto.
    + split; [|unfold flow; destruct Hf; [auto|right; split; lia]]. destruct (item_guide i Hi) as (g & Eg & ->). rewrite (item_pin j Hj).
      apply node_guide in Ai as (g' & Eg' & Ai); [|assumption]. apply node_pin in Aj; [|assumption]. assert (g' = g) as -> by congruence. exists k. auto.
    + split; [|unfold flow; destruct Hf; [auto|right; split; lia]]. destruct (item_guide j Hj) as (g & Eg & ->). rewrite (item_pin i Hi).
      apply node_guide in Aj as (g' & Eg' & Aj); [|assumption]. apply node_pin in Ai; [|assumption]. assert (g' = g) as -> by congruence. exists k. auto.
  - intros (Ri & Rj & J & Fl). destruct (le_lt_dec gCnt i) as [Hi|Hi], (le_lt_dec gCnt j) as [Hj|Hj].
    + rewrite (item_pin i Hi), (item_pin j Hj) in J. destruct J.
    + destruct (item_guide j Hj) as (g & Eg & E). rewrite (item_pin i Hi), E in J. destruct J as (k & Hk & Hq). right. right. exists k.
      split; [apply node_pin; assumption|]. split; [apply node_guide; eauto|]. right. split; [assumption|]. split; [assumption|]. destruct Fl as [?|[F _]]; auto.
    + destruct (item_guide i Hi) as (g & Eg & E). rewrite (item_pin j Hj), E in J. destruct J as (k & Hk & Hq). right. right. exists k.
      split; [apply node_guide; eauto|]. split; [apply node_pin; assumption|]. left. split; [assumption|]. split; [assumption|]. destruct Fl as [?|[_ F]]; auto.
    + destruct (item_guide i Hi) as (g & Eg & E), (item_guide j Hj) as (h & Eh & E'). rewrite E, E' in J. destruct J as (k & k' & Hk & Hk' & P & [[L V]|L]).
      * left. exists k. split; [apply node_guide; eauto|]. split; [apply node_guide; [assumption|]; exists h; split; [assumption|]; destruct k, k'; cbn in *; subst; assumption|auto].
      * right. left. exists (fst k), (snd k), (snd k'). split; [assumption|]. split; [assumption|]. split; [apply node_guide; [assumption|]; destruct k; eauto|]. split; [|assumption].
        apply node_guide; [assumption|]. rewrite P. destruct k'; eauto.
Qed.
Lemma adj_range : in_range adj nCnt.
Proof. intros i j _ H. apply adj_edge, edge_joined in H. tauto. Qed.

(* the kept guides *)
Definition kept_guides (K : nat -> bool) : list (Z * box) := map snd (filter (fun x => K (fst x)) (numbered rects)).
Lemma kept_in K g : In g (kept_guides K) <-> exists i, nth_error rects i = Some g /\ K i = true.
Proof.
  unfold kept_guides. rewrite in_map_iff. split.
  - intros ([i x] & <- & H). apply filter_In in H as [H E]. apply in_numbered in H. exists i. auto.
  - intros (i & E & H). exists (i, g). split; [reflexivity|]. apply filter_In. split; [apply in_numbered; assumption|assumption].
Qed.
Lemma present_all i : (i < nCnt)%nat -> present rects (length pins) (item_of i).
Proof.
  intros H. destruct (le_lt_dec gCnt i) as [Hi|Hi]; [rewrite (item_pin i Hi); cbn; lia|]. destruct (item_guide i Hi) as (g & E & ->). cbn. eapply nth_error_In; eauto.
Qed.
Lemma within_leads (K : nat -> bool) n : (0 < length pins)%nat -> within adj (fun m => K m = true) gCnt n -> leads va (kept_guides K) (length pins) (pin_cells pins) ft (item_of n).
Proof.
  intros Hp. induction 1 as [Hk|b c Hw IH Hc Hk].
  - rewrite (item_pin gCnt) by lia. replace (gCnt - gCnt)%nat with 0%nat by lia. constructor. assumption.
  - apply adj_edge, edge_joined in Hc as (Rb & Rc & J & Fl). eapply leads_s; [exact IH| |exact J|].
    + destruct (le_lt_dec gCnt c) as [Hc|Hc]; [rewrite (item_pin c Hc); cbn; lia|]. destruct (item_guide c Hc) as (g & E & ->). cbn. apply kept_in. eauto.
    + destruct (le_lt_dec gCnt b) as [Hb|Hb]; [rewrite (item_pin b Hb)|destruct (item_guide b Hb) as (g & E & ->); exact I].
      destruct (b - gCnt)%nat eqn:E; [exact I|]. destruct Fl as [?|[F _]]; [assumption|]. specialize (F Hb). lia.
Qed.
(* back: a path of guides and pins is a path of the search graph *)
Lemma present_item a : present rects (length pins) a -> exists i, (i < nCnt)%nat /\ item_of i = a.
Proof.
  destruct a as [g|q]; cbn; intros H.
  - apply In_nth_error in H as (i & E). exists i. assert (i < gCnt)%nat by (apply nth_error_Some; congruence). split; [lia|]. unfold item_of. rewrite E. reflexivity.
  - exists (gCnt + q)%nat. split; [lia|]. rewrite item_pin by lia. f_equal. lia.
Qed.
Lemma leads_pins a : leads va rects (length pins) (pin_cells pins) ft a -> (0 < length pins)%nat.
Proof. induction 1; assumption. Qed.
Lemma leads_reach a : leads va rects (length pins) (pin_cells pins) ft a -> exists j, (j < nCnt)%nat /\ item_of j = a /\ reachable adj gCnt j.
Proof.
  induction 1 as [Hp|a b Ha IH Hb J Fl].
  - exists gCnt. split; [lia|]. split; [rewrite (item_pin gCnt) by lia; f_equal; lia|constructor; exact I].
  - destruct IH as (j0 & Hj0 & Ej0 & Rj0). destruct (present_item b Hb) as (i & Hi & E).
    destruct (Nat.eq_dec i gCnt) as [->|Hig].
    { exists gCnt. split; [assumption|]. split; [assumption|constructor; exact I]. }
    destruct (Nat.eq_dec j0 i) as [->|Hn].
    + exists i. auto.
    + exists i. split; [assumption|]. split; [assumption|]. eapply within_step; [exact Rj0| |exact I]. apply edge_adj; [assumption|]. apply edge_joined. rewrite Ej0, E. split; [assumption|]. split; [assumption|]. split; [assumption|].
      unfold flow. destruct ft eqn:Ef; [auto|]. right. split; [|intros _; assumption]. intros Hg. rewrite <- Ej0 in Fl. rewrite (item_pin j0 Hg) in Fl. destruct (j0 - gCnt)%nat eqn:Eg; [lia|discriminate].
Qed.
Lemma leads_pin_reach q : leads va rects (length pins) (pin_cells pins) ft (Pn q) -> reachable adj gCnt (gCnt + q).
Proof.
  intros H. destruct (leads_reach _ H) as (j & Hj & E & R). replace (gCnt + q)%nat with j; [assumption|].
  unfold item_of in E. destruct (nth_error rects j) eqn:En; [discriminate|]. apply nth_error_None in En. injection E as E. lia.
Qed.

(* the search *)
Lemma astar_spec : exists n0, forall pick fuel, (n0 <= fuel)%nat -> exists ok K prev,
  genGuides_astar va allowFT pick fuel nm gCnt nCnt force = Some (ok, K, prev) /\
  (forall n, K n = true -> (n < nCnt)%nat) /\
  (forall n, K n = true -> trace adj gCnt K prev n) /\
  prev gCnt = None /\
  (forall n, K n = true -> within adj (fun m => K m = true) gCnt n) /\
  (length pins = 1%nat -> ok = true) /\
  ((length pins <= 1)%nat -> forall n, K n = false) /\
  ((length pins <> 1)%nat -> ok = true -> forall q, (q < length pins)%nat -> K (gCnt + q)%nat = true) /\
  ((forall q, (q < length pins)%nat -> leads va rects (length pins) (pin_cells pins) ft (Pn q)) -> ok = true) /\
  (pick_min pick -> tight adj gCnt K).
Proof.
  exists (turns adj nCnt). intros pick fuel Hf. unfold genGuides_astar.
  destruct (tree_search_spec adj gCnt nCnt (guide_seed allowFT gCnt force) pick adj_range fuel Hf) as (K & prev & E & H1 & H2 & H3 & H4 & H5).
  rewrite E. eexists _, K, prev. split; [reflexivity|]. split; [assumption|]. split; [apply (tree_search_trace adj gCnt nCnt (guide_seed allowFT gCnt force) pick adj_range fuel K prev Hf E)|].
  split; [apply (tree_search_root adj gCnt nCnt (guide_seed allowFT gCnt force) pick adj_range fuel K prev Hf E)|].
  split; [assumption|]. split; [intros Hl; rewrite Hl, Nat.eqb_refl; reflexivity|]. split; [intros Hl; apply H5; lia|]. split.
  - intros Hl Ho q Hq. apply orb_prop in Ho as [Ho|Ho]; [apply Nat.eqb_eq in Ho; lia|]. unfold all_pins in Ho. rewrite forallb_forall in Ho. apply Ho, in_seq. lia.
  - split; [|assumption]. intros Hp. destruct (le_lt_dec (length pins) 1) as [Hl|Hl].
    + destruct (length pins) as [|[|n]] eqn:En; [|rewrite Nat.eqb_refl; reflexivity|lia]. unfold all_pins. replace (gCnt + 0 - gCnt)%nat with 0%nat by lia. cbn. apply orb_true_r.
    + destruct (H4 ltac:(lia)) as [->|(t & Ht & Hn)]; [apply orb_true_r|]. exfalso. apply Hn. replace t with (gCnt + (t - gCnt))%nat by lia. apply leads_pin_reach, Hp. lia.
Qed.
End Astar.
