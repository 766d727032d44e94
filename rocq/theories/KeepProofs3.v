From Coq Require Import Permutation.
From Verif Require Import Base GeomModel GeomSpec ClipModel ClipSpec ClipProofs BpModel BpSpec BpProofs2 KeepModel KeepSpec KeepProofs KeepProofs2.
From Verif Require Import ConnModel ConnSpec.
From Verif Require SubnetModel SubnetSpec SubnetProofs3.
Import SubnetModel (dfig, DFig, DPatch, sn_ext, sn_pins, sn_route).

Lemma unique_wire F w w' : no_overlap (robjs F) -> In (FSeg w) F -> In (FSeg w') F -> overlap (r_of w) (r_of w') -> w = w'.
Proof.
  intros N. induction F as [|f F IH]; intros H H' O; [destruct H|].
  assert (NF : no_overlap (robjs F)).
  { intros i j a c Nij Hi Hj. unfold robjs in N. cbn [flat_map] in N. fold (robjs F) in N. set (l0 := robj_of f) in N.
    apply (N (length l0 + i)%nat (length l0 + j)%nat a c ltac:(lia)); rewrite nth_error_app2 by lia; rewrite Nat.add_comm, Nat.add_sub; assumption. }
  assert (X : forall v v', f = FSeg v -> In (FSeg v') F -> overlap (r_of v) (r_of v') -> False).
  { intros v v' -> Hv Ov. assert (I2 : In (r_of v') (robjs F)) by (apply robjs_in; left; exists v'; auto).
    apply In_nth_error in I2 as (j & Hj). apply (N 0%nat (S j) (r_of v) (r_of v') ltac:(lia)); [reflexivity|exact Hj|exact Ov]. }
  destruct H as [E|H], H' as [E'|H'].
  - congruence.
  - exfalso. apply (X w w' E H' O).
  - exfalso. apply (X w' w E' H). apply overlap_sym, O.
  - apply IH; assumption.
Qed.
Lemma proper_self w : proper w -> overlap (r_of w) (r_of w).
Proof. unfold proper. cbn. lia. Qed.

Section M.
Variable b : box.
Variable lw : Z -> Z.
Hypothesis sol : solid b.
Variable pins_at : point -> Z -> list Z.
Variable F : list fig.
Hypothesis FP : Forall fig_proper F.
Hypothesis FN : no_overlap (robjs F).
Notation inb := (KeepProofs.inb b).
Notation objs := (dobjs b lw F).
Notation piece s w c := (In (s, FSeg c) (load_fig false b lw (FSeg w))).

(* the sub-nets, as SubnetProofs3.initNets_spec gives them *)
Variable subs : list SubnetModel.subnet.
Variable groups : list (list nat).
Hypothesis G0 : length groups = length subs.
Hypothesis G1 : Permutation (concat groups) (seq 0 (length objs)).
Hypothesis G2 : forall s g sub, nth_error groups s = Some g -> nth_error subs s = Some sub ->
  forall d, In d (SubnetSpec.at_positions g objs) -> ~ SubnetSpec.inside b d -> In d (sn_ext sub).
Hypothesis G3 : forall s t g h i j, nth_error groups s = Some g -> nth_error groups t = Some h -> In i g -> In j h ->
  (s = t <-> SubnetSpec.chained pins_at b objs (Wire i) (Wire j)).
Hypothesis G4 : forall id, In id (concat (map sn_pins subs)) <-> exists k, SubnetSpec.found pins_at b objs id k.
Hypothesis G5 : forall s t sub g id i, nth_error subs s = Some sub -> nth_error groups t = Some g -> In id (sn_pins sub) -> In i g ->
  (s = t <-> SubnetSpec.chained pins_at b objs (Pin id) (Wire i)).

(* the net afterwards *)
Variable N : list fig.
Hypothesis N1 : forall f g, In g F -> In (Ext, f) (load_fig false b lw g) -> In f N.
Hypothesis N2 : forall s sub k k', nth_error subs s = Some sub -> sub_place b pins_at sub k -> sub_place b pins_at sub k' -> conducts pins_at (robjs N) k k'.
Notation cond := (conducts pins_at (robjs N)).

Lemma wpr w : In (FSeg w) F -> proper w.
Proof. intros H. rewrite Forall_forall in FP. apply (FP _ H). Qed.

Definition in_sub (s : nat) (d : dfig) : Prop := exists g i, nth_error groups s = Some g /\ In i g /\ nth_error objs i = Some d.
Definition SP (s : nat) (k : loc) : Prop := exists sub, nth_error subs s = Some sub /\ sub_place b pins_at sub k.
Lemma SP_cond s k k' : SP s k -> SP s k' -> cond k k'.
Proof. intros (sub & E & A) (sub' & E' & A'). assert (sub' = sub) by congruence. subst sub'. apply (N2 s sub); assumption. Qed.
Lemma has_sub d : In d objs -> exists s, in_sub s d.
Proof.
  intros H. apply In_nth_error in H as (i & H). assert (L : In i (seq 0 (length objs))).
  { apply in_seq. split; [lia|]. cbn. apply nth_error_Some. congruence. }
  apply (Permutation_in _ (Permutation_sym G1)) in L. apply in_concat in L as (g & Hg & Hi). apply In_nth_error in Hg as (s & Hs). exists s, g, i. auto.
Qed.
Lemma sub_of s d : in_sub s d -> exists sub, nth_error subs s = Some sub.
Proof.
  intros (g & i & H & _). assert (L : (s < length groups)%nat) by (apply nth_error_Some; congruence). rewrite G0 in L.
  destruct (nth_error subs s) eqn:E; [eauto|]. apply nth_error_None in E. lia.
Qed.
Lemma same_sub s t o1 o2 k : in_sub s (DFig o1) -> in_sub t (DFig o2) -> lies_on o1 k -> lies_on o2 k -> SubnetSpec.fig_ends objs k -> s = t.
Proof.
  intros (g & i & Hg & Hi & Ei) (h & j & Hh & Hj & Ej) L1 L2 E. apply (G3 s t g h i j Hg Hh Hi Hj).
  eapply SubnetSpec.chained_step; [apply SubnetSpec.chained_refl| |]; cbn [SubnetSpec.joint]; [rewrite Ei|rewrite Ej]; eauto.
Qed.

(* raw pieces in objs *)
Lemma raw_in w c : In (FSeg w) F -> In (Route, c) (load_seg false b lw w) -> In (DFig (r_of c)) objs.
Proof. intros Hw H. unfold dobjs. apply in_map_iff. exists (FSeg c). split; [reflexivity|]. apply objs_seg. exists w. auto. Qed.
Lemma via_in p l1 l2 d : In (FVia p l1 l2 d) F -> origin_in false b p = true -> In (DFig (RVia p l1 l2)) objs.
Proof.
  intros Hv O. unfold dobjs. apply in_map_iff. exists (FVia p l1 l2 d). split; [reflexivity|]. apply objs_in. exists (FVia p l1 l2 d). split; [exact Hv|].
  cbn [load_raw]. rewrite O. now left.
Qed.
Lemma inside_r c : SubnetSpec.inside b (DFig (r_of c)) <-> inb (wb c) /\ inb (we c).
Proof. cbn. unfold SubnetSpec.in_clip, KeepProofs.inb, bleft, bright, bbottom, btop. tauto. Qed.
Lemma origin_inb p : origin_in false b p = true <-> inb p.
Proof. unfold origin_in, KeepProofs.inb, bleft, bright, bbottom, btop. rewrite !andb_true_iff. lia. Qed.
Lemma end_lies o k : In (DFig o) objs -> is_end o k -> lies_on o k.
Proof.
  intros H E. apply (dobjs_obj b lw F) in H as [(w & c & Hw & H & ->)|(p & l1 & l2 & d & _ & _ & ->)]; [|exact E].
  destruct (raw_sub b lw sol w c (wpr w Hw) H) as (_ & S). cbn in E |- *. destruct E as [-> | ->]; cbn [fst snd]; lia.
Qed.

Lemma end_on c w k : subseg c w -> endw c k -> onw c k.
Proof. intros (_ & S) [-> | ->]; unfold onw; cbn [fst snd]; lia. Qed.
(* an outer piece that meets the clip at k puts a boundary pin there, in the sub-net it belongs to *)
Lemma outer_SP w c k s : In (FSeg w) F -> piece Ext w c -> onw c k -> inb (fst k) -> in_sub s (DFig (r_of c)) -> SP s k.
Proof.
  intros Hw H O I Hs. destruct (outer_meets b lw sol w c k (wpr w Hw) H O I) as (R & K & E & NI).
  destruct (sub_of _ _ Hs) as (sub & Es). exists sub. split; [exact Es|]. left. unfold sub_bpins. apply in_flat_map. exists (DFig (r_of c)). split; [|exact K].
  destruct Hs as (g & i & Hg & Hi & Ei). apply (G2 s g sub Hg Es); [|rewrite inside_r; exact NI].
  unfold SubnetSpec.at_positions. apply in_flat_map. exists i. split; [exact Hi|]. rewrite Ei. now left.
Qed.
Lemma outer_ends w c k : In (FSeg w) F -> piece Ext w c -> onw c k -> inb (fst k) -> In (DFig (r_of c)) objs /\ SubnetSpec.fig_ends objs k.
Proof.
  intros Hw H O I. destruct (outer_meets b lw sol w c k (wpr w Hw) H O I) as (R & K & E & NI). pose proof (raw_in w c Hw R) as X.
  split; [exact X|]. exists (r_of c). split; [exact X|]. exact E.
Qed.
(* inner and outer piece of a wire: the sub-net of the inner one has a boundary pin on the outer one *)
Lemma inner_outer_SP w m c s : In (FSeg w) F -> piece Route w m -> piece Ext w c -> in_sub s (DFig (r_of m)) -> exists k, SP s k /\ onw c k.
Proof.
  intros Hw Hm Hc Hs. destruct (inner_outer b lw sol w m c (wpr w Hw) Hm Hc) as (k & O1 & O2 & I). exists k. split; [|exact O2].
  destruct (outer_ends w c k Hw Hc O2 I) as (X & E). destruct (has_sub _ X) as (t & Ht).
  assert (s = t) by (apply (same_sub s t (r_of m) (r_of c) k Hs Ht); [apply lies_on_w; exact O1|apply lies_on_w; exact O2|exact E]). subst t.
  apply (outer_SP w c k s Hw Hc O2 I Ht).
Qed.
Lemma inner_unique w m m' : proper w -> piece Route w m -> piece Route w m' -> m = m'.
Proof.
  intros P H H'. destruct (piece_cases false b lw sol w P Route (FSeg m) H) as (? & Ec & K). injection Ec as <-.
  destruct (piece_cases false b lw sol w P Route (FSeg m') H') as (? & Ec & K'). injection Ec as <-.
  destruct K as [(Q & _)|[(Hx & Hy & A & [(Q & _)|[(_ & -> & K)|(Q & _)]])|(Hx & Hy & A & [(Q & _)|[(_ & -> & K)|(Q & _)]])]]; try discriminate Q;
  destruct K' as [(Q & _)|[(Hx' & Hy' & A' & [(Q & _)|[(_ & -> & K')|(Q & _)]])|(Hx' & Hy' & A' & [(Q & _)|[(_ & -> & K')|(Q & _)]])]]; try discriminate Q; try reflexivity; lia.
Qed.
Lemma inner_in w m : In (FSeg w) F -> piece Route w m -> In (DFig (r_of m)) objs.
Proof. intros Hw H. apply (raw_in w m Hw). apply route_raw in H. tauto. Qed.
Lemma sub_unique s t o : in_sub s (DFig o) -> in_sub t (DFig o) -> s = t.
Proof.
  intros Hs Ht. assert (H : In (DFig o) objs) by (destruct Hs as (g & i & _ & _ & E); apply nth_error_In in E; exact E).
  assert (X : exists k, is_end o k) by (destruct o; cbn; eauto). destruct X as (k & E). pose proof (end_lies o k H E) as L.
  apply (same_sub s t o o k Hs Ht L L). exists o. auto.
Qed.

(* ---- the locations that stand for an old object afterwards ---- *)
Definition rep_o (o : robj) (k : loc) : Prop :=
  (exists w c, In (FSeg w) F /\ o = r_of w /\ piece Ext w c /\ onw c k) \/
  (exists w m s, In (FSeg w) F /\ o = r_of w /\ piece Route w m /\ in_sub s (DFig (r_of m)) /\ SP s k) \/
  (exists p l1 l2 d, In (FVia p l1 l2 d) F /\ o = RVia p l1 l2 /\ origin_in false b p = false /\ lies_on o k) \/
  (exists p l1 l2 d s, In (FVia p l1 l2 d) F /\ o = RVia p l1 l2 /\ origin_in false b p = true /\ in_sub s (DFig o) /\ SP s k).
Definition rep (it : item) (k : loc) : Prop :=
  match it with
  | Wire i => exists o, nth_error (robjs F) i = Some o /\ rep_o o k
  | Pin id => In id (pins_at (fst k) (snd k))
  end.
Lemma r_of_inj w w' : In (FSeg w) F -> In (FSeg w') F -> r_of w = r_of w' -> w = w'.
Proof. intros H H' E. apply (unique_wire F w w' FN H H'). rewrite <- E. apply proper_self, wpr, H. Qed.
Lemma kept_cond w c k k' : In (FSeg w) F -> piece Ext w c -> onw c k -> onw c k' -> cond k k'.
Proof.
  intros Hw Hc O O'. apply (cd_one pins_at _ (r_of c)); [|apply lies_on_w; exact O|apply lies_on_w; exact O'].
  apply robjs_in. left. exists c. split; [|reflexivity]. apply (N1 _ _ Hw Hc).
Qed.
Lemma rep_coherent it k k' : rep it k -> rep it k' -> cond k k'.
Proof.
  destruct it as [i|id]; cbn [rep]; [|intros A B; eapply cd_pin; [apply cd_refl|exact A|exact B]].
  intros (o & E & A) (o' & E' & B). assert (o' = o) by congruence. subst o'. clear E E' i.
  destruct A as [(w & c & Hw & -> & Hc & O)|[(w & m & s & Hw & -> & Hm & Hs & Sk)|[(p & l1 & l2 & d & Hv & -> & Ho & O)|(p & l1 & l2 & d & s & Hv & -> & Ho & Hs & Sk)]]];
  destruct B as [(w' & c' & Hw' & Q & Hc' & O')|[(w' & m' & s' & Hw' & Q & Hm' & Hs' & Sk')|[(p' & l1' & l2' & d' & Hv' & Q & Ho' & O')|(p' & l1' & l2' & d' & s' & Hv' & Q & Ho' & Hs' & Sk')]]];
  try discriminate Q; try (apply r_of_inj in Q; [|assumption..]; subst w'); try congruence.
  - destruct (two_outer b lw sol w c c' (wpr w Hw) Hc Hc') as [<-|(m & Hm)]; [apply (kept_cond w c); assumption|].
    destruct (has_sub _ (inner_in w m Hw Hm)) as (s & Hs). destruct (inner_outer_SP w m c s Hw Hm Hc Hs) as (u & Su & Ou).
    destruct (inner_outer_SP w m c' s Hw Hm Hc' Hs) as (v & Sv & Ov).
    eapply cd_trans; [apply (kept_cond w c k u); assumption|]. eapply cd_trans; [apply (SP_cond s u v Su Sv)|]. apply (kept_cond w c'); assumption.
  - destruct (inner_outer_SP w m' c s' Hw Hm' Hc Hs') as (u & Su & Ou). eapply cd_trans; [apply (kept_cond w c k u); assumption|]. apply (SP_cond s' u k' Su Sk').
  - destruct (inner_outer_SP w m c' s Hw Hm Hc' Hs) as (u & Su & Ou). eapply cd_trans; [apply (SP_cond s k u Sk Su)|]. apply (kept_cond w c'); assumption.
  - assert (m = m') by (apply (inner_unique w); [apply wpr|..]; assumption). subst m'. assert (s = s') by (eapply sub_unique; eassumption). subst s'. apply (SP_cond s); assumption.
  - apply (cd_one pins_at _ (RVia p l1 l2)); [|exact O|exact O']. apply robjs_in. right. exists p, l1, l2, d. split; [|reflexivity]. apply (N1 _ (FVia p l1 l2 d) Hv). cbn. rewrite Ho. now left.
  - assert (s = s') by (eapply sub_unique; eassumption). subst s'. apply (SP_cond s); assumption.
Qed.

(* ---- one step of a chain ---- *)
Definition good (s : nat) (it : item) : Prop :=
  (forall k, rep it k -> exists k', SP s k' /\ cond k k') /\ (forall k', SP s k' -> exists k, rep it k /\ cond k' k).
Lemma good1 s it k : rep it k -> SP s k -> good s it.
Proof.
  intros R S. split.
  - intros kz Hz. exists k. split; [exact S|]. apply (rep_coherent it); assumption.
  - intros k' S'. exists k. split; [exact R|]. apply (SP_cond s); assumption.
Qed.
(* old ends in the box are ends of the objects of the clip *)
Lemma old_end o k : In o (robjs F) -> is_end o k -> inb (fst k) -> exists o', In (DFig o') objs /\ is_end o' k /\ (truncated_end o k -> truncated_end o' k) /\ (via_end o k -> via_end o' k).
Proof.
  intros H E I. apply robjs_in in H as [(w & Hw & ->)|(p & l1 & l2 & d & Hv & ->)].
  - destruct (end_piece b lw sol w k (wpr w Hw) E I) as (s & c & Hc & Ec & T). exists (r_of c). split; [|split; [exact Ec|split; [exact T|intros []]]].
    destruct s; [apply (inner_in w c Hw Hc)|]. apply (outer_ends w c k Hw Hc); [|exact I]. apply (end_on c w); [apply (piece_sub b lw sol w Ext c (wpr w Hw) Hc)|exact Ec].
  - exists (RVia p l1 l2). split; [|tauto]. apply (via_in p l1 l2 d Hv). apply origin_inb. destruct E as [-> | ->]; exact I.
Qed.
Lemma items_in k s : inb (fst k) -> SubnetSpec.fig_ends objs k -> (forall o t, in_sub t (DFig o) -> lies_on o k -> t = s) -> forall it, item_at pins_at (robjs F) it k -> good s it.
Proof.
  intros I FE U it A. destruct it as [i|id]; cbn [item_at] in A.
  - destruct A as (o & Ei & L). assert (Ho : In o (robjs F)) by (apply nth_error_In in Ei; exact Ei). apply robjs_in in Ho as [(w & Hw & ->)|(p & l1 & l2 & d & Hv & ->)].
    + apply lies_on_w in L. destruct (on_some_piece b lw sol w k (wpr w Hw) L) as ([|] & c & Hc & O).
      * destruct (has_sub _ (inner_in w c Hw Hc)) as (t & Ht). assert (t = s) by (apply (U _ t Ht); apply lies_on_w; exact O). subst t. split.
        -- intros kz (o & Eo & R). assert (o = r_of w) by congruence. subst o.
           destruct R as [(w' & c' & Hw' & Q & Hc' & O')|[(w' & m' & s' & Hw' & Q & Hm' & Hs' & Sk')|[(p' & l1' & l2' & d' & Hv' & Q & Ho' & O')|(p' & l1' & l2' & d' & s' & Hv' & Q & Ho' & Hs' & Sk')]]]; try discriminate Q;
             apply r_of_inj in Q; try assumption; subst w'.
           ++ destruct (inner_outer_SP w c c' s Hw Hc Hc' Ht) as (u & Su & Ou). exists u. split; [exact Su|]. apply (kept_cond w c'); assumption.
           ++ assert (c = m') by (apply (inner_unique w); [apply wpr|..]; assumption). subst m'. assert (s = s') by (eapply sub_unique; eassumption). subst s'. exists kz. split; [exact Sk'|apply cd_refl].
        -- intros k' S'. exists k'. split; [|apply cd_refl]. exists (r_of w). split; [exact Ei|]. right. left. exists w, c, s. auto.
      * destruct (outer_ends w c k Hw Hc O I) as (X & _). destruct (has_sub _ X) as (t & Ht). assert (t = s) by (apply (U _ t Ht); apply lies_on_w; exact O). subst t.
        apply (good1 s _ k); [|apply (outer_SP w c k s Hw Hc O I Ht)]. exists (r_of w). split; [exact Ei|]. left. exists w, c. auto.
    + assert (Oo : origin_in false b p = true) by (apply origin_inb; destruct L as [-> | ->]; exact I).
      destruct (has_sub _ (via_in p l1 l2 d Hv Oo)) as (t & Ht). assert (t = s) by (apply (U _ t Ht L)). subst t. split.
      * intros kz (o & Eo & R). assert (o = RVia p l1 l2) by congruence. subst o.
        destruct R as [(w' & c' & Hw' & Q & Hc' & O')|[(w' & m' & s' & Hw' & Q & Hm' & Hs' & Sk')|[(p' & l1' & l2' & d' & Hv' & Q & Ho' & O')|(p' & l1' & l2' & d' & s' & Hv' & Q & Ho' & Hs' & Sk')]]]; try discriminate Q; try congruence.
        assert (s = s') by (eapply sub_unique; eassumption). subst s'. exists kz. split; [exact Sk'|apply cd_refl].
      * intros k' S'. exists k'. split; [|apply cd_refl]. exists (RVia p l1 l2). split; [exact Ei|]. right. right. right. exists p, l1, l2, d, s. auto.
  - destruct A as (Hid & T).
    assert (X : exists o', In (DFig o') objs /\ (truncated_end o' k \/ via_end o' k) /\ is_end o' k).
    { destruct T as [(o & Ho & T)|((o & Ho & T) & _)].
      - assert (E : is_end o k) by (destruct o; cbn in T |- *; tauto). destruct (old_end o k Ho E I) as (o' & H1 & H2 & H3 & _). exists o'. auto.
      - assert (E : is_end o k) by (destruct o; cbn in T |- *; tauto). destruct (old_end o k Ho E I) as (o' & H1 & H2 & _ & H4). exists o'. auto. }
    destruct X as (o' & H1 & H2 & H3).
    assert (Fd : SubnetSpec.found pins_at b objs id k).
    { split; [exact Hid|]. split; [|exists o'; auto]. revert I. clear. unfold SubnetSpec.in_clip, KeepProofs.inb, bleft, bright, bbottom, btop. lia. }
    apply (good1 s _ k); [exact Hid|].
    assert (Hp : In id (concat (map sn_pins subs))) by (apply G4; eauto). apply in_concat in Hp as (l & Hl & Hp). apply in_map_iff in Hl as (sub & <- & Hs). apply In_nth_error in Hs as (t & Et).
    exists sub. split; [|right; eauto]. cut (t = s); [intros <-; exact Et|].
    destruct (has_sub _ H1) as (t' & Ht). pose proof (U _ t' Ht (end_lies _ _ H1 H3)) as ->. destruct Ht as (g & i & Hg & Hi & Ei).
    apply (G5 t s sub g id i Et Hg Hp Hi). eapply SubnetSpec.chained_step; [apply SubnetSpec.chained_refl|exact Fd|]. cbn [SubnetSpec.joint]. rewrite Ei. split; [apply (end_lies _ _ H1 H3)|exact FE].
Qed.
Lemma items_out k it : ~ inb (fst k) -> item_at pins_at (robjs F) it k -> rep it k.
Proof.
  intros NI A. destruct it as [i|id]; cbn [item_at] in A; [|exact (proj1 A)].
  destruct A as (o & Ei & L). exists o. split; [exact Ei|]. apply nth_error_In in Ei. apply robjs_in in Ei as [(w & Hw & ->)|(p & l1 & l2 & d & Hv & ->)].
  - apply lies_on_w in L. destruct (on_some_piece b lw sol w k (wpr w Hw) L) as ([|] & c & Hc & O).
    + exfalso. apply NI. apply (inner_inb b lw sol w c k (wpr w Hw) Hc O).
    + left. exists w, c. auto.
  - right. right. left. exists p, l1, l2, d. split; [exact Hv|]. split; [reflexivity|]. split; [|exact L].
    destruct (origin_in false b p) eqn:E; [|reflexivity]. exfalso. apply NI. apply origin_inb in E. destruct L as [-> | ->]; exact E.
Qed.
Lemma step x y k kx : meet pins_at (robjs F) x y k -> rep x kx -> exists ky, rep y ky /\ cond kx ky.
Proof.
  intros ((o & Ho & E) & Ax & Ay) Rx.
  assert (D : inb (fst k) \/ ~ inb (fst k)) by (rewrite <- origin_inb; destruct (origin_in false b (fst k)); [left; reflexivity|right; discriminate]).
  destruct D as [I|NI].
  - destruct (old_end o k Ho E I) as (o' & H1 & H2 & _). destruct (has_sub _ H1) as (s & Hs).
    assert (FE : SubnetSpec.fig_ends objs k) by (exists o'; auto).
    assert (U : forall o t, in_sub t (DFig o) -> lies_on o k -> t = s).
    { intros o2 t Ht L. apply (same_sub t s o2 o' k Ht Hs L (end_lies _ _ H1 H2) FE). }
    destruct (items_in k s I FE U x Ax) as (Gx & _). destruct (items_in k s I FE U y Ay) as (_ & Gy).
    destruct (Gx kx Rx) as (k' & S' & C1). destruct (Gy k' S') as (ky & Ry & C2). exists ky. split; [exact Ry|]. eapply cd_trans; eassumption.
  - exists k. split; [apply items_out; assumption|]. apply (rep_coherent x); [exact Rx|apply items_out; assumption].
Qed.
Lemma keep_linked x y kx : linked pins_at (robjs F) (fun _ => True) x y -> rep x kx -> exists ky, rep y ky /\ cond kx ky.
Proof.
  intros H R. induction H as [|u v k H IH M _].
  - exists kx. split; [exact R|apply cd_refl].
  - destruct (IH) as (ku & Ru & Cu). destruct (step u v k ku M Ru) as (kv & Rv & Cv). exists kv. split; [exact Rv|]. eapply cd_trans; eassumption.
Qed.
End M.
