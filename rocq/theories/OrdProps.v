(* The nets of a clip are routed in an order that depends only on their pins. *)
From Verif Require Import Base GeomModel OrdModel OrdSpec OrdProofs.
From Coq Require Import Permutation Sorted.

Lemma points_of ps all : Forall2 at_point ps all -> points ps = Some all.
Proof. induction 1 as [|p a ps all H F IH]; [reflexivity|]. cbn [points]. rewrite (at_pin_point _ _ H), IH. reflexivity. Qed.
Lemma points_in ns all n ps : Forall2 at_point (flat_map on_pins ns) all -> In n ns -> Forall2 at_point (on_pins n) ps -> incl ps all.
Proof.
  intros F I G. revert all F. induction ns as [|m ns IH]; intros all F; [contradiction|]. cbn [flat_map] in F. apply Forall2_app_inv_l in F as (a & b & F1 & F2 & ->). destruct I as [->|I].
  - apply points_of in F1, G. replace ps with a by congruence. apply incl_appl, incl_refl.
  - apply incl_appr, IH; assumption.
Qed.
Lemma has_aps ps all : Forall2 at_point ps all -> forall p, In p ps -> op_aps p <> [].
Proof. induction 1 as [|p a ps all H F IH]; intros q Hq; [contradiction|]. destruct Hq as [<-|Hq]; [|apply IH, Hq]. destruct H as [l ? ? ?|]; [|discriminate]. cbn. destruct l; discriminate. Qed.
Lemma sub_points ns all n : Forall2 at_point (flat_map on_pins ns) all -> In n ns -> exists ps, Forall2 at_point (on_pins n) ps.
Proof.
  revert all. induction ns as [|m ns IH]; intros all F I; [contradiction|]. cbn [flat_map] in F. apply Forall2_app_inv_l in F as (a & b & F1 & F2 & ->). destruct I as [->|I]; [exists a; exact F1|exact (IH b F2 I)].
Qed.

(* Nets with fewer pins of the clip in the smallest box around their own pins come first, then those with the smaller box, then those
   numbered first; a net without pins counts as one with 99999 pins.  Each net comes once. *)
Theorem C158_routing_order ext ns all fm : good ext -> NoDup (map on_id ns) -> Forall2 at_point (flat_map on_pins ns) all -> Forall (inside ext) all ->
  area ext < 2147483648 -> fm = 0 \/ fm = 9 ->
  exists l, route_order fm [] ext ns = Some l /\ Permutation (map oi_net l) ns /\ StronglySorted before l /\
    forall a, In a l -> exists ps, Forall2 at_point (on_pins (oi_net a)) ps /\
      (ps = [] -> oi_num a = 99999 /\ oi_box a = ext) /\ (ps <> [] -> hull (oi_box a) ps /\ count_inside (oi_box a) all (oi_num a)).
Proof.
  intros G ND F I A Hfm. unfold route_order, numPinsIn. rewrite (points_of _ _ F).
  destruct (infos_some ext all ns) as [l E]. { intros n p Hn Hp. apply (has_aps _ _ F). apply in_flat_map. exists n. split; assumption. }
  rewrite E. pose proof (infos_nets _ _ _ _ E) as EN. pose proof (infos_spec _ _ _ _ E) as SP.
  assert (D : forall a, In a l -> exists ps, Forall2 at_point (on_pins (oi_net a)) ps /\ (forall p, In p ps -> inside ext p) /\
      (ps = [] -> oi_num a = 99999 /\ oi_box a = ext) /\ (ps <> [] -> hull (oi_box a) ps /\ count_inside (oi_box a) all (oi_num a))).
  { intros a Ha. assert (Hn : In (oi_net a) ns) by (rewrite <- EN; apply in_map, Ha). destruct (sub_points _ _ _ F Hn) as [ps Fp]. exists ps. split; [exact Fp|].
    assert (Ip : forall p, In p ps -> inside ext p). { intros p Hp. rewrite Forall_forall in I. apply I. exact (points_in _ _ _ _ F Hn Fp p Hp). } split; [exact Ip|].
    assert (Ei : info ext all (oi_net a) = Some a). { clear -SP Ha. induction SP as [|n b ns l H S IH]; [contradiction|]. destruct Ha as [->|Ha]; [|apply IH, Ha]. rewrite (info_net _ _ _ _ H). exact H. }
    destruct (info_hull _ _ _ _ _ (points_of _ _ Fp) Ei G Ip) as [H1 H2]. split; [exact H1|]. intros N. destruct (H2 N) as [H3 ->]. split; [exact H3|apply count_spec]. }
  assert (Ar : forall a, In a l -> area32 (oi_box a) = area (oi_box a)).
  { intros a Ha. destruct (D a Ha) as (ps & _ & Ip & D1 & D2). unfold area32. apply wrap_small. destruct G as [G1 G2]. destruct ps as [|p ps].
    - destruct (D1 eq_refl) as [_ ->]. unfold area in A. split; [apply Z.mul_nonneg_nonneg; lia|exact A].
    - destruct D2 as [(Hq & (p1 & I1 & X1) & (p2 & I2 & X2) & (p3 & I3 & X3) & (p4 & I4 & X4)) _]; [discriminate|].
      pose proof (Ip p1 I1) as [Q1 _]. pose proof (Ip p2 I2) as [Q2 _]. pose proof (Ip p3 I3) as [_ Q3]. pose proof (Ip p4 I4) as [_ Q4].
      destruct (Hq p (or_introl eq_refl)) as [O1 O2].
      unfold area in A. assert (W : bright (oi_box a) - bleft (oi_box a) <= bright ext - bleft ext) by lia. assert (V : btop (oi_box a) - bbottom (oi_box a) <= btop ext - bbottom ext) by lia.
      split; [apply Z.mul_nonneg_nonneg; lia|]. eapply Z.le_lt_trans; [apply Z.mul_le_mono_nonneg; [lia|exact W|lia|exact V]|exact A]. }
  assert (Nl : NoDup (ids l)). { unfold ids. rewrite <- map_map. rewrite EN. exact ND. }
  assert (Ec : comp_of fm = Some comp1) by (destruct Hfm as [-> | ->]; reflexivity).
  exists (isort comp1 l). unfold sort_nets. rewrite Ec. split; [destruct (2 <=? _); reflexivity|].
  pose proof (isort_perm comp1 l) as P. split; [rewrite <- EN; apply Permutation_map, Permutation_sym, P|]. split.
  - pose proof (isort_sorted comp1 (key fm) (comp_key fm _ Ec) (key_id fm) l Nl) as S.
    assert (Q : forall a, In a (isort comp1 l) -> area32 (oi_box a) = area (oi_box a)). { intros a Ha. apply Ar, (Permutation_in _ (Permutation_sym P) Ha). }
    clear -S Q. induction S as [|a r S IH H]; [constructor|]. constructor; [apply IH; intros b Hb; apply Q; right; exact Hb|].
    rewrite Forall_forall in *. intros b Hb. specialize (H b Hb). unfold comp1 in H. rewrite (Q a (or_introl eq_refl)), (Q b (or_intror Hb)) in H. unfold before.
    destruct (Z.eqb_spec (oi_num a) (oi_num b)); [|apply Z.ltb_lt in H; left; exact H]. right. split; [assumption|].
    destruct (Z.eqb_spec (area (oi_box a)) (area (oi_box b))); apply Z.ltb_lt in H; [right; split; assumption|left; exact H].
  - intros a Ha. apply (Permutation_in _ (Permutation_sym P)) in Ha. destruct (D a Ha) as (ps & D1 & _ & D2). exists ps. split; [exact D1|exact D2].
Qed.
Print Assumptions C158_routing_order.

(* Whatever the mode, the order does not depend on the order in which the nets were listed. *)
Theorem C158_listing_irrelevant fm c ext ns ns' l : comp_of fm = Some c -> NoDup (map on_id ns) -> Permutation ns ns' ->
  route_order fm [] ext ns = Some l -> route_order fm [] ext ns' = Some l.
Proof.
  unfold route_order, numPinsIn. intros Ec ND P H. destruct (points (flat_map on_pins ns)) as [all|] eqn:E; [|discriminate].
  destruct (points_perm _ (flat_map on_pins ns') (Permutation_flat_map _ P) all E) as (all' & E' & PA). rewrite E'.
  destruct (infos ext all ns) as [i|] eqn:Ei; [|discriminate]. destruct (infos_perm ext all all' ns ns' PA P i Ei) as (i' & -> & Pi).
  injection H as <-. f_equal. unfold sort_nets. rewrite Ec. cbn [fold_left].
  assert (Nl : NoDup (ids i)). { unfold ids. rewrite <- map_map. rewrite (infos_nets _ _ _ _ Ei). exact ND. }
  assert (X : isort c i' = isort c i).
  { apply (sorted_unique c (key fm) (comp_key fm c Ec)).
    - rewrite <- isort_perm, <- (isort_perm c i). symmetry. exact Pi.
    - apply (isort_sorted c (key fm) (comp_key fm c Ec) (key_id fm)). apply (Permutation_NoDup (ids_perm _ _ Pi)), Nl.
    - apply (isort_sorted c (key fm) (comp_key fm c Ec) (key_id fm)). exact Nl. }
  rewrite X. destruct (2 <=? _); reflexivity.
Qed.
Print Assumptions C158_listing_irrelevant.

(* Nor on how the library sorts: any arrangement of the nets that no comparison contradicts is the one modelled. *)
Theorem C158_any_sort fm c l l' : comp_of fm = Some c -> NoDup (map (fun a => on_id (oi_net a)) l) -> Permutation l l' ->
  ForallOrdPairs (fun a b => c b a = false) l' -> l' = sort_nets fm [] l.
Proof.
  intros Ec N P O. unfold sort_nets. rewrite Ec. cbn [fold_left].
  replace (if 2 <=? Z.of_nat (length (isort c l)) then isort c l else isort c l) with (isort c l) by (destruct (2 <=? _); reflexivity).
  apply (sorted_unique c (key fm) (comp_key fm c Ec)).
  - rewrite <- isort_perm. symmetry. exact P.
  - apply (no_inversion c (key fm) (comp_key fm c Ec) (key_id fm)); [|exact O]. exact (Permutation_NoDup (ids_perm _ _ P) N).
  - apply (isort_sorted c (key fm) (comp_key fm c Ec) (key_id fm)). exact N.
Qed.
Print Assumptions C158_any_sort.

(* With a seed, whatever numbers are drawn, each net still comes once. *)
Theorem C158_seed_keeps_nets fm idx ext ns l : route_order fm idx ext ns = Some l -> Permutation (map oi_net l) ns.
Proof.
  unfold route_order, numPinsIn. intros H. destruct (points (flat_map on_pins ns)) as [all|]; [|discriminate]. destruct (infos ext all ns) as [i|] eqn:Ei; [|discriminate].
  injection H as <-. rewrite <- (infos_nets _ _ _ _ Ei). apply Permutation_map. unfold sort_nets.
  assert (S : Permutation (match comp_of fm with Some c => isort c i | None => i end) i) by (destruct (comp_of fm); [symmetry; apply isort_perm|reflexivity]).
  set (k := match comp_of fm with Some c => isort c i | None => i end) in *. clearbody k. destruct (2 <=? Z.of_nat (length k)); [rewrite swaps_perm|]; exact S.
Qed.
Print Assumptions C158_seed_keeps_nets.

(* One exchange moves a net and the one after it, and no other. *)
Theorem C158_exchange (l : list oinfo) i : (2 <= length l)%nat -> (i < length l)%nat ->
  let j := if Nat.eqb (i + 1) (length l) then 0%nat else (i + 1)%nat in
  nth_error (swap_at l i) i = nth_error l j /\ nth_error (swap_at l i) j = nth_error l i /\
  forall k, k <> i -> k <> j -> nth_error (swap_at l i) k = nth_error l k.
Proof.
  intros L Hi. cbn zeta.
  assert (Ej : Nat.modulo (i + 1) (length l) = if Nat.eqb (i + 1) (length l) then 0%nat else (i + 1)%nat).
  { destruct (Nat.eqb_spec (i + 1) (length l)) as [->|N]; [apply Nat.mod_same; lia|apply Nat.mod_small; lia]. }
  rewrite <- Ej. unfold swap_at. set (j := Nat.modulo (i + 1) (length l)) in *. cbn zeta.
  assert (Hj : (j < length l)%nat) by (apply Nat.mod_upper_bound; lia).
  assert (Nij : i <> j) by (rewrite Ej; destruct (Nat.eqb_spec (i + 1) (length l)); lia). clearbody j.
  destruct (nth_error l i) as [a|] eqn:Ea; [|apply nth_error_None in Ea; lia]. destruct (nth_error l j) as [b|] eqn:Eb; [|apply nth_error_None in Eb; lia].
  repeat split; [..|intros k K1 K2]; rewrite !setn_nth;
    repeat match goal with |- context [Nat.eqb ?x ?y] => destruct (Nat.eqb_spec x y); try congruence end.
  - rewrite Ea. reflexivity.
  - rewrite Eb. reflexivity.
Qed.
Print Assumptions C158_exchange.

(* In the modes 1 and 2 the nets nearer to a violation come first. *)
Theorem C158_by_distance fm ext ns l : fm = 1 \/ fm = 2 -> NoDup (map on_id ns) -> route_order fm [] ext ns = Some l ->
  StronglySorted (fun a b => on_dist (oi_net a) < on_dist (oi_net b) \/ on_dist (oi_net a) = on_dist (oi_net b) /\ on_id (oi_net a) < on_id (oi_net b)) l.
Proof.
  unfold route_order, numPinsIn. intros Hfm ND H. assert (Ec : comp_of fm = Some comp2) by (destruct Hfm as [-> | ->]; reflexivity).
  destruct (points (flat_map on_pins ns)) as [all|]; [|discriminate]. destruct (infos ext all ns) as [i|] eqn:Ei; [|discriminate]. injection H as <-.
  assert (Nl : NoDup (ids i)). { unfold ids. rewrite <- map_map. rewrite (infos_nets _ _ _ _ Ei). exact ND. }
  unfold sort_nets. rewrite Ec. cbn [fold_left]. replace (if 2 <=? Z.of_nat (length (isort comp2 i)) then isort comp2 i else isort comp2 i) with (isort comp2 i) by (destruct (2 <=? _); reflexivity).
  pose proof (isort_sorted comp2 (key fm) (comp_key fm _ Ec) (key_id fm) i Nl) as S. clear -S.
  induction S as [|a r S IH F]; constructor; [exact IH|]. rewrite Forall_forall in *. intros b Hb. specialize (F b Hb). unfold comp2 in F.
  destruct (Z.eqb_spec (on_dist (oi_net a)) (on_dist (oi_net b))); apply Z.ltb_lt in F; [right; split; assumption|left; exact F].
Qed.
Print Assumptions C158_by_distance.

(* A pin without access pattern stops the program. *)
Theorem C158_pin_without_access fm idx ext ns n p : In n ns -> In p (on_pins n) -> op_aps p = [] -> route_order fm idx ext ns = None.
Proof.
  intros Hn Hp E. unfold route_order, numPinsIn. assert (H : points (flat_map on_pins ns) = None); [|rewrite H; reflexivity].
  assert (Hq : In p (flat_map on_pins ns)) by (apply in_flat_map; exists n; split; assumption). induction (flat_map on_pins ns) as [|q r IH]; [contradiction|]. cbn [points].
  destruct Hq as [->|Hq]; [unfold pin_point; rewrite E; reflexivity|]. rewrite (IH Hq). destruct (pin_point q); reflexivity.
Qed.
Print Assumptions C158_pin_without_access.

(* Area is computed in 32 bits: a net whose box is larger can come first. *)
Definition pin1 x y := mkOP [(mkPt x y, 0)].
Definition big := mkON 1 0 [pin1 0 0; pin1 60000 60000].
Definition small := mkON 0 0 [pin1 70000 0; pin1 70100 100].
Theorem C158_area_wraps_refuted : exists ext ns a b, NoDup (map on_id ns) /\ route_order 9 [] ext ns = Some [a; b] /\
  oi_num a = oi_num b /\ area (oi_box b) < area (oi_box a).
Proof.
  exists (mkBox (mkPt 0 0) (mkPt 80000 80000)), [small; big]. do 2 eexists. split; [repeat constructor; cbn; intuition discriminate|].
  split; [vm_compute; reflexivity|]. split; vm_compute; reflexivity.
Qed.
Print Assumptions C158_area_wraps_refuted.

(* three nets: the one in the middle of another comes first, the one without pins last *)
Definition ex_ext := mkBox (mkPt 0 0) (mkPt 1000 1000).
Definition ex_nets := [mkON 0 0 []; mkON 1 0 [pin1 0 0; mkOP [(mkPt 900 900, 3); (mkPt 500 500, 0)]]; mkON 2 0 [pin1 100 100; pin1 200 300]].
Example C158_hyps : good ex_ext /\ NoDup (map on_id ex_nets) /\
  Forall2 at_point (flat_map on_pins ex_nets) [mkPt 0 0; mkPt 500 500; mkPt 100 100; mkPt 200 300] /\
  Forall (inside ex_ext) [mkPt 0 0; mkPt 500 500; mkPt 100 100; mkPt 200 300] /\ area ex_ext < 2147483648.
Proof.
  split; [split; reflexivity|]. split; [repeat constructor; cbn; intuition discriminate|]. split.
  - cbn [flat_map on_pins ex_nets app]. unfold pin1. constructor; [apply (at_free []); constructor|]. constructor; [apply (at_free [(mkPt 900 900, 3)]); repeat constructor; discriminate|].
    constructor; [apply (at_free []); constructor|]. constructor; [apply (at_free []); constructor|]. constructor.
  - split; [|reflexivity]. repeat constructor; vm_compute; discriminate.
Qed.
Example C158_ex : option_map (map (fun a => (on_id (oi_net a), oi_num a))) (route_order 9 [] ex_ext ex_nets) = Some [(2, 2); (1, 4); (0, 99999)].
Proof. reflexivity. Qed.
Example C158_ex_seed : option_map (map (fun a => on_id (oi_net a))) (route_order 9 [2%nat] ex_ext ex_nets) = Some [0; 1; 2].
Proof. reflexivity. Qed.
