From Verif Require Import Base GeomModel PiModel PiSpec.
From Coq Require Import Permutation Sorted.

Lemma skip_signal t : skip t = false <-> signal t.
Proof. unfold skip, signal. destruct (pt_type t); split; intros H; auto; try discriminate; destruct H; discriminate. Qed.
Lemma core_spec i : core (pi_class i) = true <-> standard_cell i.
Proof. unfold standard_cell. destruct (pi_class i); cbn; split; intros H; try discriminate; auto; try (repeat destruct H as [H|H]; try discriminate; contradiction). Qed.
Lemma pins_spec i ps : pins_in_order (pi_terms i) ps <-> ps = signal_pins i.
Proof.
  unfold signal_pins. split.
  - intros H. induction H as [|t ts ps S H IH|t ts ps S H IH]; [reflexivity| |]; cbn [flat_map]; rewrite IH.
    + apply skip_signal in S. rewrite S. reflexivity.
    + destruct (skip t) eqn:E; [reflexivity|]. apply skip_signal in E. contradiction.
  - intros ->. induction (pi_terms i) as [|t ts IH]; [constructor|]. cbn [flat_map]. destruct (skip t) eqn:E.
    + apply pio_other; [|exact IH]. intros S. apply skip_signal in S. congruence.
    + apply pio_signal; [apply skip_signal, E|exact IH].
Qed.
Lemma sum_spec ps : forall s, sum_of_x ps s -> forall a, fold_left (fun s a => s + px a) ps a = a + s.
Proof. induction ps as [|p ps IH]; intros s H a; inversion H; subst; cbn [fold_left]; [lia|]. erewrite IH by eassumption. lia. Qed.
Lemma sum_ex ps : exists s, sum_of_x ps s.
Proof. induction ps as [|p ps [s IH]]; [exists 0; constructor|exists (px p + s); constructor; exact IH]. Qed.
Lemma mean_spec p m : mean_x p = Some m <-> mean_is p m.
Proof.
  unfold mean_x, mean_is. destruct (sum_ex (pp_aps p)) as [s S]. destruct (pp_aps p) as [|a aps] eqn:E; [split; [discriminate|intros [N _]; contradiction]|]. rewrite <- E in *.
  rewrite (sum_spec _ _ S), Z.add_0_l. set (n := Z.of_nat (length (pp_aps p))). assert (0 < n) by (unfold n; rewrite E; cbn [length]; lia). split.
  - intros H1. injection H1 as <-. split; [rewrite E; discriminate|]. exists s. split; [exact S|]. cbn zeta. fold n. split; intros Hs.
    + rewrite Z.quot_div_nonneg by lia. pose proof (Z.div_mod s n ltac:(lia)). pose proof (Z.mod_pos_bound s n ltac:(lia)). pose proof (Z.div_pos s n ltac:(lia) ltac:(lia)). lia.
    + replace s with (- (- s)) by lia. rewrite Z.quot_opp_l by lia. rewrite Z.quot_div_nonneg by lia. pose proof (Z.div_mod (- s) n ltac:(lia)). pose proof (Z.mod_pos_bound (- s) n ltac:(lia)). pose proof (Z.div_pos (- s) n ltac:(lia) ltac:(lia)). lia.
  - intros (_ & s' & S' & P1 & P2). assert (s' = s). { clear -S S'. revert s' S'. induction S as [|q ps s S IH]; intros s' S'; inversion S'; subst; [reflexivity|]. f_equal. apply IH; assumption. } subst s'. fold n in P1, P2. f_equal.
    destruct (Z.le_gt_cases 0 s) as [Hs|Hs].
    + destruct (P1 Hs) as [[Q1 Q2] Q3]. rewrite Z.quot_div_nonneg by lia. symmetry. apply (Z.div_unique_pos s n m (s - n * m)); lia.
    + destruct (P2 Hs) as [[Q1 Q2] Q3]. replace s with (- (- s)) by lia. rewrite Z.quot_opp_l by lia. rewrite Z.quot_div_nonneg by lia. enough (- s / n = - m) by lia. symmetry. apply (Z.div_unique_pos (- s) n (- m) (- s + n * m)); lia.
Qed.
Lemma kins_perm x l : Permutation (x :: l) (kins x l).
Proof. induction l as [|y r IH]; cbn [kins]; [reflexivity|]. destruct (fst y <? fst x); [|reflexivity]. rewrite perm_swap. constructor. exact IH. Qed.
Lemma ksort_perm l : Permutation l (ksort l).
Proof. induction l as [|x r IH]; cbn [ksort]; [constructor|]. rewrite <- kins_perm. constructor. exact IH. Qed.
Lemma kins_sorted x l : StronglySorted (fun a b : Z * ppin => fst a <= fst b) l -> StronglySorted (fun a b => fst a <= fst b) (kins x l).
Proof.
  induction l as [|y r IH]; intros S; cbn [kins]; [constructor; constructor|]. inversion S as [|? ? S1 S2]; subst. rewrite Forall_forall in S2. destruct (Z.ltb_spec (fst y) (fst x)).
  - constructor; [apply IH, S1|]. apply Forall_forall. intros z Z1. apply (Permutation_in _ (Permutation_sym (kins_perm x r))) in Z1 as [<-|Z1]; [lia|apply S2, Z1].
  - constructor; [exact S|]. constructor; [lia|]. apply Forall_forall. intros z Z1. specialize (S2 z Z1). lia.
Qed.
Lemma ksort_sorted l : StronglySorted (fun a b : Z * ppin => fst a <= fst b) (ksort l).
Proof. induction l as [|x r IH]; cbn [ksort]; [constructor|apply kins_sorted, IH]. Qed.
Definition has_aps (p : ppin) : bool := match pp_aps p with [] => false | _ => true end.
Lemma keyed_pins ps : map snd (keyed ps) = filter has_aps ps.
Proof. unfold keyed, has_aps. induction ps as [|p ps IH]; [reflexivity|]. cbn [flat_map filter]. rewrite map_app, IH. unfold mean_x. destruct (pp_aps p); reflexivity. Qed.
Lemma keyed_key ps m p : In (m, p) (keyed ps) -> mean_x p = Some m.
Proof. unfold keyed. intros H. apply in_flat_map in H as (q & Q & H). destruct (mean_x q) eqn:E; [|contradiction]. destruct H as [H|[]]. congruence. Qed.
Lemma search_perm i : Permutation (search_pins i) (filter has_aps (signal_pins i)).
Proof. unfold search_pins. rewrite <- keyed_pins. apply Permutation_map, Permutation_sym, ksort_perm. Qed.
Lemma search_sorted i : StronglySorted (fun p q => forall m n, mean_x p = Some m -> mean_x q = Some n -> m <= n) (search_pins i).
Proof.
  unfold search_pins. pose proof (ksort_sorted (keyed (signal_pins i))) as S.
  assert (K : forall x, In x (ksort (keyed (signal_pins i))) -> mean_x (snd x) = Some (fst x)). { intros [m p] X. apply (Permutation_in _ (Permutation_sym (ksort_perm _))) in X. exact (keyed_key _ _ _ X). }
  induction S as [|x r S IH F]; cbn [map]; [constructor|]. constructor; [apply IH; intros y Y; apply K; right; exact Y|]. rewrite Forall_forall in *. intros p P. apply in_map_iff in P as (y & <- & Y). intros m n M N.
  rewrite (K x (or_introl eq_refl)) in M. rewrite (K y (or_intror Y)) in N. injection M as <-. injection N as <-. apply F, Y.
Qed.
(* handing out *)
Lemma hand_out_ok ps : forall l, length l = length ps -> snd (hand_out ps l) = true /\ fst (hand_out ps l) = combine (map pp_id ps) l.
Proof.
  induction ps as [|p ps IH]; intros [|a l] H; try discriminate; cbn [hand_out map combine]; [split; reflexivity|]. destruct (IH l) as [H1 H2]; [cbn in H; lia|]. destruct (hand_out ps l) as [r ok]. cbn [fst snd] in *. subst. split; reflexivity.
Qed.
Lemma hand_out_short ps : forall l, (length l < length ps)%nat -> snd (hand_out ps l) = false.
Proof. induction ps as [|p ps IH]; intros [|a l] H; cbn [length] in H; try lia; cbn [hand_out]; [reflexivity|]. specialize (IH l ltac:(lia)). destruct (hand_out ps l). exact IH. Qed.
Lemma find_assoc (ids : list Z) : forall (pat : list Z) id, In id ids -> length pat = length ids -> exists k, option_map snd (find (fun x => fst x =? id) (combine ids pat)) = Some k /\ In (id, k) (combine ids pat).
Proof.
  induction ids as [|j ids IH]; intros [|k pat] id I L; try contradiction; try discriminate. cbn [combine find fst]. destruct (Z.eqb_spec j id) as [->|N].
  - exists k. split; [reflexivity|left; reflexivity].
  - destruct I as [I|I]; [contradiction|]. destruct (IH pat id I) as (m & H1 & H2); [cbn in L; lia|]. exists m. split; [exact H1|right; exact H2].
Qed.
Lemma find_none_assoc (ids pat : list Z) id : ~ In id ids -> option_map snd (find (fun x => fst x =? id) (combine ids pat)) = None.
Proof.
  intros N. destruct (find (fun x => fst x =? id) (combine ids pat)) as [[j k]|] eqn:E; [|reflexivity]. exfalso. apply find_some in E as [E1 E2]. cbn [fst] in E2. apply Z.eqb_eq in E2. subst j. apply in_combine_l in E1. contradiction.
Qed.
Lemma reorder_len ps pat (qs : list ppin) :
  length (flat_map (fun p => match pin2ap ps pat (pp_id p) with Some k => [(pp_id p, k, point_of p k)] | None => [] end) qs) =
  length (filter (fun p => match pin2ap ps pat (pp_id p) with Some _ => true | None => false end) qs).
Proof. induction qs as [|q qs IH]; [reflexivity|]. cbn [flat_map filter]. rewrite app_length, IH. destruct (pin2ap ps pat (pp_id q)); reflexivity. Qed.
(* extremes: the first of the least *)
Definition first_min (f : ap -> Z) (l : list ap) (a : ap) : Prop := exists l1 l2, l = l1 ++ a :: l2 /\ (forall c, In c l1 -> f a < f c) /\ forall c, In c l2 -> f a <= f c.
Lemma min_fold f l : forall l0 b, first_min f l0 b -> exists a, fold_left (fun b a => match b with None => Some a | Some c => if f a <? f c then Some a else b end) l (Some b) = Some a /\ first_min f (l0 ++ l) a.
Proof.
  induction l as [|x l IH]; intros l0 b B; cbn [fold_left].
  - exists b. rewrite app_nil_r. split; [reflexivity|exact B].
  - replace (l0 ++ x :: l) with ((l0 ++ [x]) ++ l) by (rewrite <- app_assoc; reflexivity). destruct B as (l1 & l2 & -> & B1 & B2). destruct (Z.ltb_spec (f x) (f b)).
    + apply IH. exists (l1 ++ b :: l2), []. split; [reflexivity|]. split; [|intros c []]. intros c C. apply in_app_iff in C as [C|[<-|C]]; [specialize (B1 c C)| |specialize (B2 c C)]; lia.
    + apply IH. exists l1, (l2 ++ [x]). split; [rewrite <- app_assoc; reflexivity|]. split; [exact B1|]. intros c C. apply in_app_iff in C as [C|[<-|[]]]; [apply B2, C|lia].
Qed.
Lemma left_spec l : l <> [] -> exists a, left_ap l = Some a /\ first_min ap_x l a.
Proof.
  destruct l as [|x l]; [contradiction|]. intros _. unfold left_ap. cbn [fold_left]. apply (min_fold ap_x l [x] x). exists [], []. split; [reflexivity|]. split; intros c [].
Qed.
Lemma right_spec l : l <> [] -> exists a, right_ap l = Some a /\ first_min (fun c => - ap_x c) l a.
Proof.
  destruct l as [|x l]; [contradiction|]. intros _. unfold right_ap. cbn [fold_left].
  destruct (min_fold (fun c => - ap_x c) l [x] x) as (a & F & A); [exists [], []; split; [reflexivity|]; split; intros c []|]. exists a. split; [|exact A]. rewrite <- F. clear. generalize (Some x). induction l as [|y l IH]; intros o; [reflexivity|]. cbn [fold_left]. rewrite IH. f_equal. destruct o as [c|]; [|reflexivity].
  rewrite Z.gtb_ltb. destruct (Z.ltb_spec (ap_x c) (ap_x y)), (Z.ltb_spec (- ap_x y) (- ap_x c)); try lia; reflexivity.
Qed.
