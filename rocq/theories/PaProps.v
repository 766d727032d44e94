(* C48 - C50, C57: choosing access points and access patterns. *)
From Verif Require Import Base PaModel PaSpec PaProofs PaProofs2 PaProofs3 PaProofs4 PaProofs5.

(* C48: the patterns chosen for a row of cells cost the least in total *)
Theorem C48_row_choice_cheapest clean costs M :
  (forall l, In l costs -> l <> [] /\ (length l <= 5)%nat) ->
  (forall l c, In l costs -> In c l -> 0 <= c <= M) ->
  1000 <= M -> (Z.of_nat (length costs) + 1) * M < INF ->
  exists pat, genInstPattern clean costs = Some pat /\
    cheapest (row_pair clean costs) (map (@length Z) costs) pat.
Proof. intros H1 H2 H3 H4. apply (row_optimal clean costs M H1 H2 H3 H4). Qed.
Print Assumptions C48_row_choice_cheapest.

(* C48: in every iteration after the first (and in the first too when the look-back changes no
   verdict) the access points picked for the pins of a cell cost the least in total *)
Theorem C48_cell_choice_cheapest drc blamed pins M k s :
  sensible pins M -> pins <> [] ->
  reached drc blamed pins (maxAps pins) k s -> (0 < k)%nat \/ look_back_harmless drc pins ->
  exists pat, read_off (psNodes (search drc pins (maxAps pins) s)) (numPins pins) (maxAps pins) = Some pat /\
    cheapest (pin_pair drc pins (psUsed s) (psViol s)) (ap_counts pins) pat.
Proof.
  intros SE ne Hr Hk. apply (reached_cheapest drc blamed pins M (maxAps pins) SE ne (maxAps_ge pins) k s Hr Hk).
Qed.
Print Assumptions C48_cell_choice_cheapest.

(* C49 *)
Theorem C49_tables_never_alias n dim : 0 <= n -> 0 < dim ->
  (forall i a, -1 <= i <= n -> 0 <= a < dim ->
     0 <= getFlatIdx i a dim < (n + 2) * dim /\ getNestedIdx (getFlatIdx i a dim) dim = (i, a)) /\
  (forall i a i' a', -1 <= i <= n -> -1 <= i' <= n -> 0 <= a < dim -> 0 <= a' < dim ->
     getFlatIdx i a dim = getFlatIdx i' a' dim -> (i, a) = (i', a')) /\
  (forall i a b, -1 <= i <= n -> 0 <= a < dim -> 0 <= b < dim ->
     0 <= getFlatEdgeIdx i a b dim < (n + 2) * dim * dim) /\
  (forall i a b i' a' b', 0 <= a < dim -> 0 <= b < dim -> 0 <= a' < dim -> 0 <= b' < dim ->
     getFlatEdgeIdx i a b dim = getFlatEdgeIdx i' a' b' dim -> (i, a, b) = (i', a', b')).
Proof.
  intros Hn Hd. split; [|split; [|split]].
  - intros i a Hi Ha. split; [apply flat_range; assumption|apply nested_flat; lia].
  - intros i a i' a' _ _ Ha Ha' E. apply flat_inj in E as [-> ->]; auto.
  - intros i a b Hi Ha Hb. pose proof (flat_range i a n dim Hi Ha) as H. unfold getFlatIdx in H. unfold getFlatEdgeIdx.
    set (x := (i + 1) * dim + a) in *.
    assert (0 <= x * dim) by (apply Z.mul_nonneg_nonneg; lia).
    assert ((x + 1) * dim <= ((n + 2) * dim) * dim) by (apply Z.mul_le_mono_nonneg_r; lia). lia.
  - intros i a b i' a' b' Ha Hb Ha' Hb' E. apply edge_inj in E as (-> & -> & ->); auto.
Qed.
Print Assumptions C49_tables_never_alias.

(* three pins in a row; the middle one has two access points.  Every two vias are fine, but the
   first access point of the middle pin does not fit between the other two *)
Definition ex_pins : list pin :=
  [mkPin 0 [mkAp 0 true]; mkPin 1 [mkAp 0 true; mkAp 2 true]; mkPin 2 [mkAp 0 true]].
Definition ex_drc (vs : list (Z * Z)) : bool :=
  negb (Nat.eqb (length vs) 3 && existsb (fun x => (fst x =? 1) && (snd x =? 0)) vs).
Definition ex_blamed (vs : list (Z * Z)) (i : Z) : bool := i =? 1.

Example ex_sensible : sensible ex_pins 1000.
Proof.
  constructor.
  - intros p [<- | [<- | [<- | []]]]; cbn; discriminate.
  - intros p x [<- | [<- | [<- | []]]] Hx; cbn [pinAps] in Hx;
      repeat (destruct Hx as [<- | Hx]; [cbn; lia|]); destruct Hx.
  - lia.
  - cbn. reflexivity.
Qed.

(* C50 is false: the verdict on an edge that only the look-back rejects is remembered as clean *)
Theorem C50_pair_judged_the_same_refuted :
  exists drc pins M i a b nodes c,
    sensible pins M /\ nodes = psNodes (search drc pins (maxAps pins) (fresh pins (maxAps pins) [])) /\
    c = psVio (fresh pins (maxAps pins) []) /\
    let dim := maxAps pins in
    let ask := getEdgeCost drc pins dim [] [] (getFlatIdx i a dim) (getFlatIdx (i + 1) b dim) nodes in
    fst (ask c) <> fst (ask (snd (ask c))).
Proof.
  exists ex_drc, ex_pins, 1000, 1, 0, 0, (psNodes (search ex_drc ex_pins 2 (fresh ex_pins 2 []))), (fun _ => -1).
  split; [exact ex_sensible|]. split; [reflexivity|]. split; [reflexivity|]. vm_compute. discriminate.
Qed.
Print Assumptions C50_pair_judged_the_same_refuted.

(* C50, the part that holds: after the first iteration every lookup gives the pair cost and changes
   nothing, whatever the path table looks like.  Missing: lookups of the first iteration, which
   also check the predecessor of the moment. *)
Theorem C50_pair_judged_the_same_partial drc blamed pins M k s i a b nodes used viol :
  sensible pins M -> pins <> [] -> reached drc blamed pins (maxAps pins) (S k) s ->
  0 <= i < numPins pins - 1 ->
  0 <= a < Z.of_nat (nth (Z.to_nat i) (ap_counts pins) O) ->
  0 <= b < Z.of_nat (nth (Z.to_nat (i + 1)) (ap_counts pins) O) ->
  (forall x, nodeCost (nodes x) = nodeCost (psNodes s x)) ->
  getEdgeCost drc pins (maxAps pins) used viol
    (getFlatIdx i a (maxAps pins)) (getFlatIdx (i + 1) b (maxAps pins)) nodes (psVio s)
  = (pin_pair drc pins used viol i a b, psVio s).
Proof.
  intros SE ne Hr Hi Ha Hb Hn. set (dim := maxAps pins).
  pose proof (maxAps_ge pins) as D.
  destruct (reached_sound drc blamed pins M dim SE ne D (S k) s Hr) as [Hs Hf]. specialize (Hf ltac:(lia)).
  pose proof (reset_fresh pins M dim SE ne D (psNodes s) (so_costs _ _ _ _ Hs)) as HF.
  assert (Hcnt : forall j, nth (Z.to_nat j) (ap_counts pins) O = length (pinAps (pin_at pins j))).
  { intros j. unfold ap_counts, pin_at. change O with ((fun p => length (pinAps p)) pin0). apply map_nth. }
  rewrite Hcnt in Ha, Hb.
  assert (C : costs_in pins dim (psNodes s)) by apply (so_costs _ _ _ _ Hs).
  (* a fresh table with the same node costs *)
  set (t1 := genPatterns_reset pins dim (psNodes s)).
  assert (V : forall j x, 0 <= j < numPins pins -> 0 <= x < Z.of_nat (length (pinAps (pin_at pins j))) -> valid dim t1 j x).
  { intros j x Hj Hx. apply (valid_mid _ _ _ _ _ HF (f_fin pins M SE) (cnt_ok pins M dim SE D)); assumption. }
  assert (HC : forall j x, 0 <= j < numPins pins -> 0 <= x < Z.of_nat (length (pinAps (pin_at pins j))) ->
    nodeCost (nodes (getFlatIdx j x dim)) = nodeCost (t1 (getFlatIdx j x dim))).
  { intros j x Hj Hx. rewrite Hn. destruct C as (_ & _ & C3). destruct HF as (_ & _ & _ & _ & _ & F6).
    pose proof (cnt_ok pins M dim SE D j Hj). unfold t1. rewrite C3, F6 by lia. reflexivity. }
  set (nodes' := fun x => mkNode (pathCost (nodes x)) (nodeCost (t1 x)) (prevNodeIdx (nodes x))).
  pose proof (edge_spec drc pins M dim SE D used viol t1 i a b nodes' (psVio s) HF ltac:(lia)
    (V i a ltac:(lia) Ha) (V (i + 1) b ltac:(lia) Hb) (so_cache _ _ _ _ Hs) ltac:(reflexivity)) as (_ & _ & _ & _ & E5 & E6).
  assert (K : known pins dim (psVio s) i a b) by (apply Hf; assumption).
  assert (EQ : getEdgeCost drc pins dim used viol (getFlatIdx i a dim) (getFlatIdx (i + 1) b dim) nodes' (psVio s)
             = getEdgeCost drc pins dim used viol (getFlatIdx i a dim) (getFlatIdx (i + 1) b dim) nodes (psVio s)).
  { unfold getEdgeCost, nodes'. cbn [nodeCost]. rewrite <- !HC by lia. unfold hasVio. cbn [prevNodeIdx]. reflexivity. }
  rewrite EQ in E5, E6. specialize (E5 K). specialize (E6 (or_introl K)).
  destruct (getEdgeCost drc pins dim used viol (getFlatIdx i a dim) (getFlatIdx (i + 1) b dim) nodes (psVio s)) as [e c'].
  cbn [fst snd] in *. subst e c'. unfold ended. destruct (Z.eqb_spec i (-1)); [lia|].
  destruct (Z.eqb_spec i (numPins pins - 1)); [lia|]. reflexivity.
Qed.
Print Assumptions C50_pair_judged_the_same_partial.

(* C57: what is recorded for a cell *)
Theorem C57_recorded_patterns_good drc blamed pins M : sensible pins M ->
  exists out, genPatterns drc blamed pins = Some out /\ NoDup out /\ (length out <= 5)%nat /\
    ((forall p, In p out -> good_pattern drc pins p) \/ (forall p, In p out -> good_pattern drc (rev pins) p)).
Proof. apply genPatterns_good. Qed.
Print Assumptions C57_recorded_patterns_good.

(* --- the hypotheses are met by concrete cases --- *)
(* two iterations of the example are reached; one pattern, avoiding the bad access point, is recorded *)
Example ex_reached : exists s1 s2, reached ex_drc ex_blamed ex_pins 2 1 s1 /\ reached ex_drc ex_blamed ex_pins 2 2 s2 /\
  psOut s2 = [[(0, 0); (1, 1); (2, 0)]].
Proof.
  assert (E : exists s1 s2, round ex_drc ex_blamed ex_pins 2 (fresh ex_pins 2 []) = Some (true, s1) /\
     round ex_drc ex_blamed ex_pins 2 s1 = Some (true, s2) /\ psOut s2 = [[(0, 0); (1, 1); (2, 0)]]).
  { eexists _, _. split; [vm_compute; reflexivity|]. split; [vm_compute; reflexivity|]. vm_compute. reflexivity. }
  destruct E as (s1 & s2 & E1 & E2 & E3). exists s1, s2.
  assert (R1 : reached ex_drc ex_blamed ex_pins 2 1 s1) by (eapply reached_S; [constructor|exact E1]).
  split; [exact R1|]. split; [eapply reached_S; [exact R1|exact E2]|exact E3].
Qed.
Example ex_patterns : genPatterns ex_drc ex_blamed ex_pins = Some [[(0, 0); (1, 1); (2, 0)]].
Proof. vm_compute. reflexivity. Qed.
(* a row of three cells: the middle one avoids the pattern that clashes to the right *)
Example ex_row : genInstPattern (fun i a b => negb ((i =? 1) && (a =? 0))) [[0; 4]; [0; 6; 2]; [0]] = Some [0; 2; 0].
Proof. vm_compute. reflexivity. Qed.
