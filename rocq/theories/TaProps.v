(* Track assignment: C44-C47, C58-C62. *)
From Verif Require Import Base Stl GeomModel GeomSpec TaModel TaSpec TaProofs TaProofs2 TaProofs3.
From Coq Require Import Permutation.

(* the candidate tracks of a guide: the tracks of the layer inside its gcell [low, high) *)
Definition candidate (tracks : list Z) (low high t : Z) : Prop := In t tracks /\ low <= t < high.

Lemma candidates_idx tracks low high i : sorted_lt tracks ->
  (fst (availTracks tracks low high) <= i <= snd (availTracks tracks low high) <->
   0 <= i < Z.of_nat (length tracks) /\ low <= nth (Z.to_nat i) tracks 0 < high).
Proof.
  intros Hs. unfold availTracks. rewrite getTrackIdx_spec by assumption. intuition lia.
Qed.
Lemma candidate_has_idx tracks low high t : sorted_lt tracks -> candidate tracks low high t ->
  exists i, fst (availTracks tracks low high) <= i <= snd (availTracks tracks low high) /\
    nth (Z.to_nat i) tracks 0 = t.
Proof.
  intros Hs [Hin Ht]. apply (In_nth _ _ 0) in Hin as (k & Hk & E).
  exists (Z.of_nat k). rewrite Nat2Z.id. split; [|exact E].
  apply candidates_idx; [exact Hs|]. rewrite Nat2Z.id. lia.
Qed.

(* the common part: what the chosen track is, in terms of the track coordinates *)
Lemma best_spec tracks cost init wlen wlen2 low high :
  sorted_lt tracks -> (exists t, candidate tracks low high t) ->
  (forall t, candidate tracks low high t -> fst (cost t) < UMAX /\ snd (cost t) < UMAX) ->
  exists loc idx stored w,
    bestTrack tracks cost init wlen wlen2 (fst (availTracks tracks low high))
      (snd (availTracks tracks low high)) = Chosen loc idx stored /\
    candidate tracks low high loc /\ nth (Z.to_nat idx) tracks 0 = loc /\
    In loc w /\ (forall t, In t w -> candidate tracks low high t) /\
    (exists last, In last w /\ stored = snd (cost last)) /\
    (forall t, In t w -> snd (cost t) = 0 -> stored = 0) /\
    (forall t, In t w -> (if init then fst (cost loc) else snd (cost loc)) <=
                         (if init then fst (cost t) else snd (cost t))) /\
    (stored = 0 \/ forall t, candidate tracks low high t -> In t w).
Proof.
  intros Hs [t0 H0] Hmax. set (p := availTracks tracks low high) in *.
  destruct (candidate_has_idx tracks low high t0 Hs H0) as (i0 & Hi0 & _). fold p in Hi0.
  pose proof (candidates_idx tracks low high (fst p) Hs) as [Q1 _]. fold p in Q1.
  pose proof (candidates_idx tracks low high (snd p) Hs) as [Q2 _]. fold p in Q2.
  specialize (Q1 ltac:(lia)). specialize (Q2 ltac:(lia)).
  assert (Hcand : forall i, fst p <= i <= snd p -> candidate tracks low high (nth (Z.to_nat i) tracks 0)).
  { intros i Hi. apply candidates_idx in Hi as [Hr Hv]; [|exact Hs]. split; [apply nth_In; lia|exact Hv]. }
  destruct (bestTrack_inv tracks cost init (fst p) (snd p)) with (wlen := wlen) (wlen2 := wlen2)
    as (w & s & E & HI & Hne & Hr & Hd); try lia.
  { intros i Hi. destruct (Hmax _ (Hcand i Hi)). unfold key, tot, drc. destruct init; assumption. }
  exists (bLoc s), (bIdx s), (bDrc s), (map (fun i => nth (Z.to_nat i) tracks 0) w).
  destruct w as [|k w]; [congruence|]. destruct HI as (I1 & I2 & I3 & I4 & I5 & I6).
  split; [exact E|]. split; [rewrite I4; apply Hcand, Hr, I2|]. split; [congruence|].
  split. { rewrite I4. apply in_map_iff. exists (bIdx s). auto. }
  split. { intros t Ht. apply in_map_iff in Ht as (i & <- & Hi). apply Hcand, Hr, Hi. }
  split. { exists (nth (Z.to_nat k) tracks 0). split; [left; reflexivity|exact I1]. }
  split. { intros t Ht. apply in_map_iff in Ht as (i & <- & [<- |Hi]); intros Z0; [unfold drc in I1; congruence|].
           exfalso. apply (I6 i Hi). exact Z0. }
  split.
  - intros t Ht. apply in_map_iff in Ht as (i & <- & Hi). specialize (I5 i Hi). rewrite I3 in I5.
    unfold key, tot, drc in I5. rewrite I4. destruct init; exact I5.
  - destruct Hd as [Hd|Hd]; [left; exact Hd|right]. intros t Ht.
    destruct (candidate_has_idx tracks low high t Hs Ht) as (i & Hi & <-).
    apply in_map_iff. exists i. split; [reflexivity|]. apply Hd, Hi.
Qed.

(* C44: the chosen track is a candidate; in a repair iteration it has the least violation cost of
   all candidates, hence none if some candidate has none *)
Theorem C44_best_candidate tracks cost wlen wlen2 low high :
  sorted_lt tracks -> (exists t, candidate tracks low high t) ->
  (forall t, candidate tracks low high t -> fst (cost t) < UMAX /\ 0 <= snd (cost t) < UMAX) ->
  exists loc idx stored,
    bestTrack tracks cost false wlen wlen2 (fst (availTracks tracks low high))
      (snd (availTracks tracks low high)) = Chosen loc idx stored /\
    candidate tracks low high loc /\ nth (Z.to_nat idx) tracks 0 = loc /\
    (forall t, candidate tracks low high t -> snd (cost loc) <= snd (cost t)) /\
    ((exists t, candidate tracks low high t /\ snd (cost t) = 0) -> snd (cost loc) = 0).
Proof.
  intros Hs Hex Hmax.
  destruct (best_spec tracks cost false wlen wlen2 low high Hs Hex)
    as (loc & idx & stored & w & E & Hc & Hn & Hin & Hw & (last & Hl1 & Hl2) & Hz & Hmin & Hall).
  { intros t Ht. specialize (Hmax t Ht). lia. }
  exists loc, idx, stored. split; [exact E|]. split; [exact Hc|]. split; [exact Hn|].
  assert (M : forall t, candidate tracks low high t -> snd (cost loc) <= snd (cost t)).
  { intros t Ht. destruct Hall as [H0|Hall]; [|apply Hmin, Hall, Ht].
    specialize (Hmin last Hl1). specialize (Hmax t Ht). cbn in Hmin. lia. }
  split; [exact M|]. intros (t & Ht & Z0). specialize (M t Ht). specialize (Hmax loc Hc). lia.
Qed.
Print Assumptions C44_best_candidate.

(* C44, first iteration: the search stops at the first clean candidate; the chosen one costs no
   more than that one, and no more than any candidate if none is clean *)
Theorem C44_initial_candidate tracks cost wlen wlen2 low high :
  sorted_lt tracks -> (exists t, candidate tracks low high t) ->
  (forall t, candidate tracks low high t -> fst (cost t) < UMAX /\ 0 <= snd (cost t) < UMAX) ->
  exists loc idx stored,
    bestTrack tracks cost true wlen wlen2 (fst (availTracks tracks low high))
      (snd (availTracks tracks low high)) = Chosen loc idx stored /\
    candidate tracks low high loc /\ nth (Z.to_nat idx) tracks 0 = loc /\
    ((exists t, candidate tracks low high t /\ snd (cost t) = 0) ->
       exists t, candidate tracks low high t /\ snd (cost t) = 0 /\ fst (cost loc) <= fst (cost t)) /\
    ((forall t, candidate tracks low high t -> snd (cost t) <> 0) ->
       forall t, candidate tracks low high t -> fst (cost loc) <= fst (cost t)).
Proof.
  intros Hs Hex Hmax.
  destruct (best_spec tracks cost true wlen wlen2 low high Hs Hex)
    as (loc & idx & stored & w & E & Hc & Hn & Hin & Hw & (last & Hl1 & Hl2) & Hz & Hmin & Hall).
  { intros t Ht. specialize (Hmax t Ht). lia. }
  exists loc, idx, stored. split; [exact E|]. split; [exact Hc|]. split; [exact Hn|]. split.
  - intros (t & Ht & Z0). destruct Hall as [H0|Hall].
    + exists last. split; [apply Hw, Hl1|]. split; [congruence|]. apply (Hmin last Hl1).
    + exists t. split; [exact Ht|]. split; [exact Z0|]. apply (Hmin t (Hall t Ht)).
  - intros Hnone t Ht. destruct Hall as [H0|Hall]; [|apply (Hmin t (Hall t Ht))].
    exfalso. apply (Hnone last (Hw last Hl1)). congruence.
Qed.
Print Assumptions C44_initial_candidate.

(* four candidates with costs 7, 3, 5, 9: the second is chosen in every search order *)
Definition ex_tracks := [100; 120; 140; 160; 180].
Definition ex_cost (t : Z) : Z * Z :=
  if t =? 100 then (50, 7) else if t =? 120 then (90, 3) else if t =? 140 then (20, 5) else (70, 9).
Example ex_best :
  let p := availTracks ex_tracks 100 180 in
  p = (0, 3) /\
  map (fun '(w, w2) => bestTrack ex_tracks ex_cost false w w2 (fst p) (snd p))
    [(1, None); (0, None); (-1, None); (1, Some 130); (0, Some 130); (-1, Some 130)] =
  [Chosen 120 1 7; Chosen 120 1 7; Chosen 120 1 9; Chosen 120 1 7; Chosen 120 1 7; Chosen 120 1 9].
Proof. vm_compute. auto. Qed.
Example ex_best_hyps :
  sorted_lt ex_tracks /\ (exists t, candidate ex_tracks 100 180 t) /\
  (forall t, candidate ex_tracks 100 180 t -> fst (ex_cost t) < UMAX /\ 0 <= snd (ex_cost t) < UMAX).
Proof.
  split; [|split].
  - unfold ex_tracks. repeat apply sorted_lt_cons; try apply sorted_lt_nil; cbn [In]; intros; lia.
  - exists 120. unfold candidate, ex_tracks. cbn [In]. lia.
  - intros t _. unfold ex_cost, UMAX. zcases; cbn [fst snd]; lia.
Qed.

(* C45: the stored cost is the cost of the track tried last, not of the chosen one: in a repair
   iteration a wrong amount, in the first iteration even 0 for a track with violations *)
Theorem C45_stored_cost_refuted :
  (exists tracks cost wlen wlen2 low high loc idx stored,
    sorted_lt tracks /\
    bestTrack tracks cost false wlen wlen2 (fst (availTracks tracks low high))
      (snd (availTracks tracks low high)) = Chosen loc idx stored /\ stored <> snd (cost loc)) /\
  (exists tracks cost wlen wlen2 low high loc idx,
    sorted_lt tracks /\
    bestTrack tracks cost true wlen wlen2 (fst (availTracks tracks low high))
      (snd (availTracks tracks low high)) = Chosen loc idx 0 /\ snd (cost loc) <> 0).
Proof.
  split.
  - exists ex_tracks, ex_cost, 1, None, 100, 180, 120, 1, 7. split; [apply ex_best_hyps|].
    split; [vm_compute; reflexivity|]. vm_compute. discriminate.
  - exists [100; 120], (fun t => if t =? 100 then (5, 2) else (30, 0)), (-1), None, 100, 140, 100, 0.
    split; [|split; [vm_compute; reflexivity|vm_compute; discriminate]].
    repeat apply sorted_lt_cons; try apply sorted_lt_nil; cbn [In]; intros; lia.
Qed.
Print Assumptions C45_stored_cost_refuted.
(* proved part: in repair iterations the stored cost is zero exactly when the chosen track is clean,
   and it is never less than the cost of the chosen track *)
Theorem C45_stored_cost_partial tracks cost wlen wlen2 low high loc idx stored :
  sorted_lt tracks -> (exists t, candidate tracks low high t) ->
  (forall t, candidate tracks low high t -> fst (cost t) < UMAX /\ 0 <= snd (cost t) < UMAX) ->
  bestTrack tracks cost false wlen wlen2 (fst (availTracks tracks low high))
    (snd (availTracks tracks low high)) = Chosen loc idx stored ->
  (stored = 0 <-> snd (cost loc) = 0) /\ snd (cost loc) <= stored.
Proof.
  intros Hs Hex Hmax E0.
  destruct (best_spec tracks cost false wlen wlen2 low high Hs Hex)
    as (loc' & idx' & stored' & w & E & Hc & Hn & Hin & Hw & (last & Hl1 & Hl2) & Hz & Hmin & Hall).
  { intros t Ht. specialize (Hmax t Ht). lia. }
  rewrite E0 in E. injection E as <- <- <-. cbn in Hmin.
  pose proof (Hmax loc Hc) as Hb. pose proof (Hmin last Hl1) as Hlast. split; [|lia]. split; [lia|].
  apply (Hz loc Hin).
Qed.
Print Assumptions C45_stored_cost_partial.

(* C59: a guide whose gcell contains no track is reported (the program stops with an error).
   False: two of the six search orders start at an index outside the empty range and assign the
   guide to a track outside its gcell; one of them can also read outside the track list. *)
Theorem C59_no_candidate_reported_refuted :
  (exists tracks cost low high loc idx stored,
     sorted_lt tracks /\ (forall t, ~ candidate tracks low high t) /\
     bestTrack tracks cost false 0 None (fst (availTracks tracks low high))
       (snd (availTracks tracks low high)) = Chosen loc idx stored) /\
  (exists tracks cost low high wlen2,
     sorted_lt tracks /\ (forall t, ~ candidate tracks low high t) /\
     bestTrack tracks cost false (-1) wlen2 (fst (availTracks tracks low high))
       (snd (availTracks tracks low high)) = OutOfRange).
Proof.
  assert (S : sorted_lt [100; 200]).
  { repeat apply sorted_lt_cons; try apply sorted_lt_nil; cbn [In]; intros; lia. }
  split.
  - exists [100; 200], (fun _ => (0, 0)), 120, 180, 100, 0, 0. split; [exact S|]. split.
    + intros t [H1 H2]. cbn [In] in H1. lia.
    + vm_compute. reflexivity.
  - exists [100; 200], (fun _ => (0, 0)), 220, 280, (Some 250). split; [exact S|]. split.
    + intros t [H1 H2]. cbn [In] in H1. lia.
    + vm_compute. reflexivity.
Qed.
Print Assumptions C59_no_candidate_reported_refuted.
(* proved part: the other search orders do report it *)
Theorem C59_no_candidate_reported_partial tracks cost init wlen wlen2 low high :
  sorted_lt tracks -> low <= high -> (forall t, ~ candidate tracks low high t) ->
  (match wlen2 with Some _ => 0 <= wlen | None => wlen <> 0 end) ->
  bestTrack tracks cost init wlen wlen2 (fst (availTracks tracks low high))
    (snd (availTracks tracks low high)) = NoTrack.
Proof.
  intros Hs Hlh Hnone Hw. set (p := availTracks tracks low high) in *.
  assert (He : snd p < fst p).
  { destruct (Z.lt_ge_cases (snd p) (fst p)) as [L|G]; [exact L|]. exfalso.
    pose proof (candidates_idx tracks low high (fst p) Hs) as [Q _]. fold p in Q.
    specialize (Q ltac:(lia)). apply (Hnone (nth (Z.to_nat (fst p)) tracks 0)).
    split; [apply nth_In; lia|apply Q]. }
  unfold bestTrack. destruct wlen2 as [coord|].
  - destruct (wlen >? 0) eqn:E1.
    + rewrite up_empty by lia. reflexivity.
    + replace (wlen =? 0) with true by lia. rewrite up_empty by lia. reflexivity.
  - destruct (wlen >? 0) eqn:E1.
    + rewrite down_empty by lia. reflexivity.
    + replace (wlen =? 0) with false by lia. rewrite up_empty by lia. reflexivity.
Qed.
Print Assumptions C59_no_candidate_reported_partial.
Example ex_no_candidate :
  bestTrack [100; 200] (fun _ => (0, 0)) false 1 None (fst (availTracks [100; 200] 120 180))
    (snd (availTracks [100; 200] 120 180)) = NoTrack.
Proof. vm_compute. reflexivity. Qed.

(* C46: the loop ends, and no guide is assigned more often than the retry limit.  [U] is any finite
   set containing the worker's guides and every guide the queries can return. *)
Theorem C46_terminates W place init maxRetry w c iroutes U fuel :
  0 <= maxRetry -> incl iroutes U ->
  (forall w i j, In j (map fst (snd (place w i))) -> In j U) ->
  ((length U * Z.to_nat maxRetry + 1) * S (length U) <= fuel)%nat ->
  exists s, assign W place init maxRetry fuel w c iroutes = Some s /\
    tQueue W s = [] /\
    (forall i, Z.of_nat (count_occ Nat.eq_dec (tLog W s) i) <= maxRetry) /\
    (forall i, In i (tLog W s) -> In i U).
Proof.
  intros Hm Hi HU Hf.
  destruct (assign_ind W place U HU init maxRetry w c iroutes fuel
    (fun s => forall i, In i (tLog W s) -> In i U)) as (s & E & Hq & (C1 & C2 & _) & Hp); try assumption.
  - cbn [start tLog]. intros i [].
  - intros s i Hp _ [_ Hwf] Hin.
    destruct (turn_cases W place init maxRetry s i) as [[_ ->]|[_ (w' & stored & others & _ & ->)]].
    + exact Hp.
    + set (s0 := mkT W w' _ _ _ _ _ _).
      destruct (update_others_frame W init maxRetry others s0) as (_ & _ & _ & F4).
      cbv zeta. cbn [tLog]. rewrite F4. cbn [s0 tLog]. intros j [<- |Hj]; [apply Hwf, Hin|apply Hp, Hj].
  - exists s. split; [exact E|]. split; [exact Hq|]. split; [|exact Hp].
    intros i. rewrite C1. specialize (C2 i). lia.
Qed.
Print Assumptions C46_terminates.

(* C61: the first iteration assigns every guide of the panel exactly once *)
Theorem C61_initial_assigns_all W place w c iroutes U fuel :
  NoDup iroutes -> incl iroutes U ->
  (forall w i j, In j (map fst (snd (place w i))) -> In j U) ->
  ((length U + 1) * S (length U) <= fuel)%nat ->
  exists s, assign W place true 1 fuel w c iroutes = Some s /\ Permutation (tLog W s) iroutes.
Proof.
  intros Hn Hi HU Hf. apply (assign_init_spec W place U HU w c iroutes fuel Hn Hi). lia.
Qed.
Print Assumptions C61_initial_assigns_all.

(* C62: after a repair iteration every guide that still has a violation cost has been re-assigned,
   once *)
Theorem C62_violations_tried W place w c iroutes U fuel :
  incl iroutes U -> (forall i, c i <> 0 -> In i iroutes) ->
  (forall w i j, In j (map fst (snd (place w i))) -> In j U) ->
  ((length U + 1) * S (length U) <= fuel)%nat ->
  exists s, assign W place false 1 fuel w c iroutes = Some s /\ NoDup (tLog W s) /\
    forall i, tCost W s i <> 0 -> In i (tLog W s).
Proof.
  intros Hi Hc HU Hf. apply (assign_repair_spec W place U HU w c iroutes fuel Hi Hc). lia.
Qed.
Print Assumptions C62_violations_tried.

(* three guides; moving guide 0 disturbs guide 1, moving guide 1 clears guide 2 *)
Definition ex_place (w : Z) (i : nat) : Z * Z * list (nat * Z) :=
  match i with
  | O => (w + 1, 0, [(1%nat, 4)])
  | S O => (w + 1, 4, [(2%nat, 0); (O, 6)])
  | _ => (w + 1, 1, [])
  end.
Example ex_assign :
  match assign Z ex_place false 1 16 0 (fun i => if Nat.ltb i 1 then 5 else if Nat.eqb i 2 then 3 else 0)
          [0; 1; 2]%nat with
  | Some s => (rev (tLog Z s), map (tCost Z s) [0; 1; 2]%nat)
  | None => ([], [])
  end = ([0; 1]%nat, [6; 4; 0]) /\
  match assign Z ex_place true 1 16 0 (fun _ => 7) [0; 1; 2]%nat with
  | Some s => rev (tLog Z s) | None => [] end = [0; 1; 2]%nat.
Proof. vm_compute. auto. Qed.
Example ex_assign_hyp : forall w i j, In j (map fst (snd (ex_place w i))) -> In j [0; 1; 2]%nat.
Proof.
  intros w [|[|i]] j; cbn; intuition.
Qed.

(* C47: the interval charged for a wire is not exact as soon as two tracks are in reach: the box of
   the default wire is moved on from its previous place instead of from the origin *)
Theorem C47_planar_exact_refuted :
  (exists isH req hw tracks b cs x loc,
     normalised b /\ 0 <= hw /\ sorted_lt tracks /\ 0 < req (box_length b) /\
     planar_charges isH req hw tracks b = Some cs /\ In loc tracks /\
     closer b (moved (wire_end hw) (on_track isH x loc)) (req (box_length b)) /\
     ~ charged_at cs (on_track isH x loc)) /\
  (exists isH req hw tracks b,
     normalised b /\ 0 <= hw /\ sorted_lt tracks /\ 0 < req (box_length b) /\
     planar_charges isH req hw tracks b = None).
Proof.
  split.
  - exists true, (fun _ => 10), 1, [5; 15], (mkBox (mkPt 0 0) (mkPt 100 10)).
    exists [mkBox (mkPt (-10) 5) (mkPt 110 5); mkBox (mkPt (-5) 15) (mkPt 105 15)], 108, 15.
    split; [unfold normalised; cbn; lia|]. split; [lia|]. split.
    { repeat apply sorted_lt_cons; try apply sorted_lt_nil; cbn [In]; intros; lia. }
    split; [lia|]. split; [vm_compute; reflexivity|]. split; [right; left; reflexivity|]. split.
    + exists (mkPt 100 10), (mkPt 107 14). vm_compute. intuition discriminate.
    + intros (c & [<- |[<- |[]]] & [H1 H2]); cbn in H1, H2; lia.
  - exists true, (fun _ => 10), 1, [1005; 1015], (mkBox (mkPt 0 1000) (mkPt 100 1010)).
    split; [unfold normalised; cbn; lia|]. split; [lia|]. split.
    { repeat apply sorted_lt_cons; try apply sorted_lt_nil; cbn [In]; intros; lia. }
    split; [lia|]. vm_compute. reflexivity.
Qed.
Print Assumptions C47_planar_exact_refuted.
(* proved part: exact when at most one track is within reach of the shape *)
Theorem C47_planar_exact_partial isH req hw tracks b :
  normalised b -> 0 <= hw -> sorted_lt tracks -> 0 < req (box_length b) ->
  (forall t t', In t tracks -> In t' tracks ->
     fst (across isH b) - req (box_length b) - hw < t < snd (across isH b) + req (box_length b) + hw ->
     fst (across isH b) - req (box_length b) - hw < t' < snd (across isH b) + req (box_length b) + hw ->
     t = t') ->
  exists cs, planar_charges isH req hw tracks b = Some cs /\
    forall x loc, In loc tracks ->
      (charged_at cs (on_track isH x loc) <->
       closer b (moved (wire_end hw) (on_track isH x loc)) (req (box_length b))).
Proof. apply planar_charges_single. Qed.
Print Assumptions C47_planar_exact_partial.
Example ex_planar :
  planar_charges false (fun _ => 10) 1 [-40; 5; 60] (mkBox (mkPt 0 20) (mkPt 10 100)) =
    Some [mkBox (mkPt 5 10) (mkPt 5 110)].
Proof. vm_compute. reflexivity. Qed.

(* C58: for vias the charged positions are exactly those where the via would be closer to the shape
   than the spacing required for their longest parallel run *)
Theorem C58_via_exact isH isWire req tracks b via :
  normalised b -> normalised via -> sorted_lt tracks ->
  (forall r, 0 <= req r) -> (forall r r', r <= r' -> req r <= req r') ->
  exists cs, via_charges isH isWire req tracks b via = Some cs /\
    forall x loc run, In loc tracks -> longest_run isH isWire b via loc run ->
      (charged_at cs (on_track isH x loc) <-> closer b (moved via (on_track isH x loc)) (req run)).
Proof. apply via_charges_spec. Qed.
Print Assumptions C58_via_exact.
Example ex_via :
  via_charges true false (fun r => if r <? 30 then 5 else 10) [0; 14; 16; 30]
    (mkBox (mkPt 0 0) (mkPt 100 10)) (mkBox (mkPt (-20) (-3)) (mkPt 20 3)) =
  Some [mkBox (mkPt (-24) 0) (mkPt 124 0); mkBox (mkPt (-29) 14) (mkPt 129 14);
        mkBox (mkPt (-29) 16) (mkPt 129 16)].
Proof. vm_compute. reflexivity. Qed.

(* C60: ripping a guide up removes exactly the costs that placing it added, whatever else was
   charged in between *)
Theorem C60_ripup_restores V (eqb : V -> V -> bool) :
  (forall a b, eqb a b = true <-> a = b) ->
  forall own others before,
    Permutation (sub_all V eqb own (add_all V others (add_all V own before)))
                (add_all V others before).
Proof.
  intros Heq own others before. apply sub_all_perm; [exact Heq|].
  rewrite !add_all_perm. rewrite !app_assoc. apply Permutation_app_tail, Permutation_app_comm.
Qed.
Print Assumptions C60_ripup_restores.
Example ex_ripup :
  sub_all Z Z.eqb [3; 5; 3] (add_all Z [7; 3] (add_all Z [3; 5; 3] [9; 5])) = [7; 3; 9; 5].
Proof. vm_compute. reflexivity. Qed.
