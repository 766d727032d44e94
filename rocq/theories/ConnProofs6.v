(* Clean-up of a connected net: deletion, splitting at pins, shrinking. *)
From Verif Require Import Base GeomModel TreeModel TreeSpec ConnModel ConnSpec ConnProofs3 ConnProofs4 ConnProofs5.
From Coq Require Import Sorted.

(* ---- invariants of the node map *)
Lemma split_helper_inv (P : nmap -> Prop) : (forall k i m, P m -> P (nm_ins k i m)) -> forall p t c l h m, P m -> P (split_helper p t c l h m).
Proof. intros HP p t c l h m H. unfold split_helper. destruct (mh_lower l t c h) as [[e [b i]]|]; [|assumption]. destruct (_ && _); auto. Qed.
Lemma nodeMap_inv (P : nmap -> Prop) : P [] -> (forall k i m, P m -> P (nm_ins k i m)) -> forall objs pins, P (nodeMap objs pins).
Proof.
  intros P0 HP objs pins. unfold nodeMap.
  assert (A : forall pins n m, P m -> P (nm_pins n pins m)).
  { clear pins. induction pins as [|[id s] r IH]; intros n m Hm; cbn [nm_pins]; [assumption|]. apply IH. clear -HP Hm. revert m Hm. induction s as [|k s IHs]; intros m Hm; cbn; auto. }
  apply A. unfold routeObjSplit. destruct (fold_left mh_fill (numbered objs) ([], [])) as [hz vt].
  assert (B : forall L m, P m -> P (fold_left (nm_split hz vt) L m)).
  { induction L as [|o L IH]; intros m Hm; cbn [fold_left]; [assumption|]. apply IH. destruct o as [bp ep l tb te|p l1 l2]; cbn [nm_split]; [destruct (px bp =? px ep)|]; repeat (apply split_helper_inv; [assumption|]); assumption. }
  apply B. unfold routeObjEnd.
  assert (C : forall L m, P m -> P (fold_left nm_end L m)).
  { induction L as [|[i o] L IH]; intros m Hm; cbn [fold_left]; [assumption|]. apply IH. destruct o; cbn; auto. }
  apply C. assumption.
Qed.
Lemma nset_ins_sorted i s : StronglySorted lt s -> StronglySorted lt (nset_ins i s).
Proof.
  induction 1 as [|a s Hs IH Ha]; cbn [nset_ins]; [repeat constructor|].
  destruct (Nat.ltb_spec i a); [constructor; [constructor; assumption|constructor; [assumption|eapply Forall_impl; [|exact Ha]; cbn; lia]]|].
  destruct (Nat.eqb_spec i a); [constructor; assumption|]. constructor; [assumption|]. apply Forall_forall. intros j Hj. apply nset_ins_in in Hj as [->|Hj]; [lia|]. rewrite Forall_forall in Ha. auto.
Qed.
Lemma nodeMap_sorted objs pins : forall e, In e (nodeMap objs pins) -> StronglySorted lt (snd e).
Proof.
  apply (nodeMap_inv (fun m => forall e, In e m -> StronglySorted lt (snd e))); [intros e []|]. intros k i m Hm. induction m as [|[k0 s] m IH]; cbn [nm_ins].
  - intros e [<-|[]]. repeat constructor.
  - destruct (loc_eqb k k0); intros e [<-|He].
    + cbn. apply nset_ins_sorted. apply (Hm (k0, s)). cbn. auto.
    + apply Hm. cbn. auto.
    + apply Hm. cbn. auto.
    + apply IH; [|assumption]. intros e' He'. apply Hm. cbn. auto.
Qed.
Lemma sorted_nodup s : StronglySorted lt s -> NoDup s.
Proof. induction 1 as [|a s Hs IH Ha]; constructor; [|assumption]. intros Hi. rewrite Forall_forall in Ha. specialize (Ha a Hi). lia. Qed.

(* ---- positions of survivors *)
Lemma live_pos (l : list (option robj)) : exists f, (forall b o, nth_error (live l) b = Some o -> nth (f b) l None = Some o) /\
  (forall i o, nth i l None = Some o -> exists b, f b = i /\ nth_error (live l) b = Some o).
Proof.
  induction l as [|[a|] l (f & F1 & F2)]; cbn [live].
  - exists (fun i => i). split; [intros [|b] o H; discriminate|intros [|i] o H; discriminate].
  - exists (fun i => match i with O => O | S i => S (f i) end). split.
    + intros [|b] o H; cbn in *; [assumption|auto].
    + intros [|i] o H; cbn in *; [exists 0%nat; auto|]. destruct (F2 i o H) as (b & <- & Hb). exists (S b). auto.
  - exists (fun i => S (f i)). split; [intros b o H; cbn; auto|]. intros [|i] o H; cbn in H; [discriminate|]. destruct (F2 i o H) as (b & <- & Hb). exists b. auto.
Qed.

(* ---- points on a line *)
Definition seg_line (o : robj) : Prop := (* axis-parallel, possibly a single point *)
  match o with RSeg bp ep _ _ _ => (px bp = px ep /\ py bp <= py ep) \/ (py bp = py ep /\ px bp <= px ep) | RVia _ _ _ => True end.
Lemma pt_lt_spec a b : pt_lt a b = true <-> px a < px b \/ (px a = px b /\ py a < py b).
Proof. unfold pt_lt. destruct (Z.eqb_spec (px a) (px b)); lia. Qed.
Lemma pt_ext a b : px a = px b -> py a = py b -> a = b.
Proof. destruct a, b; cbn; congruence. Qed.
Definition pt_le (a b : point) : Prop := px a < px b \/ (px a = px b /\ py a <= py b).
Lemma pt_min_spec l d : (pt_min l d = d \/ exists k, In k l /\ fst k = pt_min l d) /\ pt_le (pt_min l d) d /\ forall k, In k l -> pt_le (pt_min l d) (fst k).
Proof.
  induction l as [|a l (I1 & I2 & I3)]; cbn [pt_min fold_right]; [unfold pt_le; split; [auto|split; [lia|intros k []]]|].
  fold (pt_min l d). pose proof (pt_lt_spec (fst a) (pt_min l d)) as L. destruct (pt_lt (fst a) (pt_min l d)).
  - unfold pt_le in *. split; [right; exists a; cbn; auto|]. split; [lia|]. intros k [<-|Hk]; [lia|]. specialize (I3 k Hk). lia.
  - assert (N : ~ (px (fst a) < px (pt_min l d) \/ px (fst a) = px (pt_min l d) /\ py (fst a) < py (pt_min l d))) by (rewrite <- L; discriminate). unfold pt_le in *.
    split; [destruct I1 as [?|(k & ? & ?)]; [auto|right; exists k; cbn; auto]|]. split; [assumption|]. intros k [<-|Hk]; [lia|]. specialize (I3 k Hk). lia.
Qed.
Lemma pt_max_spec l d : (pt_max l d = d \/ exists k, In k l /\ fst k = pt_max l d) /\ pt_le d (pt_max l d) /\ forall k, In k l -> pt_le (fst k) (pt_max l d).
Proof.
  induction l as [|a l (I1 & I2 & I3)]; cbn [pt_max fold_right]; [unfold pt_le; split; [auto|split; [lia|intros k []]]|].
  fold (pt_max l d). pose proof (pt_lt_spec (pt_max l d) (fst a)) as L. destruct (pt_lt (pt_max l d) (fst a)).
  - unfold pt_le in *. split; [right; exists a; cbn; auto|]. split; [lia|]. intros k [<-|Hk]; [lia|]. specialize (I3 k Hk). lia.
  - assert (N : ~ (px (pt_max l d) < px (fst a) \/ px (pt_max l d) = px (fst a) /\ py (pt_max l d) < py (fst a))) by (rewrite <- L; discriminate). unfold pt_le in *.
    split; [destruct I1 as [?|(k & ? & ?)]; [auto|right; exists k; cbn; auto]|]. split; [assumption|]. intros k [<-|Hk]; [lia|]. specialize (I3 k Hk). lia.
Qed.
(* o is a part of o0 *)
Definition part_of (o o0 : robj) : Prop :=
  match o, o0 with
  | RSeg bp ep l _ _, RSeg bp0 ep0 l0 _ _ => l = l0 /\ px bp0 <= px bp /\ px ep <= px ep0 /\ py bp0 <= py bp /\ py ep <= py ep0
  | RVia _ _ _, RVia _ _ _ => o = o0
  | _, _ => False
  end.
(* shrinking keeps exactly the range of the shared locations *)
Lemma shrink_spec o R : seg_line o -> (forall k, In k R -> lies_on o k) ->
  exists o', shrink (Some (o, R)) = Some o' /\ seg_line o' /\ part_of o' o /\ (forall k, In k R -> lies_on o' k) /\
   (R <> [] -> forall k, (match o' with RSeg _ _ _ _ _ => is_end o' k | _ => False end) -> In k R).
Proof.
  intros W HR. destruct o as [bp ep l tb te|p l1 l2].
  2:{ exists (RVia p l1 l2). cbn [shrink]. split; [reflexivity|]. split; [exact I|]. split; [reflexivity|]. split; [assumption|]. intros _ k []. }
  destruct R as [|k0 r].
  { exists (RSeg bp ep l tb te). cbn [shrink]. split; [reflexivity|]. split; [assumption|]. split; [cbn; lia|]. split; [intros k []|congruence]. }
  cbn [shrink].
  destruct (pt_min_spec r (fst k0)) as (M1 & M2 & M3). destruct (pt_max_spec r (fst k0)) as (X1 & X2 & X3).
  set (mn := pt_min r (fst k0)) in *. set (mx := pt_max r (fst k0)) in *.
  assert (Lmn : exists k, In k (k0 :: r) /\ fst k = mn) by (destruct M1 as [E|(k & ? & ?)]; [exists k0; cbn; auto|exists k; cbn; auto]).
  assert (Lmx : exists k, In k (k0 :: r) /\ fst k = mx) by (destruct X1 as [E|(k & ? & ?)]; [exists k0; cbn; auto|exists k; cbn; auto]).
  destruct Lmn as (kn & In_n & En). destruct Lmx as (kx & In_x & Ex).
  pose proof (HR kn In_n) as Hn. pose proof (HR kx In_x) as Hx. cbn in Hn, Hx, W. rewrite En in Hn. rewrite Ex in Hx.
  assert (Le : forall k, In k (k0 :: r) -> pt_le mn (fst k) /\ pt_le (fst k) mx) by (intros k [<-|Hk]; auto).
  assert (Kn : kn = (mn, l)) by (destruct kn as [a b]; cbn in *; f_equal; tauto).
  assert (Kx : kx = (mx, l)) by (destruct kx as [a b]; cbn in *; f_equal; tauto).
  pose proof (Le kx In_x) as [Lnx _]. rewrite Ex in Lnx. unfold pt_le in Lnx, Le.
  pose proof (pt_lt_spec bp mn) as P1. pose proof (pt_lt_spec mx ep) as P2.
  destruct (pt_lt bp mn || pt_lt mx ep) eqn:E.
  - exists (RSeg mn mx l tb te). split; [reflexivity|]. split; [cbn; lia|]. split; [cbn; lia|]. split.
    + intros k Hk. specialize (HR k Hk). specialize (Le k Hk). cbn in *. lia.
    + intros _ k [-> | ->]; [rewrite <- Kn; assumption|rewrite <- Kx; assumption].
  - apply orb_false_iff in E as [E1 E2].
    assert (N1 : ~ (px bp < px mn \/ px bp = px mn /\ py bp < py mn)) by (rewrite <- P1; congruence).
    assert (N2 : ~ (px mx < px ep \/ px mx = px ep /\ py mx < py ep)) by (rewrite <- P2; congruence).
    assert (bp = mn) by (apply pt_ext; lia). assert (ep = mx) by (apply pt_ext; lia).
    exists (RSeg bp ep l tb te). split; [reflexivity|]. split; [assumption|]. split; [cbn; lia|]. split; [assumption|].
    intros _ k [-> | ->]; [replace bp with mn; rewrite <- Kn; assumption|replace ep with mx; rewrite <- Kx; assumption].
Qed.

Section Final.
Variable pins_at : point -> Z -> list Z.
Variable objs : list robj.
Hypothesis ok : Forall wire_ok objs.
Hypothesis apart : no_overlap objs.
Let pins := pin2epMap pins_at objs.
Let gCnt := length objs.
Let nm := nodeMap objs pins.
Variable K : nat -> bool.
Let m := nm_erase K nm.
Let R0 := rev_at m.

Lemma R0_in i k : In k (R0 i) <-> exists s, In (k, s) nm /\ In i s /\ K i = true /\ length (filter K s) <> 1%nat.
Proof.
  unfold R0, rev_at, m, nm_erase. rewrite in_flat_map. split.
  - intros (e & He & Hk). apply in_map_iff in He as ([k0 s] & <- & Hs). cbn [fst snd] in Hk. destruct (Nat.eqb_spec (length (filter K s)) 1); [destruct Hk|].
    destruct (existsb (Nat.eqb i) (filter K s)) eqn:E; [|destruct Hk]. destruct Hk as [<-|[]]. apply existsb_exists in E as (j & Hj & Ej). apply Nat.eqb_eq in Ej. subst j. apply filter_In in Hj as [Hj Kj]. exists s. auto.
  - intros (s & Hs & Hi & Ki & Hl). exists (k, filter K s). split; [apply in_map_iff; exists (k, s); auto|]. cbn [fst snd]. apply Nat.eqb_neq in Hl. rewrite Hl.
    replace (existsb (Nat.eqb i) (filter K s)) with true; [cbn; auto|]. symmetry. apply existsb_exists. exists i. split; [apply filter_In; auto|apply Nat.eqb_refl].
Qed.
Lemma R0_at i k : In k (R0 i) -> K i = true /\ at_node nm k i.
Proof. rewrite R0_in. intros (s & Hs & Hi & Ki & _). split; [assumption|]. exists s. auto. Qed.
Lemma R0_shared i j k : i <> j -> K i = true -> K j = true -> at_node nm k i -> at_node nm k j -> In k (R0 i).
Proof.
  intros Hn Ki Kj (s & Hs & Hi) (s' & Hs' & Hj). apply R0_in. exists s. split; [assumption|]. split; [assumption|]. split; [assumption|].
  assert (s' = s) as ->.
  { pose proof (nm_is_ok pins_at objs) as Hm. fold pins in Hm. fold nm in Hm. unfold nm_ok in Hm. clear -Hm Hs Hs'. induction nm as [|[k0 s0] r IH]; [destruct Hs|]. cbn in Hm. inversion Hm as [|? ? Hn Hd]; subst.
    destruct Hs as [E|Hs], Hs' as [E'|Hs']; [congruence| | |auto].
    - injection E as -> ->. exfalso. apply Hn. apply (in_map fst) in Hs'. assumption.
    - injection E' as -> ->. exfalso. apply Hn. apply (in_map fst) in Hs. assumption. }
  intros L. assert (Fi : In i (filter K s)) by (apply filter_In; auto). assert (Fj : In j (filter K s)) by (apply filter_In; auto).
  destruct (filter K s) as [|a [|b r]]; cbn in *; lia.
Qed.
Lemma R0_other i k : In k (R0 i) -> exists j, j <> i /\ K j = true /\ at_node nm k j.
Proof.
  rewrite R0_in. intros (s & Hs & Hi & Ki & Hl).
  assert (Hn : NoDup (filter K s)) by (apply NoDup_filter, sorted_nodup; apply (nodeMap_sorted objs pins (k, s)); assumption).
  assert (Fi : In i (filter K s)) by (apply filter_In; auto).
  assert (exists j, j <> i /\ In j (filter K s)) as (j & Hj & Fj).
  { destruct (filter K s) as [|a [|b r]]; cbn in *; [contradiction|lia|]. inversion Hn as [|? ? Ha Hd]; subst. destruct (Nat.eq_dec a i) as [->|]; [exists b; split; [intros ->; apply Ha; cbn; auto|auto]|exists a; auto]. }
  apply filter_In in Fj as [Fj Kj]. exists j. split; [assumption|]. split; [assumption|]. exists s. auto.
Qed.
Lemma R0_lies i k o : In k (R0 i) -> nth_error objs i = Some o -> lies_on o k.
Proof.
  intros Hk Ho. apply R0_at in Hk as [_ Hk]. apply (node_at pins_at objs ok apart) in Hk as (_ & _ & Hi).
  assert (L : (i < length objs)%nat) by (apply nth_error_Some; congruence). unfold item_of in Hi. replace (i <? length objs)%nat with true in Hi by (symmetry; apply Nat.ltb_lt; assumption).
  destruct Hi as (o' & E & H). congruence.
Qed.

(* ---- the splits *)
Lemma split_of_in e k i : In (k, i) (split_of objs e) -> k = fst e /\ In i (snd e) /\ (i < gCnt)%nat /\
  (exists n, In n (snd e) /\ (gCnt <= n)%nat) /\ (forall w, In w (snd e) -> (w < gCnt)%nat -> ends_at objs k w = false).
Proof.
  unfold split_of. fold gCnt. destruct (existsb (fun j => (gCnt <=? j)%nat) (snd e) && negb _) eqn:E; [|intros []].
  apply andb_true_iff in E as [E1 E2]. apply negb_true_iff in E2.
  destruct (rev (filter (fun j => (j <? gCnt)%nat) (snd e))) as [|w r] eqn:Er; [intros []|]. intros [H|[]]. injection H as <- <-.
  assert (Hw : In w (filter (fun j => (j <? gCnt)%nat) (snd e))) by (apply in_rev; rewrite Er; cbn; auto). apply filter_In in Hw as [Hw1 Hw2].
  split; [reflexivity|]. split; [assumption|]. split; [apply Nat.ltb_lt; assumption|]. split.
  - apply existsb_exists in E1 as (n & Hn & Ln). exists n. split; [assumption|]. apply Nat.leb_le. assumption.
  - intros v Hv Lv. destruct (ends_at objs (fst e) v) eqn:Ev; [|reflexivity]. assert (X : existsb (ends_at objs (fst e)) (filter (fun j => (j <? gCnt)%nat) (snd e)) = true); [|congruence].
    apply existsb_exists. exists v. split; [apply filter_In; split; [assumption|apply Nat.ltb_lt; assumption]|assumption].
Qed.
Lemma split_ins_in x l y : In y (split_ins x l) <-> y = x \/ In y l.
Proof. induction l as [|a l IH]; cbn [split_ins]; [cbn; intuition|]. destruct (loc_lt (fst x) (fst a)); cbn [In]; [rewrite IH|]; intuition. Qed.
Lemma psSplits_in x : In x (psSplits objs m) <-> exists e, In e m /\ In x (split_of objs e).
Proof.
  unfold psSplits. rewrite <- in_flat_map. induction (flat_map (split_of objs) m) as [|a l IH]; cbn [fold_right]; [reflexivity|]. rewrite split_ins_in, IH. cbn. intuition.
Qed.
Lemma psSplits_spec k i : In (k, i) (psSplits objs m) -> In k (R0 i) /\ (i < gCnt)%nat /\ exists n, (gCnt <= n)%nat /\ K n = true /\ at_node nm k n.
Proof.
  rewrite psSplits_in. intros (e & He & Hx). apply split_of_in in Hx as (-> & Hi & Li & (n & Hn & Ln) & _).
  unfold m, nm_erase in He. apply in_map_iff in He as ([k s] & <- & Hs). cbn [fst snd] in *. apply filter_In in Hi as [Hi Ki]. apply filter_In in Hn as [Hn Kn].
  split; [|split; [assumption|]].
  - apply (R0_shared i n k); auto; [lia|exists s; auto|exists s; auto].
  - exists n. split; [assumption|]. split; [assumption|]. exists s. auto.
Qed.
(* from the right: later splits of the same wire are further left *)
Definition ordered (l : list (loc * nat)) : Prop := ForallOrdPairs (fun x y => loc_lt (fst x) (fst y) = false) l.
Lemma loc_lt_trans a b c : loc_lt a b = false -> loc_lt b c = false -> loc_lt a c = false.
Proof.
  unfold loc_lt, pt_lt, pt_eq. intros H1 H2. destruct a as [[a1 a2] a3], b as [[b1 b2] b3], c as [[c1 c2] c3]. cbn in *.
  destruct (a1 =? b1) eqn:?, (a2 =? b2) eqn:?, (b1 =? c1) eqn:?, (b2 =? c2) eqn:?, (a1 =? c1) eqn:?, (a2 =? c2) eqn:?; cbn in *; lia.
Qed.
Lemma loc_lt_asym a b : loc_lt a b = true -> loc_lt b a = false.
Proof.
  unfold loc_lt, pt_lt, pt_eq. intros H1. destruct a as [[a1 a2] a3], b as [[b1 b2] b3]. cbn in *.
  destruct (a1 =? b1) eqn:?, (a2 =? b2) eqn:?, (b1 =? a1) eqn:?, (b2 =? a2) eqn:?; cbn in *; lia.
Qed.
Lemma split_ins_ordered x l : ordered l -> ordered (split_ins x l).
Proof.
  unfold ordered. induction 1 as [|a l Ha Hl IH]; cbn [split_ins]; [repeat constructor|]. destruct (loc_lt (fst x) (fst a)) eqn:E.
  - constructor; [|assumption]. apply Forall_forall. intros y Hy. apply split_ins_in in Hy as [->|Hy]; [apply loc_lt_asym; assumption|]. rewrite Forall_forall in Ha. auto.
  - constructor; [|constructor; assumption]. constructor; [assumption|]. apply Forall_forall. intros y Hy. rewrite Forall_forall in Ha. eapply loc_lt_trans; [exact E|apply Ha; assumption].
Qed.
Lemma psSplits_ordered : ordered (psSplits objs m).
Proof. unfold psSplits. induction (flat_map (split_of objs) m); cbn; [constructor|apply split_ins_ordered; assumption]. Qed.

(* ---- the state while splitting *)
Inductive keq (fs : list fobj) (k : loc) : loc -> Prop :=
| keq_refl : keq fs k k
| keq_step k' k'' j o R : keq fs k k' -> nth j fs None = Some (o, R) -> In k' R -> In k'' R -> keq fs k k''.
Record finv (fs : list fobj) (g : nat -> nat) (rest : list (loc * nat)) : Prop := {
  f_entry : forall j o R, nth j fs None = Some (o, R) -> exists o0, nth_error objs (g j) = Some o0 /\ K (g j) = true /\
     incl R (R0 (g j)) /\ (forall k, In k R -> lies_on o k) /\ seg_line o /\ part_of o o0 /\ (R0 (g j) <> [] -> R <> []);
  f_all : forall i k, (i < gCnt)%nat -> K i = true -> In k (R0 i) -> exists j o R, nth j fs None = Some (o, R) /\ g j = i /\ In k R;
  f_conn : forall i k k', (i < gCnt)%nat -> In k (R0 i) -> In k' (R0 i) -> keq fs k k';
  f_rest : forall k i, In (k, i) rest -> exists o R, nth i fs None = Some (o, R) /\ g i = i /\ In k R;
  f_kept : forall i, (i < gCnt)%nat -> K i = true -> exists j o R, nth j fs None = Some (o, R) /\ g j = i
}.
Let fs0 : list fobj := map (fun x => if K (fst x) then Some (snd x, R0 (fst x)) else None) (numbered objs).
Lemma fs0_nth j : nth j fs0 None = match nth_error objs j with Some o => if K j then Some (o, R0 j) else None | None => None end.
Proof.
  unfold fs0. assert (H : nth_error (numbered objs) j = match nth_error objs j with Some o => Some (j, o) | None => None end).
  { unfold numbered. clear. enough (H : forall k, nth_error (combine (seq k (length objs)) objs) j = match nth_error objs j with Some o => Some ((k + j)%nat, o) | None => None end) by (rewrite H; reflexivity).
    revert j. induction objs as [|a l IH]; intros [|j] k; cbn; auto; [rewrite Nat.add_0_r; reflexivity|]. rewrite IH. destruct (nth_error l j); [do 2 f_equal; lia|reflexivity]. }
  destruct (nth_error objs j) as [o|] eqn:E.
  - erewrite nth_error_nth; [reflexivity|]. rewrite (map_nth_error _ _ _ H). reflexivity.
  - rewrite nth_overflow; [reflexivity|]. rewrite map_length. apply nth_error_None. assumption.
Qed.
Lemma wire_line o : wire_ok o -> seg_line o.
Proof. destruct o; cbn; lia. Qed.
Lemma part_refl o : wire_ok o -> part_of o o.
Proof. destruct o; cbn; [lia|auto]. Qed.
Lemma finv0 : finv fs0 (fun j => j) (psSplits objs m).
Proof.
  split.
  - intros j o R. rewrite fs0_nth. destruct (nth_error objs j) as [o0|] eqn:E; [|discriminate]. destruct (K j) eqn:Kj; [|discriminate]. intros H. injection H as <- <-.
    exists o0. pose proof (net_ok objs ok j o0 E) as W. repeat split; auto; [intros k Hk; exact Hk|intros k Hk; eapply R0_lies; eauto|apply wire_line; assumption|apply part_refl; assumption].
  - intros i k Li Ki Hk. destruct (nth_error objs i) as [o|] eqn:E; [|apply nth_error_None in E; unfold gCnt in Li; lia]. exists i, o, (R0 i). rewrite fs0_nth, E, Ki. auto.
  - intros i k k' Li Hk Hk'. destruct (nth_error objs i) as [o|] eqn:E; [|apply nth_error_None in E; unfold gCnt in Li; lia].
    assert (Ki : K i = true) by (apply R0_at in Hk; tauto). eapply keq_step; [apply keq_refl| |exact Hk|exact Hk']. rewrite fs0_nth, E, Ki. reflexivity.
  - intros k i H. apply psSplits_spec in H as (Hk & Li & _). destruct (nth_error objs i) as [o|] eqn:E; [|apply nth_error_None in E; unfold gCnt in Li; lia].
    assert (Ki : K i = true) by (apply R0_at in Hk; tauto). exists o, (R0 i). rewrite fs0_nth, E, Ki. auto.
  - intros i Li Ki. destruct (nth_error objs i) as [o|] eqn:E; [|apply nth_error_None in E; unfold gCnt in Li; lia]. exists i, o, (R0 i). rewrite fs0_nth, E, Ki. auto.
Qed.
Lemma nth_app_set {A} (l : list A) i v w j d : (i < length l)%nat -> nth j (set_nth i v l ++ [w]) d = if Nat.eqb j i then v else if Nat.eqb j (length l) then w else nth j l d.
Proof.
  intros Hi. destruct (Nat.lt_ge_cases j (length l)) as [L|L].
  - rewrite app_nth1 by (rewrite set_nth_length; assumption). rewrite set_nth_nth by assumption. destruct (Nat.eqb j i); [reflexivity|]. replace (Nat.eqb j (length l)) with false by (symmetry; apply Nat.eqb_neq; lia). reflexivity.
  - rewrite app_nth2 by (rewrite set_nth_length; assumption). rewrite set_nth_length. replace (Nat.eqb j i) with false by (symmetry; apply Nat.eqb_neq; lia).
    destruct (Nat.eqb_spec j (length l)) as [->|]; [rewrite Nat.sub_diag; reflexivity|]. rewrite (nth_overflow l) by assumption. rewrite nth_overflow; [reflexivity|cbn; lia].
Qed.
Lemma split_one_finv fs g x rest : finv fs g (x :: rest) -> Forall (fun y => loc_lt (fst x) (fst y) = false) rest -> exists g', finv (split_one fs x) g' rest.
Proof.
  intros F Ho. destruct x as [[p lp] i]. destruct F as [F1 F2 F3 F4 F5]. destruct (F4 (p, lp) i ltac:(cbn; auto)) as (o & R & Ei & Gi & Hp).
  unfold split_one. cbn [fst snd]. rewrite Ei.
  assert (Li : (i < length fs)%nat) by (destruct (Nat.lt_ge_cases i (length fs)) as [L|L]; [assumption|rewrite nth_overflow in Ei by assumption; discriminate]).
  destruct o as [bp ep l tb te|q l1 l2].
  2:{ exists g. split; auto. intros k i' H. apply F4. cbn. auto. }
  destruct (F1 _ _ _ Ei) as (o0 & E0 & K0 & I0 & L0 & S0 & P0 & N0).
  set (isH := py bp =? py ep).
  set (le := fun k : loc => if isH then px (fst k) <=? px p else py (fst k) <=? py p).
  set (ge := fun k : loc => if isH then px p <=? px (fst k) else py p <=? py (fst k)).
  set (o1 := RSeg bp p l tb true). set (o2 := RSeg p ep l true te).
  set (fs' := set_nth i (Some (o1, filter le R)) fs ++ [Some (o2, filter ge R)]).
  pose proof (L0 _ Hp) as Hpl. cbn in Hpl, S0.
  assert (p1 : In (p, lp) (filter le R)) by (apply filter_In; split; [assumption|]; unfold le; cbn; destruct isH; lia).
  assert (p2 : In (p, lp) (filter ge R)) by (apply filter_In; split; [assumption|]; unfold ge; cbn; destruct isH; lia).
  assert (lg : forall k, In k R -> In k (filter le R) \/ In k (filter ge R)).
  { intros k Hk. rewrite !filter_In. unfold le, ge. destruct isH.
    - destruct (Z.leb_spec (px (fst k)) (px p)); [left; auto|right; split; [assumption|lia]].
    - destruct (Z.leb_spec (py (fst k)) (py p)); [left; auto|right; split; [assumption|lia]]. }
  assert (ni : forall j, nth j fs' None = if Nat.eqb j i then Some (o1, filter le R) else if Nat.eqb j (length fs) then Some (o2, filter ge R) else nth j fs None) by (intros j; apply nth_app_set; assumption).
  set (g' := fun j => if Nat.eqb j (length fs) then i else g j).
  assert (gi : g' i = i) by (unfold g'; replace (Nat.eqb i (length fs)) with false by (symmetry; apply Nat.eqb_neq; lia); assumption).
  assert (gl : g' (length fs) = i) by (unfold g'; rewrite Nat.eqb_refl; reflexivity).
  assert (go : forall j, j <> length fs -> g' j = g j) by (intros j Hj; unfold g'; apply Nat.eqb_neq in Hj; rewrite Hj; reflexivity).
  assert (n1 : nth i fs' None = Some (o1, filter le R)) by (rewrite ni, Nat.eqb_refl; reflexivity).
  assert (n2 : nth (length fs) fs' None = Some (o2, filter ge R)) by (rewrite ni; replace (Nat.eqb (length fs) i) with false by (symmetry; apply Nat.eqb_neq; lia); rewrite Nat.eqb_refl; reflexivity).
  assert (nn : forall j o R, nth j fs None = Some (o, R) -> j <> i -> nth j fs' None = Some (o, R) /\ j <> length fs).
  { intros j o' R' H Hj. assert (j < length fs)%nat by (destruct (Nat.lt_ge_cases j (length fs)) as [L|L]; [assumption|rewrite nth_overflow in H by assumption; discriminate]).
    rewrite ni. apply Nat.eqb_neq in Hj. rewrite Hj. replace (Nat.eqb j (length fs)) with false by (symmetry; apply Nat.eqb_neq; lia). split; [assumption|lia]. }
  assert (S0' : isH = true /\ py bp = py ep /\ px bp <= px ep \/ isH = false /\ px bp = px ep /\ py bp <= py ep) by (unfold isH; lia).
  exists g'. split.
  - intros j o' R' H. rewrite ni in H. destruct (Nat.eqb_spec j i) as [->|Hj]; [|destruct (Nat.eqb_spec j (length fs)) as [->|Hj']].
    + injection H as <- <-. exists o0. rewrite gi. rewrite Gi in *. split; [assumption|]. split; [assumption|]. split; [|split; [|split; [|split]]].
      * intros k Hk. apply filter_In in Hk as [Hk _]. auto.
      * intros k Hk. apply filter_In in Hk as [Hk Lk]. specialize (L0 k Hk). cbn in *. unfold le in Lk. lia.
      * cbn. lia.
      * destruct o0; [|destruct P0]. cbn in *. lia.
      * intros _ E. rewrite E in p1. destruct p1.
    + injection H as <- <-. exists o0. rewrite gl. rewrite Gi in *. split; [assumption|]. split; [assumption|]. split; [|split; [|split; [|split]]].
      * intros k Hk. apply filter_In in Hk as [Hk _]. auto.
      * intros k Hk. apply filter_In in Hk as [Hk Lk]. specialize (L0 k Hk). cbn in *. unfold ge in Lk. lia.
      * cbn. lia.
      * destruct o0; [|destruct P0]. cbn in *. lia.
      * intros _ E. rewrite E in p2. destruct p2.
    + rewrite go by assumption. apply F1. assumption.
  - intros i' k Li' Ki' Hk. destruct (F2 i' k Li' Ki' Hk) as (j & o' & R' & Ej & Gj & Hk'). destruct (Nat.eq_dec j i) as [->|Hj].
    + rewrite Ei in Ej. injection Ej as <- <-. destruct (lg k Hk') as [H|H]; [exists i, o1, (filter le R)|exists (length fs), o2, (filter ge R)]; split; auto; split; auto; congruence.
    + destruct (nn j o' R' Ej Hj) as [E1 E2]. exists j, o', R'. rewrite go by assumption. auto.
  - intros i' k k' Li' Hk Hk'. specialize (F3 i' k k' Li' Hk Hk'). clear -F3 Ei lg p1 p2 n1 n2 nn. induction F3 as [|k' k'' j o' R' Hq IH Ej H1 H2]; [apply keq_refl|].
    destruct (Nat.eq_dec j i) as [->|Hj].
    + rewrite Ei in Ej. injection Ej as <- <-.
      assert (A : keq fs' k (p, lp)) by (destruct (lg k' H1); [eapply keq_step; [exact IH|exact n1|assumption|assumption]|eapply keq_step; [exact IH|exact n2|assumption|assumption]]).
      destruct (lg k'' H2); [eapply keq_step; [exact A|exact n1|assumption|assumption]|eapply keq_step; [exact A|exact n2|assumption|assumption]].
    + destruct (nn j o' R' Ej Hj) as [E1 E2]. eapply keq_step; eauto.
  - intros k i' Hr. destruct (F4 k i' ltac:(cbn; auto)) as (o' & R' & E' & G' & Hk). destruct (Nat.eq_dec i' i) as [->|Hj].
    + rewrite Ei in E'. injection E' as <- <-. exists o1, (filter le R). split; [assumption|]. split; [assumption|]. apply filter_In. split; [assumption|].
      rewrite Forall_forall in Ho. specialize (Ho _ Hr). cbn in Ho. specialize (L0 k Hk). cbn in L0. unfold le. destruct k as [kp kl]. cbn in *. unfold loc_lt, pt_lt, pt_eq in Ho. cbn in Ho.
      destruct (px p =? px kp) eqn:?, (py p =? py kp) eqn:?; cbn in Ho; destruct isH; lia.
    + destruct (nn i' o' R' E' Hj) as [E1 E2]. exists o', R'. rewrite go by assumption. auto.
  - intros i' Li' Ki'. destruct (F5 i' Li' Ki') as (j & o' & R' & Ej & Gj). destruct (Nat.eq_dec j i) as [->|Hj].
    + exists i, o1, (filter le R). split; [assumption|congruence].
    + destruct (nn j o' R' Ej Hj) as [E1 E2]. exists j, o', R'. rewrite go by assumption. auto.
Qed.
Lemma splits_finv : exists g, finv (fold_left split_one (psSplits objs m) fs0) g [].
Proof.
  pose proof psSplits_ordered as O. pose proof finv0 as F. revert O F. generalize (psSplits objs m) fs0 (fun j : nat => j). intros L. unfold ordered. induction L as [|x L IH]; intros fs g O F; cbn [fold_left]; [eauto|].
  inversion O; subst. destruct (split_one_finv fs g x L F H1) as (g' & F'). eapply IH; eauto.
Qed.
Let fsN := fold_left split_one (psSplits objs m) fs0.
Let result := conn_final objs pins K.
Lemma result_is : result = live (map shrink fsN).
Proof. reflexivity. Qed.
Lemma nth_shrink j : nth j (map shrink fsN) None = shrink (nth j fsN None).
Proof. change (@None robj) with (shrink None) at 1. apply map_nth. Qed.

(* where the things are after the clean-up *)
Lemma keq_joined a k k' : keq fsN k k' -> (exists b, joined pins_at result a b /\ thing_at pins_at b k) -> exists b, joined pins_at result a b /\ thing_at pins_at b k'.
Proof.
  intros H Hb. destruct splits_finv as (g & [F1 _ _ _ _]). fold fsN in F1. induction H as [|k' k'' j o R Hq IH Ej H1 H2]; [assumption|].
  destruct IH as (b & Jb & Tb). destruct (F1 _ _ _ Ej) as (o0 & _ & _ & _ & L & S & _). destruct (shrink_spec o R S L) as (o' & E' & _ & _ & L' & _).
  exists (Obj o'). split; [|apply L'; assumption]. eapply joined_step; [exact Jb|exact Tb|apply L'; assumption|].
  cbn. rewrite result_is. apply in_live. exists j. rewrite nth_shrink, Ej. assumption.
Qed.
Lemma pin_item_on it k : item_at pins_at objs it k -> match it with Pin id => thing_at pins_at (Term id) k | Wire _ => True end.
Proof. destruct it; [auto|]. intros [H _]. exact H. Qed.
Lemma kept_node n it k : K n = true -> (n < gCnt + length pins)%nat -> item_of pins_at objs n = it -> (exists o, In o objs /\ is_end o k) -> item_at pins_at objs it k -> at_node nm k n.
Proof. intros Kn Ln E He Hi. apply (node_at pins_at objs ok apart). rewrite E. auto. Qed.
Lemma item_wire n i : item_of pins_at objs n = Wire i -> (n < gCnt + length pins)%nat -> n = i /\ (n < gCnt)%nat.
Proof.
  unfold item_of. fold gCnt. destruct (Nat.ltb_spec n gCnt); [intros E; injection E; auto|]. fold pins. destruct (nth_error pins (n - gCnt)) eqn:E; [discriminate|]. apply nth_error_None in E. lia.
Qed.
Hypothesis Krange : forall n, K n = true -> (n < gCnt + length pins)%nat.
Theorem final_connected p q : linked pins_at objs (kept_by pins_at objs K) (Pin p) (Pin q) -> joined pins_at result (Term p) (Term q).
Proof.
  intros H.
  enough (A : forall it, linked pins_at objs (kept_by pins_at objs K) (Pin p) it -> match it with
     | Pin id => joined pins_at result (Term p) (Term id)
     | Wire i => exists k, In k (R0 i) /\ (i < gCnt)%nat /\ exists b, joined pins_at result (Term p) b /\ thing_at pins_at b k end) by (apply (A (Pin q) H)).
  clear q H. intros it H. induction H as [Ha|b c k Hb IH Hm Kc]; [apply joined_refl; exact I|].
  destruct (linked_in pins_at objs _ _ _ Hb) as [_ Kb]. destruct Kb as (nb & Knb & Enb). destruct Kc as (nc & Knc & Enc).
  destruct Hm as (He & Ib & Ic).
  assert (Ab : at_node nm k nb) by (eapply kept_node; eauto). assert (Ac : at_node nm k nc) by (eapply kept_node; eauto).
  destruct (Nat.eq_dec nb nc) as [<-|Hn]; [assert (b = c) as <- by congruence; assumption|].
  assert (Rk : exists t, joined pins_at result (Term p) t /\ thing_at pins_at t k).
  { destruct b as [i|id].
    - destruct (item_wire nb i Enb (Krange _ Knb)) as [-> Li]. destruct IH as (k0 & Hk0 & _ & Hr). destruct splits_finv as (g & [_ _ F3 _ _]). eapply keq_joined; [|exact Hr].
      apply (F3 i); auto. apply (R0_shared i nc); auto.
    - exists (Term id). split; [assumption|]. exact (pin_item_on (Pin id) k Ib). }
  destruct c as [i|id].
  - destruct (item_wire nc i Enc (Krange _ Knc)) as [-> Li]. exists k. split; [apply (R0_shared i nb); auto|]. split; [assumption|]. assumption.
  - destruct Rk as (t & Jt & Tt). eapply joined_step; [exact Jt|exact Tt|exact (pin_item_on (Pin id) k Ic)|exact I].
Qed.
(* no new metal, axis-parallel wires *)
Theorem final_part o : In o result -> exists i o0, nth_error objs i = Some o0 /\ K i = true /\ part_of o o0 /\ seg_line o.
Proof.
  rewrite result_is, in_live. intros (j & Hj). rewrite nth_shrink in Hj. destruct (nth j fsN None) as [[o1 R]|] eqn:E; [|discriminate].
  destruct splits_finv as (g & [F1 _ _ _ _]). destruct (F1 _ _ _ E) as (o0 & E0 & K0 & _ & L & S & P & _). destruct (shrink_spec o1 R S L) as (o' & E' & S' & P' & _). rewrite E' in Hj. injection Hj as ->.
  exists (g j), o0. split; [assumption|]. split; [assumption|]. split; [|assumption].
  destruct o, o1, o0; cbn in *; try contradiction; [lia|congruence].
Qed.
(* every kept via stays *)
Theorem final_via i p l1 l2 : nth_error objs i = Some (RVia p l1 l2) -> K i = true -> In (RVia p l1 l2) result.
Proof.
  intros E Ki. destruct splits_finv as (g & [F1 _ _ _ F5]). assert (Li : (i < gCnt)%nat) by (apply nth_error_Some; congruence).
  destruct (F5 i Li Ki) as (j & o & R & Ej & Gj). destruct (F1 _ _ _ Ej) as (o0 & E0 & _ & _ & L & S & P & _). rewrite Gj, E in E0. injection E0 as <-. destruct o as [|q m1 m2]; [destruct P|]. cbn in P. rewrite P in *.
  rewrite result_is, in_live. exists j. rewrite nth_shrink. fold fsN in Ej. rewrite Ej. reflexivity.
Qed.
(* every end of a remaining wire is at a pin or on another remaining object *)
Theorem final_ends b o k : (forall n, K n = true -> (n < gCnt)%nat -> R0 n <> []) -> nth_error result b = Some o -> (match o with RSeg _ _ _ _ _ => is_end o k | _ => False end) ->
  (exists id, In id (pins_at (fst k) (snd k))) \/ exists b' o', b' <> b /\ nth_error result b' = Some o' /\ lies_on o' k.
Proof.
  intros HR Hb He. rewrite result_is in Hb. destruct (live_pos (map shrink fsN)) as (f & P1 & P2). pose proof (P1 _ _ Hb) as Hj. rewrite nth_shrink in Hj.
  destruct (nth (f b) fsN None) as [[o1 R]|] eqn:E; [|discriminate].
  destruct splits_finv as (g & [F1 F2 _ _ _]). destruct (F1 _ _ _ E) as (o0 & E0 & K0 & I0 & L & S & P & N). destruct (shrink_spec o1 R S L) as (o' & E' & S' & P' & L' & Z'). rewrite E' in Hj. injection Hj as ->.
  assert (Lg : (g (f b) < gCnt)%nat) by (apply nth_error_Some; congruence).
  assert (Hk : In k (R0 (g (f b)))) by (apply I0, Z'; [apply N, HR; assumption|assumption]).
  destruct (R0_other _ _ Hk) as (n & Hn & Kn & An). pose proof An as An'. apply (node_at pins_at objs ok apart) in An' as (Ln & _ & Hit).
  destruct (Nat.lt_ge_cases n gCnt) as [L1|L1].
  - right. assert (Hkn : In k (R0 n)) by (apply (R0_shared n (g (f b))); auto; apply R0_at in Hk; tauto).
    destruct (F2 n k L1 Kn Hkn) as (j & o2 & R2 & Ej & Gj & Hj2). destruct (F1 _ _ _ Ej) as (_ & _ & _ & _ & L2 & S2 & _). destruct (shrink_spec o2 R2 S2 L2) as (o3 & E3 & _ & _ & L3 & _).
    destruct (P2 j o3) as (b' & Eb & Hb'); [rewrite nth_shrink; fold fsN in Ej; rewrite Ej; assumption|].
    exists b', o3. split; [intros ->; congruence|]. split; [rewrite result_is; assumption|]. apply L3. assumption.
  - left. unfold item_of in Hit. fold gCnt in Hit. fold pins in Hit, Ln. replace (n <? gCnt)%nat with false in Hit by (symmetry; apply Nat.ltb_ge; assumption).
    destruct (nth_error pins (n - gCnt)) as [e|] eqn:Ee; [|apply nth_error_None in Ee; lia]. exists (fst e). exact (proj1 Hit).
Qed.
End Final.
