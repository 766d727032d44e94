(* Proofs about the choice of a track. *)
From Verif Require Import Base Stl GeomModel GeomSpec TaModel TaSpec.

Lemma up_In a b i : In i (up a b) <-> a <= i <= b.
Proof.
  unfold up. rewrite in_map_iff. split.
  - intros (k & <- & H). apply in_seq in H. lia.
  - intros H. exists (Z.to_nat (i - a)). split; [lia|]. apply in_seq. lia.
Qed.
Lemma down_In a b i : In i (down a b) <-> b <= i <= a.
Proof.
  unfold down. rewrite in_map_iff. split.
  - intros (k & <- & H). apply in_seq in H. lia.
  - intros H. exists (Z.to_nat (a - i)). split; [lia|]. apply in_seq. lia.
Qed.
Lemma up_empty a b : b < a -> up a b = [].
Proof. intros H. unfold up. replace (Z.to_nat (b - a + 1)) with O by lia. reflexivity. Qed.
Lemma down_empty a b : a < b -> down a b = [].
Proof. intros H. unfold down. replace (Z.to_nat (a - b + 1)) with O by lia. reflexivity. Qed.
Lemma down_cons a b : b <= a -> down a b = a :: down (a - 1) b.
Proof.
  intros H. unfold down. replace (Z.to_nat (a - b + 1)) with (S (Z.to_nat (a - 1 - b + 1))) by lia.
  cbn [seq map]. rewrite Z.sub_0_r. f_equal. rewrite <- seq_shift, map_map.
  apply map_ext. intros k. lia.
Qed.
Lemma up_cons a b : a <= b -> up a b = a :: up (a + 1) b.
Proof.
  intros H. unfold up. replace (Z.to_nat (b - a + 1)) with (S (Z.to_nat (b - (a + 1) + 1))) by lia.
  cbn [seq map]. rewrite Z.add_0_r. f_equal. rewrite <- seq_shift, map_map.
  apply map_ext. intros k. lia.
Qed.

(* --- getTrackIdx: exactly the tracks in a closed range ---------------------------------------- *)
Lemma getTrackIdx_spec tracks a b i : sorted_lt tracks ->
  (fst (getTrackIdx tracks a b) <= i <= snd (getTrackIdx tracks a b) <->
   0 <= i < Z.of_nat (length tracks) /\ a <= nth (Z.to_nat i) tracks 0 <= b).
Proof.
  intros Hs. pose proof (sorted_lt_le _ Hs) as Hle. unfold getTrackIdx. cbn [fst snd].
  pose proof (lower_bound_le tracks a). pose proof (upper_bound_le tracks b). split.
  - intros Hi. split; [lia|].
    pose proof (lower_bound_after tracks a (Z.to_nat i) Hle ltac:(lia) ltac:(lia)).
    pose proof (upper_bound_before tracks b (Z.to_nat i) ltac:(lia)). lia.
  - intros [Hr Hv]. split.
    + destruct (Z.le_gt_cases (Z.of_nat (lower_bound tracks a)) i) as [L|G]; [exact L|].
      pose proof (lower_bound_before tracks a (Z.to_nat i) ltac:(lia)). lia.
    + destruct (Z.le_gt_cases i (Z.of_nat (upper_bound tracks b) - 1)) as [L|G]; [exact L|].
      pose proof (upper_bound_after tracks b (Z.to_nat i) Hle ltac:(lia) ltac:(lia)). lia.
Qed.
Lemma tracks_between_In tracks a b t : sorted_lt tracks ->
  (In t (tracks_between tracks (getTrackIdx tracks a b)) <-> In t tracks /\ a <= t <= b).
Proof.
  intros Hs. unfold tracks_between. rewrite in_map_iff. split.
  - intros (i & <- & Hi). apply up_In in Hi. apply getTrackIdx_spec in Hi; [|assumption].
    split; [apply nth_In; lia|lia].
  - intros [Hin Ht]. apply (In_nth _ _ 0) in Hin as (k & Hk & E).
    exists (Z.of_nat k). rewrite Nat2Z.id. split; [exact E|].
    apply up_In, getTrackIdx_spec; auto. rewrite Nat2Z.id. lia.
Qed.

(* --- the scan -------------------------------------------------------------------------------------- *)
Section Best.
  Variables (tracks : list Z) (cost : Z -> Z * Z) (init : bool).
  Definition tot (i : Z) : Z := fst (cost (nth (Z.to_nat i) tracks 0)).
  Definition drc (i : Z) : Z := snd (cost (nth (Z.to_nat i) tracks 0)).
  Definition key (i : Z) : Z := if init then tot i else drc i.

  (* what the state says about the indices visited so far (latest first) *)
  Definition inv (v : list Z) (s : best) : Prop :=
    match v with
    | [] => s = best0
    | last :: before =>
      bDrc s = drc last /\ In (bIdx s) v /\ bCost s = key (bIdx s) /\
      bLoc s = nth (Z.to_nat (bIdx s)) tracks 0 /\
      (forall j, In j v -> bCost s <= key j) /\
      (forall j, In j before -> drc j <> 0)
    end.
  (* the scan may go on: nothing visited, or the last visited track has violations *)
  Definition open (v : list Z) (s : best) : Prop := v = [] \/ bDrc s <> 0.

  Variables (lo hi : Z).
  Hypothesis (Hlo : 0 <= lo) (Hhi : hi < Z.of_nat (length tracks)).
  Hypothesis Hkey : forall i, lo <= i <= hi -> key i < UMAX.

  Lemma helper_inv v s i : inv v s -> open v s -> lo <= i <= hi ->
    exists s', helper tracks cost init i s = Some s' /\ inv (i :: v) s' /\ bDrc s' = drc i.
  Proof.
    intros HI HO Hi. unfold helper.
    replace ((i <? 0) || (Z.of_nat (length tracks) <=? i)) with false by lia.
    destruct (cost (nth (Z.to_nat i) tracks 0)) as [c d] eqn:Ec.
    assert (Ht : tot i = c) by (unfold tot; rewrite Ec; reflexivity).
    assert (Hd : drc i = d) by (unfold drc; rewrite Ec; reflexivity).
    assert (Hk : key i = if init then c else d) by (unfold key; rewrite Ht, Hd; reflexivity).
    pose proof (Hkey i Hi) as Hlt. rewrite <- Hk.
    assert (Hprev : forall j, In j v -> drc j <> 0).
    { destruct v as [|k v]; [intros j []|]. destruct HI as (E1 & _ & _ & _ & _ & E6).
      destruct HO as [HO|HO]; [discriminate|]. intros j [<- |Hj]; [congruence|auto]. }
    destruct (key i <? bCost s) eqn:E.
    - eexists; split; [reflexivity|]. cbn [bDrc]. split; [|auto]. cbn [inv bDrc bIdx bCost bLoc].
      repeat split; auto.
      + left; reflexivity.
      + intros j [<- |Hj]; [lia|]. destruct v as [|k v]; [destruct Hj|].
        destruct HI as (_ & _ & _ & _ & E5 & _). specialize (E5 j Hj). lia.
    - destruct v as [|k v].
      { cbn in HI. subst s. cbn in E. lia. }
      destruct HI as (E1 & E2 & E3 & E4 & E5 & E6).
      eexists; split; [reflexivity|]. cbn [bDrc]. split; [|auto]. cbn [inv bDrc bIdx bCost bLoc].
      repeat split; auto.
      + right; exact E2.
      + intros j [<- |Hj]; [lia|auto].
  Qed.

  Definition done (l v : list Z) (s : best) : Prop := (v <> [] /\ bDrc s = 0) \/ incl l v.

  Lemma scan_inv l : forall v s, inv v s -> open v s -> (forall i, In i l -> lo <= i <= hi) ->
    exists w s', scan tracks cost init l s = Some s' /\ inv (w ++ v) s' /\ incl w l /\
      ((w ++ v <> [] /\ bDrc s' = 0) \/ (incl l w /\ open (w ++ v) s')).
  Proof.
    induction l as [|i l IH]; intros v s HI HO Hl; cbn [scan].
    - exists [], s. split; [reflexivity|]. split; [exact HI|]. split; [intros x []|].
      right. split; [intros x []|exact HO].
    - destruct (helper_inv v s i HI HO (Hl i (or_introl eq_refl))) as (s' & E & HI' & Hd).
      rewrite E. destruct (bDrc s' =? 0) eqn:E0.
      + exists [i], s'. split; [reflexivity|]. split; [exact HI'|].
        split; [intros x [<- |[]]; left; reflexivity|]. left. split; [discriminate|lia].
      + destruct (IH (i :: v) s' HI') as (w & s'' & E1 & E2 & E3 & E4).
        { right. lia. }
        { intros j Hj; apply Hl; right; exact Hj. }
        exists (w ++ [i]), s''. rewrite <- app_assoc. split; [exact E1|]. split; [exact E2|].
        split.
        { intros x Hx. apply in_app_or in Hx as [Hx|[<- |[]]]; [right; auto|left; reflexivity]. }
        destruct E4 as [E4|[E4 E5]]; [left; exact E4|right]. split; [|exact E5].
        intros x [<- |Hx]; apply in_or_app; [right; left; reflexivity|left; auto].
  Qed.
  Lemma scan2_inv l1 l2 : (forall i, In i l1 -> lo <= i <= hi) -> (forall i, In i l2 -> lo <= i <= hi) ->
    l1 <> [] -> exists w s', scan2 tracks cost init l1 l2 best0 = Some s' /\ inv w s' /\
      incl w (l1 ++ l2) /\ ((w <> [] /\ bDrc s' = 0) \/ incl (l1 ++ l2) w).
  Proof.
    intros H1 H2 Hne. unfold scan2.
    destruct (scan_inv l1 [] best0 eq_refl (or_introl eq_refl) H1) as (w & s & E1 & E2 & E3 & E4).
    rewrite app_nil_r in E2, E4. rewrite E1. destruct (bDrc s =? 0) eqn:E0.
    - exists w, s. split; [reflexivity|]. split; [exact E2|]. split; [intros x Hx; apply in_or_app; left; auto|].
      left. split; [|lia]. destruct E4 as [[E4 _]|[E4 _]]; [exact E4|].
      destruct l1 as [|i l1]; [congruence|]. intros ->. apply (E4 i). left; reflexivity.
    - destruct E4 as [[_ E4]|[E4 _]]; [lia|].
      destruct (scan_inv l2 w s E2) as (w2 & s2 & F1 & F2 & F3 & F4); [right; lia|exact H2|].
      exists (w2 ++ w), s2. split; [exact F1|]. split; [exact F2|]. split.
      + intros x Hx. apply in_or_app. apply in_app_or in Hx as [Hx|Hx]; [right; auto|left; auto].
      + destruct F4 as [F4|[F4 _]]; [left; exact F4|right].
        intros x Hx. apply in_or_app. apply in_app_or in Hx as [Hx|Hx]; [right; auto|left; auto].
  Qed.

  Lemma try_in_inv v s i : inv v s -> open v s -> v <> [] ->
    exists w s', try_in tracks cost init lo hi i s = Some s' /\ inv (w ++ v) s' /\
      (forall x, In x w -> lo <= x <= hi) /\
      ((lo <= i <= hi -> In i w) /\ open (w ++ v) s' \/ bDrc s' = 0).
  Proof.
    intros HI HO Hne. unfold try_in. destruct ((i >=? lo) && (i <=? hi)) eqn:E.
    - destruct (helper_inv v s i HI HO ltac:(lia)) as (s' & E1 & E2 & E3).
      exists [i], s'. split; [exact E1|]. split; [exact E2|]. split.
      { intros x [<- |[]]. lia. }
      destruct (Z.eq_dec (bDrc s') 0) as [Z0|Z0]; [right; exact Z0|left].
      split; [intros _; left; reflexivity|right; exact Z0].
    - exists [], s. split; [reflexivity|]. split; [exact HI|]. split; [intros x []|].
      left. split; [lia|exact HO].
  Qed.

  Lemma zigzag_inv start l : forall v s, inv v s -> open v s -> v <> [] ->
    exists w s', zigzag tracks cost init lo hi start l s = Some s' /\ inv (w ++ v) s' /\
      (forall x, In x w -> lo <= x <= hi) /\
      (bDrc s' = 0 \/ forall i, In i l -> (lo <= start + i <= hi -> In (start + i) w) /\
                                  (lo <= start - i - 1 <= hi -> In (start - i - 1) w)).
  Proof.
    induction l as [|i l IH]; intros v s HI HO Hne; cbn [zigzag].
    - exists [], s. split; [reflexivity|]. split; [exact HI|]. split; [intros x []|].
      right. intros i [].
    - destruct (try_in_inv v s (start + i) HI HO Hne) as (w1 & s1 & A1 & A2 & A3 & A4).
      rewrite A1. destruct (bDrc s1 =? 0) eqn:Z1.
      { exists w1, s1. split; [reflexivity|]. split; [exact A2|]. split; [exact A3|]. left. lia. }
      destruct A4 as [[A4 A5]|A4]; [|lia].
      assert (N1 : w1 ++ v <> []) by (destruct w1; [exact Hne|discriminate]).
      destruct (try_in_inv _ s1 (start - i - 1) A2 A5 N1) as (w2 & s2 & B1 & B2 & B3 & B4).
      rewrite B1. destruct (bDrc s2 =? 0) eqn:Z2.
      { exists (w2 ++ w1), s2. rewrite <- app_assoc. split; [reflexivity|]. split; [exact B2|]. split.
        - intros x Hx. apply in_app_or in Hx as [Hx|Hx]; auto.
        - left. lia. }
      destruct B4 as [[B4 B5]|B4]; [|lia].
      assert (N2 : w2 ++ w1 ++ v <> []) by (destruct w2; [exact N1|discriminate]).
      destruct (IH _ s2 B2 B5 N2) as (w3 & s3 & C1 & C2 & C3 & C4).
      exists (w3 ++ w2 ++ w1), s3. rewrite <- !app_assoc. split; [exact C1|]. split; [exact C2|]. split.
      + intros x Hx. apply in_app_or in Hx as [Hx|Hx]; [auto|]. apply in_app_or in Hx as [Hx|Hx]; auto.
      + destruct C4 as [C4|C4]; [left; exact C4|right]. intros j [<- |Hj].
        * split; intros Hr; apply in_or_app; right; apply in_or_app; [right|left]; auto.
        * destruct (C4 j Hj) as [D1 D2]. split; intros Hr; apply in_or_app; left; auto.
  Qed.
  Lemma zigzag_start start : lo <= start <= hi ->
    exists w s', zigzag tracks cost init lo hi start (up 0 (hi - lo)) best0 = Some s' /\ inv w s' /\
      w <> [] /\ (forall x, In x w -> lo <= x <= hi) /\
      (bDrc s' = 0 \/ forall i, lo <= i <= hi -> In i w).
  Proof.
    intros Hs. rewrite up_cons by lia. cbn [zigzag].
    unfold try_in at 1. replace ((start + 0 >=? lo) && (start + 0 <=? hi)) with true by lia.
    rewrite Z.add_0_r.
    destruct (helper_inv [] best0 start eq_refl (or_introl eq_refl) Hs) as (s1 & A1 & A2 & A3).
    rewrite A1. destruct (bDrc s1 =? 0) eqn:Z1.
    { exists [start], s1. split; [reflexivity|]. split; [exact A2|]. split; [discriminate|].
      split; [intros x [<- |[]]; lia|]. left. lia. }
    destruct (try_in_inv [start] s1 (start - 0 - 1) A2) as (w2 & s2 & B1 & B2 & B3 & B4);
      [right; lia|discriminate|].
    rewrite B1. destruct (bDrc s2 =? 0) eqn:Z2.
    { exists (w2 ++ [start]), s2. split; [reflexivity|]. split; [exact B2|]. split.
      { destruct w2; discriminate. }
      split; [|left; lia]. intros x Hx. apply in_app_or in Hx as [Hx|[<- |[]]]; auto. }
    destruct B4 as [[B4 B5]|B4]; [|lia].
    assert (N2 : w2 ++ [start] <> []) by (destruct w2; discriminate).
    destruct (zigzag_inv start (up (0 + 1) (hi - lo)) _ s2 B2 B5 N2) as (w3 & s3 & C1 & C2 & C3 & C4).
    exists (w3 ++ w2 ++ [start]), s3. split; [exact C1|]. split; [exact C2|]. split.
    { destruct w3; [exact N2|discriminate]. }
    split.
    { intros x Hx. apply in_app_or in Hx as [Hx|Hx]; [auto|]. apply in_app_or in Hx as [Hx|[<- |[]]]; auto. }
    destruct C4 as [C4|C4]; [left; exact C4|right]. intros i Hi.
    apply in_or_app. destruct (Z.eq_dec i start) as [->|Hn].
    { right. apply in_or_app. right. left. reflexivity. }
    destruct (Z.eq_dec i (start - 1)) as [->|Hn'].
    { right. apply in_or_app. left. replace (start - 1) with (start - 0 - 1) by lia. apply B4. lia. }
    left. destruct (Z.lt_total i start) as [L|[E|G]]; [|congruence|].
    - destruct (C4 (start - i - 1)) as [_ D]; [apply up_In; lia|].
      replace i with (start - (start - i - 1) - 1) by lia. apply D. lia.
    - destruct (C4 (i - start)) as [D _]; [apply up_In; lia|].
      replace i with (start + (i - start)) by lia. apply D. lia.
  Qed.

  (* all six search orders *)
  Lemma bestTrack_inv wlen wlen2 : lo <= hi -> exists w s,
    bestTrack tracks cost init wlen wlen2 lo hi = Chosen (bLoc s) (bIdx s) (bDrc s) /\
    inv w s /\ w <> [] /\ (forall x, In x w -> lo <= x <= hi) /\
    (bDrc s = 0 \/ forall i, lo <= i <= hi -> In i w).
  Proof.
    intros Hne.
    assert (Fin : forall r, (exists w s, r = Some s /\ inv w s /\ w <> [] /\
        (forall x, In x w -> lo <= x <= hi) /\ (bDrc s = 0 \/ forall i, lo <= i <= hi -> In i w)) ->
      exists w s, match r with None => OutOfRange
                  | Some s => if bIdx s =? -1 then NoTrack else Chosen (bLoc s) (bIdx s) (bDrc s) end
                  = Chosen (bLoc s) (bIdx s) (bDrc s) /\
        inv w s /\ w <> [] /\ (forall x, In x w -> lo <= x <= hi) /\
        (bDrc s = 0 \/ forall i, lo <= i <= hi -> In i w)).
    { intros r (w & s & -> & HI & Hw & Hr & Hd). exists w, s. split; [|exact (conj HI (conj Hw (conj Hr Hd)))].
      destruct w as [|k w]; [congruence|]. destruct HI as (_ & Hin & _).
      pose proof (Hr _ Hin). replace (bIdx s =? -1) with false by lia. reflexivity. }
    assert (S2 : forall l1 l2, (forall i, In i (l1 ++ l2) <-> lo <= i <= hi) -> l1 <> [] ->
      exists w s, scan2 tracks cost init l1 l2 best0 = Some s /\ inv w s /\ w <> [] /\
        (forall x, In x w -> lo <= x <= hi) /\ (bDrc s = 0 \/ forall i, lo <= i <= hi -> In i w)).
    { intros l1 l2 Hl Hn.
      destruct (scan2_inv l1 l2) as (w & s & A & B & C & D); [| |exact Hn|].
      { intros i Hi. apply Hl, in_or_app. left; exact Hi. }
      { intros i Hi. apply Hl, in_or_app. right; exact Hi. }
      exists w, s. split; [exact A|]. split; [exact B|]. split.
      { destruct D as [[D _]|D]; [exact D|]. intros ->. apply (D lo). apply Hl. lia. }
      split; [intros x Hx; apply Hl, C, Hx|].
      destruct D as [[_ D]|D]; [left; exact D|right]. intros i Hi. apply D, Hl, Hi. }
    assert (S1 : forall l, (forall i, In i l <-> lo <= i <= hi) ->
      exists w s, scan tracks cost init l best0 = Some s /\ inv w s /\ w <> [] /\
        (forall x, In x w -> lo <= x <= hi) /\ (bDrc s = 0 \/ forall i, lo <= i <= hi -> In i w)).
    { intros l Hl. destruct (scan_inv l [] best0 eq_refl (or_introl eq_refl)) as (w & s & A & B & C & D).
      { intros i Hi. apply Hl, Hi. }
      rewrite app_nil_r in B, D. exists w, s. split; [exact A|]. split; [exact B|]. split.
      { destruct D as [[D _]|[D _]]; [exact D|]. intros ->. apply (D lo). apply Hl. lia. }
      split; [intros x Hx; apply Hl, C, Hx|].
      destruct D as [[_ D]|[D _]]; [left; exact D|right]. intros i Hi. apply D, Hl, Hi. }
    unfold bestTrack. apply Fin. destruct wlen2 as [coord|].
    - set (start := Z.max (Z.min (Z.of_nat (lower_bound tracks coord)) hi) lo).
      assert (Hst : lo <= start <= hi) by (unfold start; lia).
      destruct (wlen >? 0); [|destruct (wlen =? 0)].
      + apply S2.
        * intros i. rewrite in_app_iff, up_In, down_In. lia.
        * rewrite up_cons by lia. discriminate.
      + apply zigzag_start. exact Hst.
      + apply S2.
        * intros i. rewrite in_app_iff, up_In, down_In. lia.
        * rewrite down_cons by lia. discriminate.
    - destruct (wlen >? 0); [|destruct (wlen =? 0)].
      + apply S1. intros i. rewrite down_In. lia.
      + assert (Hm : lo <= Z.quot (lo + hi) 2 <= hi).
        { pose proof (Z.quot_rem' (lo + hi) 2). pose proof (Z.rem_bound_pos (lo + hi) 2 ltac:(lia) ltac:(lia)). lia. }
        apply S2.
        * intros i. rewrite in_app_iff, up_In, down_In. lia.
        * rewrite up_cons by lia. discriminate.
      + apply S1. intros i. rewrite up_In. lia.
  Qed.
End Best.
