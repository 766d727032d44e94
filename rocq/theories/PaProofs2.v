(* The pattern read off is a cheapest one; the initial tables; the pair costs. *)
From Verif Require Import Base PaModel PaSpec PaProofs.

(* sum of the first k pair costs of a sequence *)
Fixpoint psum (w : Z -> Z -> Z -> Z) (s : Z -> Z) (k : nat) : Z :=
  match k with
  | O => 0
  | S k' => psum w s k' + w (Z.of_nat k') (s (Z.of_nat k')) (s (Z.of_nat k' + 1))
  end.
Lemma psum_ext w s s' k : (forall i, 0 <= i <= Z.of_nat k -> s i = s' i) -> psum w s k = psum w s' k.
Proof.
  induction k as [|k IH]; intros H; cbn [psum]; [reflexivity|].
  rewrite IH by (intros; apply H; lia). rewrite !H by lia. reflexivity.
Qed.
Lemma psum_front w s k : psum w s (S k) = w 0 (s 0) (s 1) + psum (fun i => w (i + 1)) (fun i => s (i + 1)) k.
Proof.
  induction k as [|k IH]; [cbn; lia|].
  cbn [psum] in *. rewrite IH.
  replace (Z.of_nat (S k)) with (Z.of_nat k + 1) by lia. lia.
Qed.
Lemma total_cons w i a b r : total w i (a :: b :: r) = w i a b + total w (i + 1) (b :: r).
Proof. reflexivity. Qed.
Lemma total_shift w pat : forall i, total w (i + 1) pat = total (fun j => w (j + 1)) i pat.
Proof.
  induction pat as [|a [|b r] IH]; intros i; try reflexivity.
  rewrite !total_cons, <- IH. reflexivity.
Qed.
Lemma total_psum pat : forall w, total w 0 pat = psum w (fun i => nth (Z.to_nat i) pat 0) (length pat - 1).
Proof.
  induction pat as [|a [|b r] IH]; intros w; try reflexivity.
  rewrite total_cons. replace (length (a :: b :: r) - 1)%nat with (S (length (b :: r) - 1)) by (cbn; lia).
  rewrite psum_front. change (Z.to_nat 0) with O. change (Z.to_nat 1) with 1%nat.
  cbn [nth]. f_equal. rewrite (total_shift w (b :: r) 0). rewrite IH.
  apply psum_ext. intros i Hi. replace (Z.to_nat (i + 1)) with (S (Z.to_nat i)) by lia. reflexivity.
Qed.

Section Opt.
  Variable cacheT : Type.
  Variables (n dim M : Z).
  Variable t0 : table.
  Variable w : Z -> Z -> Z -> Z.
  Variable Rok : cacheT -> Prop.
  Variable logged : cacheT -> Z -> Z -> Z -> Prop.
  Hypothesis n0 : 0 < n.
  Hypothesis w_start : forall a b, w (-1) a b = 0.
  Hypothesis w_end : forall a b, w (n - 1) a b = 0.
  Let poss := fun i a b e : Z => e = w i a b /\ 0 <= e <= M.
  Local Notation V := (valid dim t0).
  Local Notation fl i a := (getFlatIdx i a dim).

  Lemma path_le_choice st (s : Z -> Z) :
    Inv cacheT n dim M t0 poss Rok logged (n + 1) 0 st ->
    V (-1) 0 ->
    (forall i, 0 <= i < n -> V i (s i)) ->
    forall k, Z.of_nat k < n -> pathCost (fst st (fl (Z.of_nat k) (s (Z.of_nat k)))) <= psum w s k.
  Proof.
    intros HI Vs Hs. induction k as [|k IH]; intros Hk.
    - destruct (iv_settled _ _ _ _ _ _ _ _ _ _ _ HI 0 (s 0) ltac:(lia) (Hs 0 ltac:(lia)) ltac:(lia)) as [_ H].
      destruct (H 0 Vs) as (_ & e & He & Hle). destruct He as [He _]. cbn [psum].
      change (0 - 1) with (-1) in *. rewrite w_start in He.
      rewrite (proj1 (iv_start _ _ _ _ _ _ _ _ _ _ _ HI)) in Hle. change (Z.of_nat 0) with 0. lia.
    - specialize (IH ltac:(lia)).
      destruct (iv_settled _ _ _ _ _ _ _ _ _ _ _ HI (Z.of_nat (S k)) (s (Z.of_nat (S k))) ltac:(lia)
                  (Hs (Z.of_nat (S k)) ltac:(lia)) ltac:(lia)) as [_ H].
      replace (Z.of_nat (S k) - 1) with (Z.of_nat k) in H by lia.
      destruct (H _ (Hs (Z.of_nat k) ltac:(lia))) as (_ & e & He & Hle). destruct He as [He _]. subst e.
      cbn [psum]. replace (Z.of_nat k + 1) with (Z.of_nat (S k)) by lia. lia.
  Qed.

  Lemma read_off_cheapest (options : list nat) st :
    0 < dim -> 0 <= M -> (n + 1) * M < INF ->
    (forall i, 0 <= i <= n -> exists a, V i a) -> V (-1) 0 ->
    (forall a, V (-1) a -> a = 0) -> (forall a, V n a -> a = 0) ->
    Z.of_nat (length options) = n ->
    (forall i a, 0 <= i < n -> V i a <-> 0 <= a < Z.of_nat (nth (Z.to_nat i) options O)) ->
    Inv cacheT n dim M t0 poss Rok logged (n + 1) 0 st ->
    exists pat, read_off (fst st) n dim = Some pat /\ cheapest w options pat.
  Proof.
    intros Hdim HM Hfits Hsome Hs Hos Hoe Hlo HV HI.
    destruct (read_off_some cacheT n dim M ltac:(lia) t0 Hsome Hos Hoe poss Rok logged st HI)
      as (pat & Hr & Hl & Hval & s & Hs1 & Hs2 & Hs3 & Hs4).
    exists pat. split; [exact Hr|].
    assert (HF2 : forall l1 l2, length l1 = length l2 ->
      (forall i, (i < length l1)%nat -> 0 <= nth i l2 0 < Z.of_nat (nth i l1 O)) -> choice l1 l2).
    { unfold choice. induction l1 as [|x l1 IH]; intros [|y l2] HL H; try discriminate; constructor.
      - apply (H O). cbn; lia.
      - apply IH; [cbn in HL; lia|]. intros i Hi. apply (H (S i)). cbn; lia. }
    assert (HF3 : forall l1 l2, choice l1 l2 -> length l1 = length l2 /\
      forall i, (i < length l1)%nat -> 0 <= nth i l2 0 < Z.of_nat (nth i l1 O)).
    { unfold choice. induction 1 as [|x y l1 l2 Hxy _ [IL IH]]; [split; [reflexivity|cbn; lia]|].
      split; [cbn; lia|]. intros [|i] Hi; cbn in *; [exact Hxy|apply IH; lia]. }
    split.
    - apply HF2; [lia|]. intros i Hi. pose proof (Hval i ltac:(lia)) as Hv. apply HV in Hv; [|lia]. rewrite Nat2Z.id in Hv. exact Hv.
    - intros pat' Hc. destruct (HF3 _ _ Hc) as [HL Hb].
      rewrite !total_psum. replace (length pat' - 1)%nat with (Z.to_nat (n - 1)) by lia.
      replace (length pat - 1)%nat with (Z.to_nat (n - 1)) by lia.
      assert (E : forall k, Z.of_nat k < n ->
        pathCost (fst st (fl (Z.of_nat k) (s (Z.of_nat k)))) = psum w s k).
      { induction k as [|k IH]; intros Hk.
        - destruct (Hs4 0 ltac:(lia)) as (e & He & Hp). destruct He as [He _]. change (Z.of_nat 0) with 0.
          rewrite Hp, He. change (0 - 1) with (-1). rewrite w_start, Hs3.
          rewrite (proj1 (iv_start _ _ _ _ _ _ _ _ _ _ _ HI)). reflexivity.
        - destruct (Hs4 (Z.of_nat (S k)) ltac:(lia)) as (e & He & Hp). destruct He as [He _].
          rewrite Hp, He. replace (Z.of_nat (S k) - 1) with (Z.of_nat k) by lia.
          rewrite IH by lia. cbn [psum]. replace (Z.of_nat k + 1) with (Z.of_nat (S k)) by lia. reflexivity. }
      set (s' := fun i => nth (Z.to_nat i) pat' 0).
      assert (Hs' : forall i, 0 <= i < n -> V i (s' i)).
      { intros i Hi. apply HV; [exact Hi|]. apply Hb. lia. }
      assert (HE : psum w (fun i => nth (Z.to_nat i) pat 0) (Z.to_nat (n - 1)) = psum w s (Z.to_nat (n - 1))).
      { apply psum_ext. intros i Hi. symmetry. apply Hs1. lia. }
      rewrite HE. rewrite <- (E (Z.to_nat (n - 1)) ltac:(lia)).
      (* the end node: cheapest over the last column *)
      assert (Ve : V n 0) by (destruct (Hsome n ltac:(lia)) as [a Va]; pose proof (Hoe _ Va); now subst a).
      destruct (Hs4 n ltac:(lia)) as (e & He & Hp). destruct He as [He _]. rewrite Hs2, w_end in He. subst e.
      destruct (iv_settled _ _ _ _ _ _ _ _ _ _ _ HI n 0 ltac:(lia) Ve ltac:(lia)) as [_ Hall].
      destruct (Hall (s' (n - 1)) (Hs' (n - 1) ltac:(lia))) as (_ & e & He & Hle).
      destruct He as [He _]. rewrite w_end in He. subst e.
      pose proof (path_le_choice st s' HI Hs Hs' (Z.to_nat (n - 1)) ltac:(lia)) as HP.
      rewrite Z2Nat.id in * by lia. rewrite Hs2 in Hp. lia.
  Qed.
End Opt.

(* --- initial tables --- *)
Lemma fold_cost_row (f : Z -> Z) i dim k t : 0 <= k <= dim ->
  let t' := fold_left (fun t a => tset t (getFlatIdx i a dim)
     (mkNode (pathCost (t (getFlatIdx i a dim))) (f a) (prevNodeIdx (t (getFlatIdx i a dim))))) (upto k) t in
  (forall x, pathCost (t' x) = pathCost (t x) /\ prevNodeIdx (t' x) = prevNodeIdx (t x)) /\
  (forall j a, 0 <= a < dim -> nodeCost (t' (getFlatIdx j a dim)) =
     if (j =? i) && (a <? k) then f a else nodeCost (t (getFlatIdx j a dim))).
Proof.
  intros Hk. cbn zeta.
  apply (fold_upto _ (fun k t' => (forall x, pathCost (t' x) = pathCost (t x) /\ prevNodeIdx (t' x) = prevNodeIdx (t x)) /\
  (forall j a, 0 <= a < dim -> nodeCost (t' (getFlatIdx j a dim)) =
     if (j =? i) && (a <? k) then f a else nodeCost (t (getFlatIdx j a dim))))); [lia| |].
  - split; [auto|]. intros j a Ha. destruct (Z.ltb_spec a 0); [lia|]. now rewrite andb_false_r.
  - intros m x Hm [Hp Hc]. split.
    + intros y. unfold tset. destruct (Z.eqb_spec y (getFlatIdx i m dim)) as [->|]; [|apply Hp].
      cbn [pathCost prevNodeIdx]. apply Hp.
    + intros j a Ha. unfold tset. destruct (Z.eqb_spec (getFlatIdx j a dim) (getFlatIdx i m dim)) as [E|E].
      * apply flat_inj in E; [|lia|lia]. destruct E as [-> ->]. cbn [nodeCost].
        rewrite Z.eqb_refl. destruct (Z.ltb_spec m (m + 1)); [reflexivity|lia].
      * rewrite Hc by exact Ha. destruct (Z.eqb_spec j i) as [->|]; [|reflexivity]. cbn [andb].
        destruct (Z.ltb_spec a m); destruct (Z.ltb_spec a (m + 1)); try reflexivity; try lia.
        exfalso. apply E. f_equal. lia.
Qed.
Lemma fold_cost_rows (f : Z -> Z -> Z) (cnt : Z -> Z) dim n t : 0 <= n ->
  (forall i, 0 <= i < n -> 0 <= cnt i <= dim) ->
  let t' := fold_left (fun t i => fold_left (fun t a => tset t (getFlatIdx i a dim)
     (mkNode (pathCost (t (getFlatIdx i a dim))) (f i a) (prevNodeIdx (t (getFlatIdx i a dim))))) (upto (cnt i)) t)
     (upto n) t in
  (forall x, pathCost (t' x) = pathCost (t x) /\ prevNodeIdx (t' x) = prevNodeIdx (t x)) /\
  (forall j a, 0 <= a < dim -> nodeCost (t' (getFlatIdx j a dim)) =
     if (0 <=? j) && (j <? n) && (a <? cnt j) then f j a else nodeCost (t (getFlatIdx j a dim))).
Proof.
  intros Hn Hcnt. cbn zeta.
  apply (fold_upto _ (fun m t' => (forall x, pathCost (t' x) = pathCost (t x) /\ prevNodeIdx (t' x) = prevNodeIdx (t x)) /\
  (forall j a, 0 <= a < dim -> nodeCost (t' (getFlatIdx j a dim)) =
     if (0 <=? j) && (j <? m) && (a <? cnt j) then f j a else nodeCost (t (getFlatIdx j a dim))))); [lia| |].
  - split; [auto|]. intros j a Ha. destruct (Z.leb_spec 0 j); destruct (Z.ltb_spec j 0); try lia; reflexivity.
  - intros m x Hm [Hp Hc]. destruct (fold_cost_row (f m) m dim (cnt m) x (Hcnt m Hm)) as [Hp' Hc']. split.
    + intros y. destruct (Hp' y) as [-> ->]. apply Hp.
    + intros j a Ha. rewrite Hc' by exact Ha. rewrite Hc by exact Ha.
      destruct (Z.eqb_spec j m) as [->|]; cbn [andb].
      * destruct (Z.leb_spec 0 m); destruct (Z.ltb_spec m (m + 1)); destruct (Z.ltb_spec m m); try lia; cbn [andb].
        destruct (a <? cnt m); reflexivity.
      * destruct (Z.ltb_spec j m); destruct (Z.ltb_spec j (m + 1)); try lia; reflexivity.
Qed.

(* a table whose columns 0..n-1 hold the given costs, with virtual ends *)
Definition fresh_table (costs : Z -> Z -> Z) (cnt : Z -> Z) (n dim : Z) (t : table) : Prop :=
  pathCost (t (getFlatIdx (-1) 0 dim)) = 0 /\ prevNodeIdx (t (getFlatIdx (-1) 0 dim)) = -1 /\
  (forall i a, -1 <= i <= n -> 0 <= a < dim -> (i = -1 -> a <> 0) -> pathCost (t (getFlatIdx i a dim)) = INF) /\
  (forall a, 0 <= a < dim -> nodeCost (t (getFlatIdx (-1) a dim)) = if a =? 0 then 0 else INF) /\
  (forall a, 0 <= a < dim -> nodeCost (t (getFlatIdx n a dim)) = if a =? 0 then 0 else INF) /\
  (forall i a, 0 <= i < n -> 0 <= a < dim -> nodeCost (t (getFlatIdx i a dim)) = if a <? cnt i then costs i a else INF).

Lemma fresh_intro (f : Z -> Z -> Z) (cnt : Z -> Z) dim n : 0 <= n -> 0 < dim ->
  (forall i, 0 <= i < n -> 0 <= cnt i <= dim) ->
  fresh_table f cnt n dim
   (fold_left (fun t i => fold_left (fun t a => tset t (getFlatIdx i a dim)
     (mkNode (pathCost (t (getFlatIdx i a dim))) (f i a) (prevNodeIdx (t (getFlatIdx i a dim))))) (upto (cnt i)) t)
     (upto n) (tset (tset (fun _ => node0) (getFlatIdx (-1) 0 dim) (mkNode 0 0 (-1)))
                    (getFlatIdx n 0 dim) (mkNode INF 0 (-1)))).
Proof.
  intros Hn Hd Hc.
  destruct (fold_cost_rows f cnt dim n (tset (tset (fun _ => node0) (getFlatIdx (-1) 0 dim) (mkNode 0 0 (-1)))
                    (getFlatIdx n 0 dim) (mkNode INF 0 (-1))) Hn Hc) as [Hp Hcost].
  set (t' := fold_left _ _ _) in *.
  assert (Ne : getFlatIdx (-1) 0 dim <> getFlatIdx n 0 dim) by (intros E; apply flat_inj in E; lia).
  assert (Hs : forall a, 0 <= a < dim -> a <> 0 -> getFlatIdx (-1) a dim <> getFlatIdx (-1) 0 dim
     /\ getFlatIdx (-1) a dim <> getFlatIdx n 0 dim) by (intros a Ha Hn0; split; intros E; apply flat_inj in E; lia).
  split; [|split; [|split; [|split; [|split]]]].
  - rewrite (proj1 (Hp _)), tset_other, tset_same by exact Ne. reflexivity.
  - rewrite (proj2 (Hp _)), tset_other, tset_same by exact Ne. reflexivity.
  - intros i a Hi Ha Hn0. rewrite (proj1 (Hp _)). unfold tset.
    destruct (Z.eqb_spec (getFlatIdx i a dim) (getFlatIdx n 0 dim)) as [E|E]; [reflexivity|].
    destruct (Z.eqb_spec (getFlatIdx i a dim) (getFlatIdx (-1) 0 dim)) as [E'|E']; [|reflexivity].
    apply flat_inj in E'; [|lia|lia]. destruct E' as [-> ->]. now destruct Hn0.
  - intros a Ha. rewrite Hcost by exact Ha. cbn [Z.leb andb]. change (0 <=? -1) with false. cbn [andb].
    destruct (Z.eqb_spec a 0) as [->|Hn0].
    + rewrite tset_other, tset_same by exact Ne. reflexivity.
    + destruct (Hs a Ha Hn0). rewrite !tset_other by assumption. reflexivity.
  - intros a Ha. rewrite Hcost by exact Ha. rewrite Z.ltb_irrefl, andb_false_r. cbn [andb].
    destruct (Z.eqb_spec a 0) as [->|Hn0].
    + rewrite tset_same. reflexivity.
    + rewrite !tset_other; [reflexivity| |]; intros E; apply flat_inj in E; lia.
  - intros i a Hi Ha. rewrite Hcost by exact Ha.
    destruct (Z.leb_spec 0 i); destruct (Z.ltb_spec i n); try lia. cbn [andb].
    destruct (Z.ltb_spec a (cnt i)); [reflexivity|].
    rewrite !tset_other; [reflexivity| |]; intros E; apply flat_inj in E; lia.
Qed.

Section Valid.
  Variables (f : Z -> Z -> Z) (cnt : Z -> Z) (n dim : Z) (t : table).
  Hypothesis n0 : 0 < n.
  Hypothesis dim0 : 0 < dim.
  Hypothesis F : fresh_table f cnt n dim t.
  Hypothesis fin : forall i a, 0 <= i < n -> 0 <= a < cnt i -> f i a < INF.
  Hypothesis cnts : forall i, 0 <= i < n -> 0 < cnt i <= dim.
  Lemma valid_start : valid dim t (-1) 0.
  Proof. split; [lia|]. destruct F as (_ & _ & _ & H & _). rewrite H by lia. cbn. discriminate. Qed.
  Lemma valid_only_start a : valid dim t (-1) a -> a = 0.
  Proof.
    intros [Ha Hv]. destruct F as (_ & _ & _ & H & _). rewrite H in Hv by exact Ha.
    destruct (Z.eqb_spec a 0); [assumption|congruence].
  Qed.
  Lemma valid_only_end a : valid dim t n a -> a = 0.
  Proof.
    intros [Ha Hv]. destruct F as (_ & _ & _ & _ & H & _). rewrite H in Hv by exact Ha.
    destruct (Z.eqb_spec a 0); [assumption|congruence].
  Qed.
  Lemma valid_end : valid dim t n 0.
  Proof. split; [lia|]. destruct F as (_ & _ & _ & _ & H & _). rewrite H by lia. cbn. discriminate. Qed.
  Lemma valid_mid i a : 0 <= i < n -> valid dim t i a <-> 0 <= a < cnt i.
  Proof.
    intros Hi. destruct F as (_ & _ & _ & _ & _ & H). pose proof (cnts i Hi). split.
    - intros [Ha Hv]. rewrite H in Hv by assumption. destruct (Z.ltb_spec a (cnt i)); [lia|congruence].
    - intros Ha. split; [lia|]. rewrite H by lia. destruct (Z.ltb_spec a (cnt i)); [|lia].
      pose proof (fin i a Hi Ha). lia.
  Qed.
  Lemma valid_some i : 0 <= i <= n -> exists a, valid dim t i a.
  Proof.
    intros Hi. exists 0. destruct (Z.eq_dec i n) as [->|]; [exact valid_end|].
    apply valid_mid; [lia|]. pose proof (cnts i ltac:(lia)). lia.
  Qed.
End Valid.
