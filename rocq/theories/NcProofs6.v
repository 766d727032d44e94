(* Proofs about the costs while one net is routed: outside wires, access points. *)
From Coq Require Import Permutation.
From Verif Require Import Base Stl GeomModel GeomSpec GeomProofs GridModel GridSpec GridProofs GridProofs2 CostModel CostSpec CostProofs CostProofs2 CostProofs3 CostProofs4 SetupModel SetupSpec SetupProofs SetupProofs2 SetupProofs3 SetupProofs4 SetupProofs5 SetupProofs6 NcModel NcSpec NcProofs NcProofs2 NcProofs3 NcProofs4 NcProofs5.

(* ---- the walk ---- *)
Lemma nth_lt l i j : sorted_lt l -> 0 <= i -> i < j -> j < Z.of_nat (length l) -> nth (Z.to_nat i) l 0 < nth (Z.to_nat j) l 0.
Proof. intros S A B C. apply S; lia. Qed.
Lemma nth_le l i j : sorted_lt l -> 0 <= i -> i <= j -> j < Z.of_nat (length l) -> nth (Z.to_nat i) l 0 <= nth (Z.to_nat j) l 0.
Proof. intros S A B C. destruct (Z.eq_dec i j) as [->|N]; [lia|]. pose proof (nth_lt l i j S A ltac:(lia) C). lia. Qed.
Lemma far_far p d a b : far (far p d a) d b = far p d (a + b).
Proof. destruct d; cbn [far GeomModel.mx GeomModel.my GeomModel.mz mx my mz]; try reflexivity; f_equal; lia. Qed.
Lemma far_0 p d : far p d 0 = p.
Proof. destruct p as [x y z], d; cbn [far GeomModel.mx GeomModel.my GeomModel.mz]; try reflexivity; f_equal; lia. Qed.
Lemma move_far p d : planar d = true -> move p d = far p d 1.
Proof. destruct d; try discriminate; reflexivity. Qed.
Lemma edge_len_some g p d e : grid_sorted g -> planar d = true -> edge_len g p d = Some e ->
  axis_in g d p /\ axis_in g d (far p d 1) /\ e = Z.abs (along g d (far p d 1) - along g d p) /\ 0 < e.
Proof.
  intros (Sx & Sy & _) P H. destruct d; try discriminate P; unfold edge_len, correct, along, axis_in, getPoint, nx, ny in *; cbn [far GeomModel.px GeomModel.py px py mx my mz] in *;
    (destruct ((0 <=? _) && (_ <? _)) eqn:C; [|discriminate H]); apply andb_true_iff in C as [C1 C2]; apply Z.leb_le in C1; apply Z.ltb_lt in C2; cbn [mx my] in *; injection H as <-.
  - pose proof (nth_lt (gys g) (my p - 1) (my p - 1 + 1) Sy C1 ltac:(lia) C2). replace (my p - 1 + 1) with (my p) in * by lia. lia.
  - pose proof (nth_lt (gxs g) (mx p - 1) (mx p - 1 + 1) Sx C1 ltac:(lia) C2). replace (mx p - 1 + 1) with (mx p) in * by lia. lia.
  - pose proof (nth_lt (gxs g) (mx p) (mx p + 1) Sx C1 ltac:(lia) C2). lia.
  - pose proof (nth_lt (gys g) (my p) (my p + 1) Sy C1 ltac:(lia) C2). lia.
Qed.
Lemma along_add g p d k : grid_sorted g -> planar d = true -> 1 <= k -> axis_in g d p -> axis_in g d (far p d k) ->
  axis_in g d (far p d 1) /\ Z.abs (along g d (far p d k) - along g d p) = Z.abs (along g d (far p d 1) - along g d p) + Z.abs (along g d (far p d k) - along g d (far p d 1)).
Proof.
  intros (Sx & Sy & _) P K A B. destruct d; try discriminate P; unfold along, axis_in, getPoint, nx, ny in *; cbn [far GeomModel.px GeomModel.py px py mx my mz] in *; (split; [lia|]).
  - pose proof (nth_le (gys g) (my p - k) (my p - 1) Sy ltac:(lia) ltac:(lia) ltac:(lia)). pose proof (nth_le (gys g) (my p - 1) (my p) Sy ltac:(lia) ltac:(lia) ltac:(lia)). lia.
  - pose proof (nth_le (gxs g) (mx p - k) (mx p - 1) Sx ltac:(lia) ltac:(lia) ltac:(lia)). pose proof (nth_le (gxs g) (mx p - 1) (mx p) Sx ltac:(lia) ltac:(lia) ltac:(lia)). lia.
  - pose proof (nth_le (gxs g) (mx p + 1) (mx p + k) Sx ltac:(lia) ltac:(lia) ltac:(lia)). pose proof (nth_le (gxs g) (mx p) (mx p + 1) Sx ltac:(lia) ltac:(lia) ltac:(lia)). lia.
  - pose proof (nth_le (gys g) (my p + 1) (my p + k) Sy ltac:(lia) ltac:(lia) ltac:(lia)). pose proof (nth_le (gys g) (my p) (my p + 1) Sy ltac:(lia) ltac:(lia) ltac:(lia)). lia.
Qed.
Lemma walk_spec g d len : grid_sorted g -> planar d = true -> forall fuel p cur l, cur <= len -> walk fuel g p d len cur = Some l ->
  forall q, In q l <-> exists k, 0 <= k /\ q = far p d k /\ (k = 0 \/ (axis_in g d (far p d (k + 1)) /\ cur + Z.abs (along g d (far p d (k + 1)) - along g d (far p d 1)) <= len)).
Proof.
  intros GS P. induction fuel as [|fuel IH]; intros p cur l C H q.
  - cbn [walk] in H. rewrite Z.gtb_ltb in H. replace (len <? cur) with false in H by (symmetry; apply Z.ltb_ge; exact C). discriminate.
  - cbn [walk] in H. rewrite Z.gtb_ltb in H. replace (len <? cur) with false in H by (symmetry; apply Z.ltb_ge; exact C).
    rewrite (move_far p d P) in H. destruct (edge_len g (far p d 1) d) as [e|] eqn:EE; [|discriminate].
    destruct (edge_len_some g _ d e GS P EE) as (A1 & A2 & EA & EP). rewrite far_far in A2, EA. change (1 + 1) with 2 in *.
    replace (e =? 0) with false in H by (symmetry; apply Z.eqb_neq; lia).
    destruct (walk fuel g (far p d 1) d len (cur + e)) as [l'|] eqn:EW; [|discriminate]. injection H as <-.
    assert (NEXT : forall k, 1 <= k -> axis_in g d (far p d (k + 1)) -> Z.abs (along g d (far p d (k + 1)) - along g d (far p d 1)) = e + Z.abs (along g d (far p d (k + 1)) - along g d (far p d 2))).
    { intros k K X. pose proof (along_add g (far p d 1) d k GS P K A1) as Y. rewrite !far_far in Y. replace (1 + k) with (k + 1) in Y by lia. destruct (Y X) as [_ Y']. change (1 + 1) with 2 in Y'. lia. }
    destruct (Z_le_gt_dec (cur + e) len) as [L|G].
    + specialize (IH (far p d 1) (cur + e) l' L EW q). cbn [In]. rewrite IH. split.
      * intros [<-|(k & K & -> & D)]; [exists 0; split; [lia|]; split; [symmetry; apply far_0|left; reflexivity]|]. rewrite far_far. exists (k + 1). split; [lia|]. split; [f_equal; lia|]. right.
        destruct D as [->|[X Y]].
        -- change (0 + 1 + 1) with 2. split; [exact A2|]. lia.
        -- rewrite !far_far in X; rewrite !far_far in Y; rewrite ?far_far in Y. replace (1 + (k + 1)) with (k + 1 + 1) in X, Y by lia. change (1 + 1) with 2 in Y. split; [exact X|]. rewrite (NEXT (k + 1) ltac:(lia) X). lia.
      * intros (k & K & -> & D). destruct (Z.eq_dec k 0) as [->|NK]; [left; symmetry; apply far_0|]. destruct D as [->|[X Y]]; [lia|]. right. exists (k - 1). split; [lia|]. rewrite !far_far.
        split; [f_equal; lia|]. destruct (Z.eq_dec k 1) as [->|NK1]; [left; reflexivity|]. right. replace (1 + (k - 1 + 1)) with (k + 1) by lia. change (1 + 1) with 2. split; [exact X|]. rewrite (NEXT k ltac:(lia) X) in Y. lia.
    + assert (l' = []). { destruct fuel; cbn [walk] in EW; rewrite Z.gtb_ltb in EW; replace (len <? cur + e) with true in EW by (symmetry; apply Z.ltb_lt; lia); congruence. } subst l'. split.
      * intros [<-|[]]. exists 0. split; [lia|]. split; [symmetry; apply far_0|left; reflexivity].
      * intros (k & K & -> & D). left. destruct D as [->|[X Y]]; [symmetry; apply far_0|]. destruct (Z.eq_dec k 0) as [->|NK]; [symmetry; apply far_0|]. rewrite (NEXT k ltac:(lia) X) in Y. lia.
Qed.
Lemma walk_line g p d len l : grid_sorted g -> planar d = true -> 0 <= len -> walk (fuel_of g) g p d len 0 = Some l -> forall q, In q l <-> in_line g p d len q.
Proof. intros GS P L H q. rewrite (walk_spec g d len GS P _ p 0 l L H q). reflexivity. Qed.

(* ---- items of a net ---- *)
Lemma item_over S E N q : In (Over q) (net_items S E N) <-> up_access N q.
Proof.
  unfold net_items, up_access, pin_access. rewrite in_flat_map. split.
  - intros (P & HP & H). unfold pin_items in H. destruct (np_std P) as [std|] eqn:ES; [|destruct H]. apply in_flat_map in H as (a & Ha & H). exists std, P, a. split; [auto|].
    unfold ap_items in H. apply in_app_iff in H as [H|H].
    + destruct (na_ok a DU); [|destruct H]. split; [reflexivity|]. apply in_app_iff in H as [H|[H|[]]]; [|congruence].
      destruct (_ && _); [|destruct H]. destruct (ce_horz E _); [destruct (na_onx a)|destruct (na_ony a)]; cbn in H; intuition discriminate.
    + destruct std; [destruct H|]. apply in_flat_map in H as (d & _ & H). destruct (na_ok a d); [|destruct H]. destruct H as [H|[]]. discriminate.
  - intros (std & P & a & (HP & ES & Ha) & U & <-). exists P. split; [exact HP|]. unfold pin_items. rewrite ES. apply in_flat_map. exists a. split; [exact Ha|].
    unfold ap_items. rewrite U. apply in_app_iff. left. apply in_app_iff. right. left. reflexivity.
Qed.
Lemma upper_on E a : upper_on_track E a = true <-> na_ok a DU = true /\ on_upper_track E a.
Proof. unfold upper_on_track, on_upper_track. rewrite andb_true_iff. destruct (ce_horz E _); reflexivity. Qed.
Lemma item_line S E N p d len : In (Line p d len) (net_items S E N) <-> access_line S E N p d len.
Proof.
  unfold net_items, access_line, pin_access. rewrite in_flat_map. split.
  - intros (P & HP & H). unfold pin_items in H. destruct (np_std P) as [std|] eqn:ES; [|destruct H]. apply in_flat_map in H as (a & Ha & H). exists std, P, a. split; [auto|].
    unfold ap_items in H. apply in_app_iff in H as [H|H].
    + right. destruct (na_ok a DU) eqn:U; [|destruct H]. apply in_app_iff in H as [H|[H|[]]]; [|discriminate]. split; [reflexivity|].
      destruct ((_ <=? _) && _) eqn:C; [|destruct H]. apply andb_true_iff in C as [C1 C2]. apply Z.leb_le in C1. apply negb_true_iff in C2. split; [exact C1|].
      assert (HS : std = true -> forall a', In a' (np_aps P) -> na_ok a' DU = true -> ~ on_upper_track E a').
      { intros -> a' Ha' U' T. cbn [andb] in C2. assert (existsb (upper_on_track E) (np_aps P) = true) by (apply existsb_exists; exists a'; split; [exact Ha'|apply upper_on; auto]). congruence. }
      unfold on_upper_track at 1. destruct (ce_horz E (na_lay a + 2)).
      * destruct (na_onx a); [destruct H|]. split; [discriminate|]. split; [exact HS|]. destruct H as [H|[H|[]]]; injection H as <- <- <-; repeat split; auto.
      * destruct (na_ony a); [destruct H|]. split; [discriminate|]. split; [exact HS|]. destruct H as [H|[H|[]]]; injection H as <- <- <-; repeat split; auto.
    + left. destruct std; [destruct H|]. apply in_flat_map in H as (e & He & H). destruct (na_ok a e) eqn:OK; [|destruct H]. destruct H as [H|[]]. injection H as <- <- <-.
      split; [reflexivity|]. split; [cbn in He; intuition subst; reflexivity|]. auto.
  - intros (std & P & a & (HP & ES & Ha) & D). exists P. split; [exact HP|]. unfold pin_items. rewrite ES. apply in_flat_map. exists a. split; [exact Ha|]. unfold ap_items. apply in_app_iff.
    destruct D as [(-> & PL & OK & -> & ->)|(U & LT & NT & HS & -> & HD & ->)].
    + right. apply in_flat_map. exists d. split; [destruct d; try discriminate PL; cbn; auto|]. rewrite OK. left. reflexivity.
    + left. rewrite U. apply in_app_iff. left. replace (na_lay a + 2 <=? se_top S) with true by (symmetry; apply Z.leb_le; exact LT).
      assert (X : std && existsb (upper_on_track E) (np_aps P) = false).
      { destruct std; [|reflexivity]. cbn [andb]. apply not_true_iff_false. intros X. apply existsb_exists in X as (a' & Ha' & T). apply upper_on in T as [T1 T2]. exact (HS eq_refl a' Ha' T1 T2). }
      rewrite X. cbn [andb negb]. unfold on_upper_track in NT. change (mkMI (mx (na_mi a)) (my (na_mi a)) (mz (na_mi a) + 1)) with (above (na_mi a)).
      destruct (ce_horz E (na_lay a + 2)); [destruct (na_onx a)|destruct (na_ony a)]; try congruence; destruct HD as [-> | ->]; cbn; auto.
Qed.
