From Verif Require Import Base GeomModel GeomSpec GCellModel GCellSpec GCellProofs BatchModel.
From Coq Require Import Permutation.

(* the loop *)
Lemma loop_from_nth size count : 0 < size -> forall f i k,
  count - i <= Z.of_nat f ->
  nth_error (loop_from f i count size) k =
  if i + Z.of_nat k * size <? count then Some (i + Z.of_nat k * size) else None.
Proof.
  intros Hs f. induction f as [|f IH]; intros i k Hf; cbn [loop_from].
  - rewrite (proj2 (nth_error_None (@nil Z) k)) by (cbn; lia).
    destruct (Z.ltb_spec (i + Z.of_nat k * size) count); [nia|reflexivity].
  - destruct (Z.ltb_spec i count) as [Hi|Hi].
    + destruct k as [|k]; cbn [nth_error].
      * replace (i + Z.of_nat 0 * size) with i by lia.
        destruct (Z.ltb_spec i count); [reflexivity|lia].
      * rewrite IH by lia.
        replace (i + size + Z.of_nat k * size) with (i + Z.of_nat (S k) * size) by lia. reflexivity.
    + rewrite (proj2 (nth_error_None (@nil Z) k)) by (cbn; lia).
      destruct (Z.ltb_spec (i + Z.of_nat k * size) count); [nia|reflexivity].
Qed.
Lemma loop_starts_nth offset count size k : 0 < size ->
  nth_error (loop_starts offset count size) k =
  if offset + Z.of_nat k * size <? count then Some (offset + Z.of_nat k * size) else None.
Proof. intro Hs. apply loop_from_nth; [assumption|lia]. Qed.

Lemma number_in l : forall n a k, In (a, k) (number n l) <-> (n <= k)%nat /\ nth_error l (k - n) = Some a.
Proof.
  induction l as [|b l IH]; intros n a k; cbn [number].
  - split; [intros []|]. intros [_ H]. destruct (k - n)%nat; discriminate.
  - cbn [In]. rewrite IH. split.
    + intros [E|[Hn H]].
      * inversion E; subst. split; [lia|]. replace (k - k)%nat with 0%nat by lia. reflexivity.
      * split; [lia|]. replace (k - n)%nat with (S (k - S n)) by lia. exact H.
    + intros [Hn H]. destruct (Nat.eq_dec n k) as [->|Hne].
      * left. replace (k - k)%nat with 0%nat in H by lia. inversion H; reflexivity.
      * right. split; [lia|]. replace (k - n)%nat with (S (k - S n)) in H by lia. exact H.
Qed.
Lemma number_nodup l : forall n, NoDup (map snd (number n l)).
Proof.
  induction l as [|b l IH]; intros n; cbn [number map]; constructor; [|apply IH].
  rewrite in_map_iff. intros [[a k] [E H]]. cbn in E. subst k. apply number_in in H. lia.
Qed.
Lemma number_length l : forall n, length (number n l) = length l.
Proof. induction l; intros; cbn; auto. Qed.

Definition is_clip (xg yg : gpat) (offset size : Z) (c : clip) : Prop :=
  c_i c = offset + Z.of_nat (c_xi c) * size /\ c_i c < gcount xg /\
  c_j c = offset + Z.of_nat (c_yi c) * size /\ c_j c < gcount yg.

Lemma clips_in xg yg offset size c : 0 < size ->
  In c (clips xg yg offset size) <-> is_clip xg yg offset size c.
Proof.
  intro Hs. unfold clips. rewrite in_flat_map. split.
  - intros ([i xi] & Hi & Hj). apply in_map_iff in Hj as ([j yi] & <- & Hj).
    apply number_in in Hi as [_ Hi]. apply number_in in Hj as [_ Hj].
    rewrite Nat.sub_0_r, loop_starts_nth in Hi, Hj by assumption.
    destruct (Z.ltb_spec (offset + Z.of_nat xi * size) (gcount xg)); inversion Hi; subst i.
    destruct (Z.ltb_spec (offset + Z.of_nat yi * size) (gcount yg)); inversion Hj; subst j.
    unfold is_clip; cbn. lia.
  - intros (Ei & Hi & Ej & Hj). exists (c_i c, c_xi c). split.
    + apply number_in. split; [lia|]. rewrite Nat.sub_0_r, loop_starts_nth by assumption.
      rewrite <- Ei. destruct (Z.ltb_spec (c_i c) (gcount xg)); [reflexivity|lia].
    + apply in_map_iff. exists (c_j c, c_yi c). split; [destruct c; reflexivity|].
      apply number_in. split; [lia|]. rewrite Nat.sub_0_r, loop_starts_nth by assumption.
      rewrite <- Ej. destruct (Z.ltb_spec (c_j c) (gcount yg)); [reflexivity|lia].
Qed.

Lemma NoDup_app_i {A} (l1 l2 : list A) : NoDup l1 -> NoDup l2 -> (forall a, In a l1 -> ~ In a l2) -> NoDup (l1 ++ l2).
Proof.
  induction 1 as [|a l Ha Hl IH]; intros H2 Hd; cbn; [assumption|].
  constructor.
  - rewrite in_app_iff. intros [H|H]; [auto|]. eapply Hd; [left; reflexivity|exact H].
  - apply IH; [assumption|]. intros b Hb. apply Hd. right; exact Hb.
Qed.
Lemma NoDup_map_inj {A B} (f : A -> B) l : (forall a b, In a l -> In b l -> f a = f b -> a = b) -> NoDup l -> NoDup (map f l).
Proof.
  intros Hf H. induction H as [|a l Ha Hl IH]; cbn; [constructor|]. constructor.
  - rewrite in_map_iff. intros (b & E & Hb). apply Hf in E; [subst; auto|right; assumption|left; reflexivity].
  - apply IH. intros; apply Hf; auto; right; assumption.
Qed.
Lemma NoDup_of_map {A B} (f : A -> B) l : NoDup (map f l) -> NoDup l.
Proof.
  induction l as [|a l IH]; cbn; intro H; [constructor|]. inversion H; subst. constructor; [|auto].
  intro Ha. apply H2. apply in_map. exact Ha.
Qed.

Lemma clips_nodup xg yg offset size : NoDup (clips xg yg offset size).
Proof.
  unfold clips. set (ys := number 0 (loop_starts offset (gcount yg) size)).
  assert (Hy : NoDup ys) by (eapply NoDup_of_map; apply number_nodup).
  generalize (number_nodup (loop_starts offset (gcount xg) size) 0).
  set (xs := number 0 (loop_starts offset (gcount xg) size)). clearbody xs ys.
  induction xs as [|[i xi] xs IH]; cbn [map flat_map fst snd]; intro Hx; [constructor|].
  inversion Hx; subst. apply NoDup_app_i; [| auto |].
  - apply NoDup_map_inj; [|assumption]. intros [] [] _ _ E. inversion E; reflexivity.
  - intros c Hc Hc'. apply in_map_iff in Hc as ([j yi] & <- & _).
    apply in_flat_map in Hc' as ([i' xi'] & Hi & Hj). apply in_map_iff in Hj as ([j' yi'] & E & _).
    cbn in E. inversion E; subst. apply H1. apply in_map_iff. exists (i, xi). auto.
Qed.

Lemma number_clips_length xs ys :
  length (flat_map (fun ix : Z * nat => map (fun jy : Z * nat => mkClip (fst ix) (fst jy) (snd ix) (snd jy)) ys) xs)
  = (length xs * length ys)%nat.
Proof.
  induction xs as [|a xs IH]; cbn [flat_map length Nat.mul]; [reflexivity|].
  rewrite app_length, map_length, IH. lia.
Qed.
Lemma loop_starts_length offset count size : 0 < size -> offset < count ->
  Z.of_nat (length (loop_starts offset count size)) = Z.quot (count - 1 - offset) size + 1.
Proof.
  intros Hs Hc. rewrite Z.quot_div_nonneg by lia.
  set (q := (count - 1 - offset) / size).
  pose proof (Z.div_mod (count - 1 - offset) size ltac:(lia)) as E. fold q in E.
  pose proof (Z.mod_pos_bound (count - 1 - offset) size Hs).
  set (n := length (loop_starts offset count size)).
  assert (Hq : 0 <= q) by (apply Z.div_pos; lia).
  assert (H1 : nth_error (loop_starts offset count size) n = None) by (apply nth_error_None; lia).
  rewrite loop_starts_nth in H1 by assumption.
  destruct (Z.ltb_spec (offset + Z.of_nat n * size) count) as [|Hn]; [discriminate|].
  assert (Hlt : q < Z.of_nat n) by nia.
  destruct (Z.eq_dec (Z.of_nat n) (q + 1)); [assumption|exfalso].
  assert (H2 : nth_error (loop_starts offset count size) (Z.to_nat (q + 1)) <> None)
    by (apply nth_error_Some; fold n; lia).
  rewrite loop_starts_nth in H2 by assumption.
  rewrite Z2Nat.id in H2 by lia.
  destruct (Z.ltb_spec (offset + (q + 1) * size) count); [nia|congruence].
Qed.

(* groups and batches *)
Lemma push_group_perm {A} lim (a : A) gs : Permutation (a :: concat gs) (concat (push_group lim a gs)).
Proof.
  induction gs as [|g gs IH]; [cbn; apply Permutation_refl|].
  cbn [push_group]. destruct gs as [|g' gs'].
  - destruct (Nat.leb lim (length g)); cbn [concat]; rewrite ?app_nil_r.
    + apply Permutation_cons_append.
    + apply Permutation_cons_append.
  - cbn [concat] in *. eapply Permutation_trans; [|apply Permutation_app_head; exact IH].
    apply Permutation_middle.
Qed.
Lemma push_group_in {A} lim (a : A) gs g : In g (push_group lim a gs) ->
  In g gs \/ g = [a] \/ exists g0, In g0 gs /\ (length g0 < lim)%nat /\ g = g0 ++ [a].
Proof.
  induction gs as [|h gs IH]; cbn [push_group].
  - intros [<-|[]]; auto.
  - destruct gs as [|g' gs'].
    + destruct (Nat.leb_spec lim (length h)); cbn [In].
      * intros [<-|[<-|[]]]; auto.
      * intros [<-|[]]. right; right. exists h. auto.
    + intros [<-|Hg]; [left; left; reflexivity|]. destruct (IH Hg) as [H|[H|(g0 & H & H')]].
      * left; right; assumption.
      * auto.
      * right; right. exists g0. split; [right|]; assumption.
Qed.

Definition good_batches (lim : nat) (bs : list (list (list clip))) : Prop :=
  forall b gs, nth_error bs b = Some gs -> forall g, In g gs ->
    g <> [] /\ (length g <= lim)%nat /\ forall c, In c g -> batch_idx c = b.

Lemma push_batch_nth lim b c bs : forall k,
  nth_error (push_batch lim b c bs) k =
  if Nat.eqb k b then option_map (push_group lim c) (nth_error bs k) else nth_error bs k.
Proof.
  revert b. induction bs as [|g bs IH]; intros b k.
  - cbn [push_batch]. rewrite (proj2 (nth_error_None (@nil (list (list clip))) k)) by (cbn; lia).
    destruct (Nat.eqb k b); reflexivity.
  - destruct b as [|b], k as [|k]; cbn [push_batch nth_error Nat.eqb option_map]; auto.
Qed.
Lemma push_batch_length lim c bs : forall b, length (push_batch lim b c bs) = length bs.
Proof. induction bs as [|g bs IH]; intros [|b]; cbn; auto. Qed.
Lemma push_batch_perm lim c bs : forall b, (b < length bs)%nat ->
  Permutation (c :: concat (concat bs)) (concat (concat (push_batch lim b c bs))).
Proof.
  induction bs as [|g bs IH]; intros b Hb; cbn in Hb; [lia|].
  destruct b as [|b]; cbn [push_batch concat].
  - rewrite !concat_app. change (c :: concat g ++ concat (concat bs)) with ((c :: concat g) ++ concat (concat bs)).
    apply Permutation_app_tail. apply push_group_perm.
  - rewrite !concat_app. eapply Permutation_trans; [|apply Permutation_app_head; apply IH; lia].
    apply Permutation_middle.
Qed.
Lemma batch_idx_lt c : (batch_idx c < 4)%nat.
Proof.
  unfold batch_idx, batch_step_x, batch_step_y.
  pose proof (Nat.mod_upper_bound (c_xi c) 2 ltac:(lia)).
  pose proof (Nat.mod_upper_bound (c_yi c) 2 ltac:(lia)). lia.
Qed.
Lemma push_batch_good lim c bs : (0 < lim)%nat -> good_batches lim bs -> good_batches lim (push_batch lim (batch_idx c) c bs).
Proof.
  intros Hl H b gs Hb g Hg. rewrite push_batch_nth in Hb.
  destruct (Nat.eqb_spec b (batch_idx c)) as [->|]; [|eauto].
  destruct (nth_error bs (batch_idx c)) as [gs0|] eqn:E; cbn in Hb; inversion Hb; subst gs.
  apply push_group_in in Hg as [Hg|[->|(g0 & H0 & Hlt & ->)]].
  - eapply H; eauto.
  - split; [discriminate|]. split; [cbn; lia|]. intros c' [<-|[]]; reflexivity.
  - destruct (H _ _ E _ H0) as (Hne & Hle & Hc). split; [destruct g0; discriminate|].
    split; [rewrite app_length; cbn; lia|].
    intros c' Hc'. apply in_app_iff in Hc' as [Hc'|[<-|[]]]; auto.
Qed.
Lemma batches_lim_inv lim cs : (0 < lim)%nat ->
  length (batches_lim lim cs) = 4%nat /\
  Permutation cs (concat (concat (batches_lim lim cs))) /\ good_batches lim (batches_lim lim cs).
Proof.
  intro Hl. unfold batches_lim.
  set (bs := repeat [] (batch_step_x * batch_step_y)).
  assert (H0 : length bs = 4%nat /\ good_batches lim bs /\ concat (concat bs) = []).
  { split; [reflexivity|split; [|reflexivity]]. intros b gs Hb g Hg.
    apply nth_error_In in Hb. apply repeat_spec in Hb. subst gs. destruct Hg. }
  destruct H0 as (Hn & Hg & He).
  enough (G : forall cs bs, length bs = 4%nat -> good_batches lim bs ->
    length (fold_left (fun bs c => push_batch lim (batch_idx c) c bs) cs bs) = 4%nat /\
    Permutation (cs ++ concat (concat bs)) (concat (concat (fold_left (fun bs c => push_batch lim (batch_idx c) c bs) cs bs))) /\
    good_batches lim (fold_left (fun bs c => push_batch lim (batch_idx c) c bs) cs bs)).
  { specialize (G cs bs Hn Hg). rewrite He, app_nil_r in G. exact G. }
  clear - Hl. intros cs. induction cs as [|c cs IH]; intros bs Hn Hg; cbn [fold_left].
  - split; [assumption|split; [apply Permutation_refl|assumption]].
  - pose proof (batch_idx_lt c) as Hb.
    destruct (IH (push_batch lim (batch_idx c) c bs)) as (H1 & H2 & H3).
    + rewrite push_batch_length; assumption.
    + apply push_batch_good; assumption.
    + split; [assumption|split; [|assumption]].
      eapply Permutation_trans; [|exact H2].
      cbn [app]. eapply Permutation_trans; [apply Permutation_middle|].
      apply Permutation_app_head. apply push_batch_perm. lia.
Qed.
Lemma groups_perm xg yg offset size : Permutation (clips xg yg offset size) (concat (groups xg yg offset size)).
Proof. apply (batches_lim_inv BATCHSIZE). unfold BATCHSIZE; lia. Qed.
Lemma groups_good xg yg offset size g : In g (groups xg yg offset size) ->
  g <> [] /\ (length g <= BATCHSIZE)%nat /\ forall c c', In c g -> In c' g -> batch_idx c = batch_idx c'.
Proof.
  intro Hg. apply in_concat in Hg as (gs & Hgs & Hg).
  apply In_nth_error in Hgs as [b Hb].
  destruct (batches_lim_inv BATCHSIZE (clips xg yg offset size)) as (_ & _ & H); [unfold BATCHSIZE; lia|].
  destruct (H b gs Hb g Hg) as (H1 & H2 & H3). split; [assumption|split; [assumption|]].
  intros c c' Hc Hc'. rewrite (H3 c Hc), (H3 c' Hc'). reflexivity.
Qed.
Lemma group_clip xg yg offset size g c : 0 < size -> In g (groups xg yg offset size) -> In c g ->
  is_clip xg yg offset size c.
Proof.
  intros Hs Hg Hc. apply clips_in; [assumption|].
  eapply Permutation_in; [apply Permutation_sym; apply groups_perm|].
  apply in_concat. exists g. auto.
Qed.

(* the box of a clip *)
Lemma axis_edges g lo hi i size n : axis_ok g lo hi -> 0 < size -> - size < i < gcount g ->
  gcount g - 1 <= n ->
  let a := Z.max 0 i in let b := Z.min (gcount g - 1) (i + size - 1) in
  gcell_clamp g i = a /\ gcell_clamp g (Z.min n (i + size - 1)) = b /\
  0 <= a <= b /\ b < gcount g.
Proof.
  intros (Hs & Hc & _) Hz Hi Hn. cbn zeta. unfold gcell_clamp. zcases; lia.
Qed.
Lemma lo_mono g lo hi i j : axis_ok g lo hi -> 0 <= i <= j -> j < gcount g -> gcell_lo g lo i <= gcell_lo g lo j.
Proof. intros (Hs & Hc & Hlh & H1 & H2) Hi Hj. unfold gcell_lo. zcases; nia. Qed.
Lemma hi_mono g lo hi i j : axis_ok g lo hi -> 0 <= i <= j -> j < gcount g -> gcell_hi g hi i <= gcell_hi g hi j.
Proof. intros (Hs & Hc & Hlh & H1 & H2) Hi Hj. unfold gcell_hi. zcases; nia. Qed.
Lemma lo_hi_le g lo hi i j : axis_ok g lo hi -> 0 <= i <= j -> j < gcount g -> gcell_lo g lo i <= gcell_hi g hi j.
Proof. intros (Hs & Hc & Hlh & H1 & H2) Hi Hj. unfold gcell_lo, gcell_hi. zcases; nia. Qed.
Lemma clip_start_low offset size k : 0 < size -> - size < offset -> - size < offset + Z.of_nat k * size.
Proof. nia. Qed.

Lemma gcell_box_gen die xg yg i : grid_ok die xg yg ->
  gcell_box die xg yg i =
  mkBox (mkPt (gcell_lo xg (bleft die) (gcell_clamp xg (px i))) (gcell_lo yg (bbottom die) (gcell_clamp yg (py i))))
        (mkPt (gcell_hi xg (bright die) (gcell_clamp xg (px i))) (gcell_hi yg (btop die) (gcell_clamp yg (py i)))).
Proof.
  intros [Hx Hy]. unfold gcell_box.
  assert (Cx : 0 <= gcell_clamp xg (px i) < gcount xg)
    by (destruct Hx as (_ & Hc & _); unfold gcell_clamp; zcases; lia).
  assert (Cy : 0 <= gcell_clamp yg (py i) < gcount yg)
    by (destruct Hy as (_ & Hc & _); unfold gcell_clamp; zcases; lia).
  pose proof (lo_le_hi _ _ _ _ Hx Cx). pose proof (lo_le_hi _ _ _ _ Hy Cy).
  unfold box_set. zcases; try lia; reflexivity.
Qed.

Definition fst_g (i : Z) : Z := Z.max 0 i.
Definition lst_g (g : gpat) (size i : Z) : Z := Z.min (gcount g - 1) (i + size - 1).
Lemma route_box_eq die xg yg offset size c : grid_ok die xg yg -> 0 < size -> - size < offset ->
  is_clip xg yg offset size c ->
  route_box die xg yg size c =
  mkBox (mkPt (gcell_lo xg (bleft die) (fst_g (c_i c))) (gcell_lo yg (bbottom die) (fst_g (c_j c))))
        (mkPt (gcell_hi xg (bright die) (lst_g xg size (c_i c))) (gcell_hi yg (btop die) (lst_g yg size (c_j c)))).
Proof.
  intros H Hs Ho (Ei & Hi & Ej & Hj). unfold route_box. rewrite !gcell_box_gen by assumption.
  cbn [bleft bbottom bright btop ll ur px py].
  pose proof (clip_start_low offset size (c_xi c) Hs Ho) as Li. rewrite <- Ei in Li.
  pose proof (clip_start_low offset size (c_yi c) Hs Ho) as Lj. rewrite <- Ej in Lj.
  destruct H as [Hx Hy].
  destruct (axis_edges xg _ _ (c_i c) size (gcount xg - 1) Hx Hs ltac:(lia) ltac:(lia)) as (E1 & E2 & B1 & B2).
  destruct (axis_edges yg _ _ (c_j c) size (gcount yg) Hy Hs ltac:(lia) ltac:(lia)) as (E3 & E4 & B3 & B4).
  rewrite E1, E2, E3, E4. fold (fst_g (c_i c)) (fst_g (c_j c)) (lst_g xg size (c_i c)) (lst_g yg size (c_j c)).
  pose proof (lo_hi_le xg _ _ _ _ Hx B1 B2) as L1. pose proof (lo_hi_le yg _ _ _ _ Hy B3 B4) as L2.
  change (Z.max 0 (c_i c)) with (fst_g (c_i c)) in *. change (Z.max 0 (c_j c)) with (fst_g (c_j c)) in *.
  change (Z.min (gcount xg - 1) (c_i c + size - 1)) with (lst_g xg size (c_i c)) in *.
  change (Z.min (gcount yg - 1) (c_j c + size - 1)) with (lst_g yg size (c_j c)) in *.
  unfold box_set. zcases; try lia; reflexivity.
Qed.

(* index of the clip holding a gcell index, one axis *)
Lemma holding_start offset size count a : 0 < size -> - size < offset <= 0 -> 0 <= a < count ->
  exists k, let i := offset + Z.of_nat k * size in i <= a < i + size /\ i < count.
Proof.
  intros Hs Ho Ha. exists (Z.to_nat ((a - offset) / size)). cbn zeta.
  assert (0 <= (a - offset) / size) by (apply Z.div_pos; lia).
  rewrite Z2Nat.id by assumption.
  pose proof (Z.div_mod (a - offset) size ltac:(lia)).
  pose proof (Z.mod_pos_bound (a - offset) size Hs). nia.
Qed.

Lemma gcell_in_clip die xg yg offset size idx : grid_ok die xg yg -> 0 < size -> - size < offset <= 0 ->
  idx_ok xg yg idx ->
  exists c, In c (clips xg yg offset size) /\
    forall p, in_box p (gcell_box die xg yg idx) -> in_box p (route_box die xg yg size c).
Proof.
  intros H Hs Ho [Ix Iy].
  destruct (holding_start offset size (gcount xg) (px idx) Hs Ho Ix) as (k & K1 & K2).
  destruct (holding_start offset size (gcount yg) (py idx) Hs Ho Iy) as (m & M1 & M2).
  set (c := mkClip (offset + Z.of_nat k * size) (offset + Z.of_nat m * size) k m).
  assert (Hc : is_clip xg yg offset size c) by (unfold is_clip; cbn; cbn zeta in *; lia).
  exists c. split; [apply clips_in; assumption|].
  intros p. rewrite (route_box_eq die xg yg offset size c) by (try assumption; lia).
  rewrite gcell_box_eq by (try assumption; split; assumption).
  unfold in_box; cbn [ll ur px py]. destruct H as [Hx Hy]. cbn zeta in *.
  pose proof (lo_mono xg _ _ (fst_g (c_i c)) (px idx) Hx ltac:(unfold fst_g; cbn; lia) ltac:(lia)).
  pose proof (lo_mono yg _ _ (fst_g (c_j c)) (py idx) Hy ltac:(unfold fst_g; cbn; lia) ltac:(lia)).
  pose proof (hi_mono xg _ _ (px idx) (lst_g xg size (c_i c)) Hx ltac:(unfold lst_g; cbn; lia) ltac:(unfold lst_g; cbn; lia)).
  pose proof (hi_mono yg _ _ (py idx) (lst_g yg size (c_j c)) Hy ltac:(unfold lst_g; cbn; lia) ltac:(unfold lst_g; cbn; lia)).
  lia.
Qed.

(* two clips that differ in x (or y) do not share interior *)
Lemma axis_apart g lo hi offset size k k' : axis_ok g lo hi -> 0 < size -> - size < offset ->
  let i := offset + Z.of_nat k * size in let i' := offset + Z.of_nat k' * size in
  i < gcount g -> i' < gcount g -> (k < k')%nat ->
  gcell_hi g hi (lst_g g size i) <= gcell_lo g lo (fst_g i').
Proof.
  intros Ha Hs Ho i i' Hi Hi' Hk.
  assert (i + size <= i') by (unfold i, i'; nia).
  pose proof (clip_start_low offset size k Hs Ho).
  apply cells_ordered; [assumption|..]; unfold lst_g, fst_g; unfold i, i' in *; try lia.
Qed.
Lemma axis_far g lo hi offset size k k' : axis_ok g lo hi -> 0 < size -> - size < offset ->
  let i := offset + Z.of_nat k * size in let i' := offset + Z.of_nat k' * size in
  i < gcount g -> i' < gcount g -> (k + 2 <= k')%nat ->
  gcell_hi g hi (lst_g g size i) + size * gspacing g <= gcell_lo g lo (fst_g i').
Proof.
  intros (Hp & Hc & Hlh & H1 & H2) Hs Ho i i' Hi Hi' Hk.
  assert (i + 2 * size <= i') by (unfold i, i'; nia).
  pose proof (clip_start_low offset size k Hs Ho) as Hl. fold i in Hl.
  unfold gcell_hi, gcell_lo, lst_g, fst_g.
  destruct (Z.min (gcount g - 1) (i + size - 1) >=? gcount g - 1) eqn:E1; [lia|].
  destruct (Z.max 0 i' <=? 0) eqn:E2; [lia|].
  replace (Z.min (gcount g - 1) (i + size - 1)) with (i + size - 1) by lia.
  replace (Z.max 0 i') with i' by lia. nia.
Qed.

Lemma clip_eq xg yg offset size c c' : is_clip xg yg offset size c -> is_clip xg yg offset size c' ->
  c_xi c = c_xi c' -> c_yi c = c_yi c' -> c = c'.
Proof.
  intros (E1 & _ & E2 & _) (E3 & _ & E4 & _) Ex Ey. destruct c, c'; cbn in *. subst. reflexivity.
Qed.
Lemma clips_disjoint die xg yg offset size c c' : grid_ok die xg yg -> 0 < size -> - size < offset ->
  is_clip xg yg offset size c -> is_clip xg yg offset size c' -> c <> c' ->
  forall x2 y2, in_interior2 x2 y2 (route_box die xg yg size c) ->
    in_interior2 x2 y2 (route_box die xg yg size c') -> False.
Proof.
  intros H Hs Ho Hc Hc' Hne x2 y2.
  rewrite (route_box_eq die xg yg offset size c), (route_box_eq die xg yg offset size c') by assumption.
  unfold in_interior2; cbn [ll ur px py]. intros [Ax Ay] [Bx By].
  assert (D : c_xi c <> c_xi c' \/ c_yi c <> c_yi c').
  { destruct (Nat.eq_dec (c_xi c) (c_xi c')); [|auto]. destruct (Nat.eq_dec (c_yi c) (c_yi c')); [|auto].
    exfalso. apply Hne. eapply clip_eq; eassumption. }
  destruct H as [Hx Hy].
  destruct Hc as (E1 & I1 & E2 & I2), Hc' as (E3 & I3 & E4 & I4).
  rewrite E1, E2, E3, E4 in *.
  destruct D as [D|D].
  - destruct (Nat.lt_total (c_xi c) (c_xi c')) as [L|[L|L]]; [|lia|].
    + pose proof (axis_apart xg _ _ offset size _ _ Hx Hs Ho I1 I3 L). lia.
    + pose proof (axis_apart xg _ _ offset size _ _ Hx Hs Ho I3 I1 L). lia.
  - destruct (Nat.lt_total (c_yi c) (c_yi c')) as [L|[L|L]]; [|lia|].
    + pose proof (axis_apart yg _ _ offset size _ _ Hy Hs Ho I2 I4 L). lia.
    + pose proof (axis_apart yg _ _ offset size _ _ Hy Hs Ho I4 I2 L). lia.
Qed.
Lemma route_in_die die xg yg offset size c : grid_ok die xg yg -> 0 < size -> - size < offset ->
  is_clip xg yg offset size c -> forall p, in_box p (route_box die xg yg size c) -> in_box p die.
Proof.
  intros H Hs Ho Hc p. rewrite (route_box_eq die xg yg offset size c) by assumption.
  unfold in_box; cbn [ll ur px py]. destruct H as [Hx Hy]. destruct Hc as (E1 & I1 & E2 & I2).
  pose proof (clip_start_low offset size (c_xi c) Hs Ho) as Li. rewrite <- E1 in Li.
  pose proof (clip_start_low offset size (c_yi c) Hs Ho) as Lj. rewrite <- E2 in Lj.
  destruct (in_die xg _ _ (fst_g (c_i c)) Hx) as [? _]; [unfold fst_g; destruct Hx as (_ & ? & _); lia|].
  destruct (in_die yg _ _ (fst_g (c_j c)) Hy) as [? _]; [unfold fst_g; destruct Hy as (_ & ? & _); lia|].
  destruct (in_die xg _ _ (lst_g xg size (c_i c)) Hx) as [_ ?]; [unfold lst_g; destruct Hx as (_ & ? & _); lia|].
  destruct (in_die yg _ _ (lst_g yg size (c_j c)) Hy) as [_ ?]; [unfold lst_g; destruct Hy as (_ & ? & _); lia|].
  unfold bleft, bright, bbottom, btop in *. lia.
Qed.

Lemma same_batch_parity c c' : batch_idx c = batch_idx c' ->
  Nat.modulo (c_xi c) 2 = Nat.modulo (c_xi c') 2 /\ Nat.modulo (c_yi c) 2 = Nat.modulo (c_yi c') 2.
Proof.
  unfold batch_idx, batch_step_x, batch_step_y.
  pose proof (Nat.mod_upper_bound (c_xi c) 2 ltac:(lia)).
  pose proof (Nat.mod_upper_bound (c_yi c) 2 ltac:(lia)).
  pose proof (Nat.mod_upper_bound (c_xi c') 2 ltac:(lia)).
  pose proof (Nat.mod_upper_bound (c_yi c') 2 ltac:(lia)). lia.
Qed.
Lemma parity_gap a b : Nat.modulo a 2 = Nat.modulo b 2 -> (a < b)%nat -> (a + 2 <= b)%nat.
Proof.
  intros E L. pose proof (Nat.div_mod a 2 ltac:(lia)). pose proof (Nat.div_mod b 2 ltac:(lia)). lia.
Qed.

(* [gap] separates two boxes along x or along y *)
Lemma parallel_apart die xg yg offset size g c c' : grid_ok die xg yg -> 0 < size -> - size < offset ->
  In g (groups xg yg offset size) -> In c g -> In c' g -> c <> c' ->
  let b := route_box die xg yg size c in let b' := route_box die xg yg size c' in
  bright b + size * gspacing xg <= bleft b' \/ bright b' + size * gspacing xg <= bleft b \/
  btop b + size * gspacing yg <= bbottom b' \/ btop b' + size * gspacing yg <= bbottom b.
Proof.
  intros H Hs Ho Hg Hc Hc' Hne b b'. unfold b, b'.
  pose proof (group_clip _ _ _ _ _ _ Hs Hg Hc) as K. pose proof (group_clip _ _ _ _ _ _ Hs Hg Hc') as K'.
  destruct (groups_good _ _ _ _ _ Hg) as (_ & _ & Hb). specialize (Hb c c' Hc Hc').
  apply same_batch_parity in Hb as [Px Py].
  rewrite (route_box_eq die xg yg offset size c), (route_box_eq die xg yg offset size c') by assumption.
  cbn [bleft bright bbottom btop ll ur px py].
  assert (D : c_xi c <> c_xi c' \/ c_yi c <> c_yi c').
  { destruct (Nat.eq_dec (c_xi c) (c_xi c')); [|auto]. destruct (Nat.eq_dec (c_yi c) (c_yi c')); [|auto].
    exfalso. apply Hne. eapply clip_eq; eassumption. }
  destruct H as [Hx Hy].
  destruct K as (E1 & I1 & E2 & I2), K' as (E3 & I3 & E4 & I4).
  rewrite E1, E2, E3, E4 in *.
  destruct D as [D|D].
  - destruct (Nat.lt_total (c_xi c) (c_xi c')) as [L|[L|L]]; [|lia|].
    + left. apply (axis_far xg _ _ offset size _ _ Hx Hs Ho I1 I3). apply parity_gap; assumption.
    + right; left. apply (axis_far xg _ _ offset size _ _ Hx Hs Ho I3 I1). apply parity_gap; [symmetry|]; assumption.
  - destruct (Nat.lt_total (c_yi c) (c_yi c')) as [L|[L|L]]; [|lia|].
    + right; right; left. apply (axis_far yg _ _ offset size _ _ Hy Hs Ho I2 I4). apply parity_gap; assumption.
    + right; right; right. apply (axis_far yg _ _ offset size _ _ Hy Hs Ho I4 I2). apply parity_gap; [symmetry|]; assumption.
Qed.
