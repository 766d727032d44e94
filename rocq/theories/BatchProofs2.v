(* Panels and interleavings. *)
From Verif Require Import Base GeomModel GeomSpec GCellModel GCellSpec GCellProofs BatchModel BatchSpec BatchProofs.
From Coq Require Import Permutation.

Lemma panel_axis g lo hi i size : axis_ok g lo hi -> 0 < size -> - size < i < gcount g ->
  gcell_clamp g i = fst_g i /\ gcell_clamp g (Z.min (i + size - 1) (gcount g - 1)) = lst_g g size i /\
  0 <= fst_g i <= lst_g g size i /\ lst_g g size i < gcount g.
Proof.
  intros Ha Hs Hi. rewrite (Z.min_comm (i + size - 1)).
  destruct (axis_edges g lo hi i size (gcount g - 1) Ha Hs Hi ltac:(lia)) as (A & B & C & D).
  repeat split; try assumption; apply C.
Qed.
Lemma full_axis g lo hi : axis_ok g lo hi ->
  gcell_lo g lo (gcell_clamp g 0) = lo /\ gcell_hi g hi (gcell_clamp g (gcount g - 1)) = hi.
Proof.
  intros (Hs & Hc & _). unfold gcell_clamp, gcell_lo, gcell_hi. zcases; lia.
Qed.
Lemma panel_h_eq die xg yg size i : grid_ok die xg yg -> 0 < size -> - size < i < gcount yg ->
  panel_box_h die xg yg size i =
  mkBox (mkPt (bleft die) (gcell_lo yg (bbottom die) (fst_g i)))
        (mkPt (bright die) (gcell_hi yg (btop die) (lst_g yg size i))).
Proof.
  intros H Hs Hi. unfold panel_box_h. rewrite !gcell_box_gen by assumption.
  cbn [bleft bbottom bright btop ll ur px py]. destruct H as [Hx Hy].
  destruct (full_axis _ _ _ Hx) as [F1 F2]. rewrite F1, F2.
  destruct (panel_axis _ _ _ i size Hy Hs Hi) as (P1 & P2 & P3 & P4). rewrite P1, P2.
  pose proof (lo_hi_le yg _ _ _ _ Hy P3 P4). pose proof (proj1 (proj2 (proj2 Hx))).
  unfold bleft, bright in *. unfold box_set. zcases; try lia; reflexivity.
Qed.
Lemma panel_v_eq die xg yg size i : grid_ok die xg yg -> 0 < size -> - size < i < gcount xg ->
  panel_box_v die xg yg size i =
  mkBox (mkPt (gcell_lo xg (bleft die) (fst_g i)) (bbottom die))
        (mkPt (gcell_hi xg (bright die) (lst_g xg size i)) (btop die)).
Proof.
  intros H Hs Hi. unfold panel_box_v. rewrite !gcell_box_gen by assumption.
  cbn [bleft bbottom bright btop ll ur px py]. destruct H as [Hx Hy].
  destruct (full_axis _ _ _ Hy) as [F1 F2]. rewrite F1, F2.
  destruct (panel_axis _ _ _ i size Hx Hs Hi) as (P1 & P2 & P3 & P4). rewrite P1, P2.
  pose proof (lo_hi_le xg _ _ _ _ Hx P3 P4). pose proof (proj1 (proj2 (proj2 Hy))).
  unfold bbottom, btop in *. unfold box_set. zcases; try lia; reflexivity.
Qed.

Lemma loop_starts_in offset count size i : 0 < size ->
  In i (loop_starts offset count size) <-> exists k, i = offset + Z.of_nat k * size /\ i < count.
Proof.
  intro Hs. split.
  - intro H. apply In_nth_error in H as [k H]. rewrite loop_starts_nth in H by assumption.
    destruct (Z.ltb_spec (offset + Z.of_nat k * size) count); inversion H. exists k. lia.
  - intros (k & -> & H). apply (nth_error_In _ k). rewrite loop_starts_nth by assumption.
    destruct (Z.ltb_spec (offset + Z.of_nat k * size) count); [reflexivity|lia].
Qed.
Lemma loop_starts_nodup offset count size : 0 < size -> NoDup (loop_starts offset count size).
Proof.
  intro Hs. apply NoDup_nth_error. intros i j Hi E.
  apply nth_error_Some in Hi. rewrite !loop_starts_nth in E by assumption.
  rewrite loop_starts_nth in Hi by assumption.
  destruct (Z.ltb_spec (offset + Z.of_nat i * size) count); [|congruence].
  destruct (Z.ltb_spec (offset + Z.of_nat j * size) count); inversion E. nia.
Qed.

Lemma panel_point g lo hi offset size y : axis_ok g lo hi -> 0 < size -> - size < offset <= 0 -> lo <= y <= hi ->
  exists i, In i (loop_starts offset (gcount g) size) /\
    gcell_lo g lo (fst_g i) <= y <= gcell_hi g hi (lst_g g size i).
Proof.
  intros Ha Hs Ho Hy.
  pose proof (idx1_range g y ltac:(apply Ha) ltac:(apply Ha)) as Hr.
  destruct (holding_start offset size (gcount g) (gcell_idx1 g y) Hs Ho Hr) as (k & K1 & K2). cbn zeta in *.
  exists (offset + Z.of_nat k * size). split; [apply loop_starts_in; [assumption|]; exists k; auto|].
  pose proof (idx1_contains g lo hi y Ha Hy) as C.
  pose proof (lo_mono g lo hi (fst_g (offset + Z.of_nat k * size)) (gcell_idx1 g y) Ha ltac:(unfold fst_g; lia) ltac:(lia)).
  pose proof (hi_mono g lo hi (gcell_idx1 g y) (lst_g g size (offset + Z.of_nat k * size)) Ha ltac:(unfold lst_g; lia) ltac:(unfold lst_g; lia)).
  lia.
Qed.
Lemma panel_apart g lo hi offset size i j : axis_ok g lo hi -> 0 < size -> - size < offset ->
  In i (loop_starts offset (gcount g) size) -> In j (loop_starts offset (gcount g) size) -> i <> j ->
  gcell_hi g hi (lst_g g size i) <= gcell_lo g lo (fst_g j) \/
  gcell_hi g hi (lst_g g size j) <= gcell_lo g lo (fst_g i).
Proof.
  intros Ha Hs Ho Hi Hj Hne. apply loop_starts_in in Hi as (k & -> & Hk), Hj as (m & -> & Hm); [|assumption..].
  destruct (Nat.lt_total k m) as [L|[->|L]].
  - left. apply (axis_apart g lo hi offset size k m); assumption.
  - congruence.
  - right. apply (axis_apart g lo hi offset size m k); assumption.
Qed.
Lemma start_bounds offset count size i : 0 < size -> - size < offset ->
  In i (loop_starts offset count size) -> - size < i < count.
Proof.
  intros Hs Ho Hi. apply loop_starts_in in Hi as (k & -> & Hk); [|assumption].
  pose proof (clip_start_low offset size k Hs Ho). lia.
Qed.

(* groups of panels *)
Lemma fold_push_concat {A} lim (l : list A) : forall gs, (0 < lim)%nat ->
  concat (fold_left (fun gs a => push_group lim a gs) l gs) = concat gs ++ l.
Proof.
  induction l as [|a l IH]; intros gs Hl; cbn [fold_left]; [rewrite app_nil_r; reflexivity|].
  rewrite IH by assumption.
  assert (E : concat (push_group lim a gs) = concat gs ++ [a]).
  { clear. induction gs as [|g gs IH]; [reflexivity|]. cbn [push_group]. destruct gs as [|g' gs'].
    - destruct (Nat.leb lim (length g)); cbn [concat]; rewrite ?app_nil_r; reflexivity.
    - cbn [concat] in *. rewrite IH, !app_assoc. reflexivity. }
  rewrite E, <- app_assoc. reflexivity.
Qed.
Lemma fold_push_good {A} lim (l : list A) : (0 < lim)%nat -> forall gs,
  (forall g, In g gs -> g <> [] /\ (length g <= lim)%nat) ->
  forall g, In g (fold_left (fun gs a => push_group lim a gs) l gs) -> g <> [] /\ (length g <= lim)%nat.
Proof.
  intro Hl. induction l as [|a l IH]; intros gs H; cbn [fold_left]; [exact H|].
  apply IH. intros g Hg. apply push_group_in in Hg as [Hg|[->|(g0 & H0 & Hlt & ->)]].
  - auto.
  - split; [discriminate|cbn; lia].
  - split; [destruct g0; discriminate|]. rewrite app_length; cbn; lia.
Qed.

(* interleavings *)
Section Exec.
Variables (D L C : Type).
Variable w_init : C -> L.
Variable w_step : D -> L -> option L.
Variable w_end : L -> D -> D.

Inductive steps (d : D) : nat -> L -> L -> Prop :=
| st_refl l : steps d 0 l l
| st_step n l l' l'' : w_step d l = Some l' -> steps d n l' l'' -> steps d (S n) l l''.

Lemma steps_alone d n l l' l'' : steps d n l l' -> runs_alone w_step d l' l'' -> runs_alone w_step d l l''.
Proof. induction 1; intro H1; [assumption|]. eapply alone_step; eauto. Qed.
Lemma alone_steps d l l' : runs_alone w_step d l l' -> exists n, steps d n l l' /\ w_step d l' = None.
Proof.
  induction 1 as [l H|l l' l'' H H1 (n & IH & E)].
  - exists 0%nat. split; [constructor|assumption].
  - exists (S n). split; [econstructor; eauto|assumption].
Qed.
Lemma alone_det d l a b : runs_alone w_step d l a -> runs_alone w_step d l b -> a = b.
Proof.
  intro H. revert b. induction H as [l H|l l' l'' H H1 IH]; intros b Hb; inversion Hb; subst; try congruence.
  apply IH. congruence.
Qed.

Lemma set_nth_F2 (R : L -> L -> Prop) l' : forall ls ls' i,
  Forall2 R (set_nth i l' ls) ls' ->
  forall l, nth_error ls i = Some l -> (forall b, R l' b -> R l b) -> Forall2 R ls ls'.
Proof.
  induction ls as [|a ls IH]; intros ls' [|i] H l E Hl; cbn [set_nth nth_error] in *; try discriminate.
  - inversion E; subst. inversion H; subst. constructor; auto.
  - inversion H; subst. constructor; [assumption|]. eapply IH; eauto.
Qed.
Lemma par_alone d ls ls' : par_run w_step d ls ls' -> all_done w_step d ls' ->
  Forall2 (runs_alone w_step d) ls ls'.
Proof.
  induction 1 as [ls|ls i l l' ls' E S R IH]; intro Hd.
  - induction ls as [|a ls IH]; constructor.
    + apply alone_done. apply Hd. left; reflexivity.
    + apply IH. intros b Hb. apply Hd. right; exact Hb.
  - eapply set_nth_F2; [apply IH; assumption|exact E|]. intros b Hb. eapply alone_step; eauto.
Qed.
Lemma F2_det (R : L -> L -> Prop) (Hdet : forall a b c, R a b -> R a c -> b = c) : forall l a b,
  Forall2 R l a -> Forall2 R l b -> a = b.
Proof.
  intros l a b H. revert b. induction H; intros b' Hb; inversion Hb; subst; [reflexivity|].
  f_equal; eauto.
Qed.
Lemma par_det d ls a b : par_run w_step d ls a -> all_done w_step d a ->
  par_run w_step d ls b -> all_done w_step d b -> a = b.
Proof.
  intros H1 H2 H3 H4. eapply F2_det; [apply (alone_det d)|apply par_alone; eassumption..].
Qed.
Lemma pass_det d gs d1 : pass_exec w_init w_step w_end d gs d1 ->
  forall d2, pass_exec w_init w_step w_end d gs d2 -> d1 = d2.
Proof.
  induction 1 as [d|d g gs ls d' R A P IH]; intros d2 H2; inversion H2; subst; [reflexivity|].
  assert (ls0 = ls) by (eapply par_det; eassumption). subst. auto.
Qed.

(* steps inside one component *)
Lemma par_trans d a b c : par_run w_step d a b -> par_run w_step d b c -> par_run w_step d a c.
Proof. induction 1; intro H2; [assumption|]. econstructor; eauto. Qed.
Lemma set_nth_cons i (x : L) a ls : set_nth (S i) x (a :: ls) = a :: set_nth i x ls.
Proof. reflexivity. Qed.
Lemma par_cons d a ls ls' : par_run w_step d ls ls' -> par_run w_step d (a :: ls) (a :: ls').
Proof.
  induction 1 as [|ls i l l' ls' E S R IH]; [constructor|].
  apply (par_step _ _ w_step d (a :: ls) (Datatypes.S i) l l'); assumption.
Qed.
Lemma par_head d a b ls : runs_alone w_step d a b -> par_run w_step d (a :: ls) (b :: ls).
Proof.
  induction 1 as [|l l' l'' H H1 IH]; [constructor|].
  apply (par_step _ _ w_step d (l :: ls) 0%nat l l'); [reflexivity|assumption|exact IH].
Qed.
Lemma alone_end_done d a b : runs_alone w_step d a b -> w_step d b = None.
Proof. induction 1; assumption. Qed.
Lemma par_complete d : forall ls, (forall l, In l ls -> exists l', runs_alone w_step d l l') ->
  exists ls', par_run w_step d ls ls' /\ all_done w_step d ls'.
Proof.
  induction ls as [|a ls IH]; intro H.
  - exists []. split; [constructor|intros ? []].
  - destruct (H a) as [b Hb]; [left; reflexivity|].
    destruct IH as (ls' & R & A); [intros; apply H; right; assumption|].
    exists (b :: ls'). split.
    + eapply par_trans; [apply par_head; exact Hb|]. apply par_cons; exact R.
    + intros l [<-|Hl]; [eapply alone_end_done; exact Hb|auto].
Qed.

(* work left: [work d n l] : the worker finishes alone in exactly n steps *)
Definition work (d : D) (n : nat) (l : L) : Prop := exists l', steps d n l l' /\ w_step d l' = None.
Lemma work_step d n l l' : work d n l -> w_step d l = Some l' -> exists m, n = S m /\ work d m l'.
Proof.
  intros (b & H & E) S. inversion H; subst; [congruence|].
  exists n0. split; [reflexivity|]. exists b. split; [|assumption]. congruence.
Qed.
Lemma works_step d ls ns : Forall2 (work d) ns ls -> forall i l l', nth_error ls i = Some l ->
  w_step d l = Some l' -> exists ns', Forall2 (work d) ns' (set_nth i l' ls) /\ list_sum ns = S (list_sum ns').
Proof.
  induction 1 as [|n a ns ls Hn Hf IH]; intros [|i] l l' E S; cbn [nth_error] in E; try discriminate.
  - inversion E; subst a. destruct (work_step _ _ _ _ Hn S) as (m & -> & Hm).
    exists (m :: ns). split; [constructor; assumption|reflexivity].
  - destruct (IH i l l' E S) as (ns' & H1 & H2). exists (n :: ns'). split; [constructor; assumption|].
    cbn [list_sum fold_right] in *. unfold list_sum in *. cbn. lia.
Qed.
Lemma par_steps_left d n ls ls' : par_steps w_step d n ls ls' -> forall ns, Forall2 (work d) ns ls ->
  exists ns', Forall2 (work d) ns' ls' /\ list_sum ns = (n + list_sum ns')%nat.
Proof.
  induction 1 as [ls|n ls i l l' ls' E S R IH]; intros ns H.
  - exists ns. auto.
  - destruct (works_step _ _ _ H _ _ _ E S) as (ns1 & H1 & E1).
    destruct (IH _ H1) as (ns2 & H2 & E2). exists ns2. split; [assumption|lia].
Qed.
Lemma works_exist d ls : (forall l, In l ls -> exists l', runs_alone w_step d l l') -> exists ns, Forall2 (work d) ns ls.
Proof.
  induction ls as [|a ls IH]; intro H; [exists []; constructor|].
  destruct (H a) as [b Hb]; [left; reflexivity|]. destruct (alone_steps _ _ _ Hb) as (n & Hn & E).
  destruct IH as [ns Hns]; [intros; apply H; right; assumption|].
  exists (n :: ns). constructor; [exists b; auto|assumption].
Qed.
Lemma works_done d ns ls : Forall2 (work d) ns ls -> (list_sum ns = 0%nat <-> all_done w_step d ls).
Proof.
  induction 1 as [|n a ns ls Hn Hf IH].
  - split; [intros _ ? []|reflexivity].
  - unfold list_sum in *. cbn [fold_right]. split.
    + intro E. assert (n = 0%nat) by lia. subst n. intros l [<-|Hl].
      * destruct Hn as (b & Hb & E1). inversion Hb; subst; assumption.
      * apply IH; [lia|assumption].
    + intro Hd. assert (Hz : fold_right Nat.add 0%nat ns = 0%nat) by (apply IH; intros l Hl; apply Hd; right; exact Hl).
      assert (n = 0%nat); [|lia]. destruct Hn as (b & Hb & E1). inversion Hb; subst; [reflexivity|].
      rewrite (Hd a) in H; [discriminate|left; reflexivity].
Qed.
End Exec.
