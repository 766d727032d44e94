From Coq Require Import Permutation.
From Verif Require Import Base GeomModel GeomSpec ClipModel ClipSpec ClipProofs ClipProofs2 ClipProofs3 ClipProofs4 ClipProofs5.

Lemma bp_tri a c : bp_lt a c = false -> bp_lt c a = false -> a = c.
Proof.
  destruct a as [[x y] l], c as [[x' y'] l']. unfold bp_lt, pt_lt, pt_eq. cbn [fst snd px py]. intros H1 H2.
  assert (x = x' /\ y = y' /\ l = l') as (-> & -> & ->); [|reflexivity].
  destruct ((x =? x') && (y =? y')) eqn:E; destruct ((x' =? x) && (y' =? y)) eqn:E'; try lia; destruct (x =? x') eqn:E1; destruct (x' =? x) eqn:E2; lia.
Qed.
Lemma bp_ins_in a s q : In q (bp_ins a s) <-> q = a \/ In q s.
Proof.
  induction s as [|c r IH]; [cbn; intuition congruence|]. cbn [bp_ins]. destruct (bp_lt a c) eqn:E1; [cbn; intuition congruence|].
  destruct (bp_lt c a) eqn:E2.
  - cbn [In]. rewrite IH. intuition.
  - assert (a = c) by (apply bp_tri; assumption). subst. cbn. intuition.
Qed.
Lemma bp_fold_in l : forall s q, In q (fold_left (fun s a => bp_ins a s) l s) <-> In q l \/ In q s.
Proof. induction l as [|a r IH]; intros s q; cbn [fold_left]; [cbn; tauto|]. rewrite IH, bp_ins_in. cbn. intuition. Qed.

Lemma figs_of_app n d e : figs_of n (d ++ e) = figs_of n d ++ figs_of n e.
Proof. unfold figs_of. now rewrite filter_app, map_app. Qed.
Lemma figs_of_in n d f : In f (figs_of n d) <-> In (n, f) d.
Proof.
  unfold figs_of. rewrite in_map_iff. split.
  - intros ([m g] & <- & H). apply filter_In in H as [H E]. cbn in E. apply Z.eqb_eq in E. subst. exact H.
  - intros H. exists (n, f). split; [reflexivity|]. apply filter_In. split; [exact H|]. cbn. apply Z.eqb_refl.
Qed.
Lemma figs_of_tag n m l : figs_of n (map (fun f => (m, f)) l) = if m =? n then l else [].
Proof. unfold figs_of. induction l as [|a r IH]; [destruct (m =? n); reflexivity|]. cbn. destruct (m =? n) eqn:E; cbn; [f_equal|]; assumption. Qed.

Section D.
Variable isInit : bool.
Variable b : box.
Variable lw : Z -> Z.
Variable pin_at : Z -> point -> Z -> bool.
Variable manuGrid : Z.
Variable swap : point -> Z -> bool.
Variable found : fig -> bool.
Notation wback := (write_back isInit b lw pin_at manuGrid swap found).
Notation mnet := (merge_net pin_at manuGrid swap).

Definition kept_of (f : fig) : list fig := if found f then fst (remove_fig isInit b lw f) else [f].

Lemma figs_removed n subs d : figs_of n (removed_from isInit b lw found subs d) =
  if mod_net subs n then flat_map kept_of (figs_of n d) else figs_of n d.
Proof.
  unfold removed_from. induction d as [|[m f] r IH]; [destruct (mod_net subs n); reflexivity|]. cbn [flat_map fst snd]. rewrite figs_of_app, IH.
  change ((m, f) :: r) with ([(m, f)] ++ r). rewrite (figs_of_app n [(m, f)] r).
  assert (E1 : figs_of n [(m, f)] = if m =? n then [f] else []) by (unfold figs_of; cbn; destruct (m =? n); reflexivity).
  rewrite E1. destruct (m =? n) eqn:E.
  - apply Z.eqb_eq in E. subst m. destruct (mod_net subs n) eqn:M.
    + rewrite andb_true_r. cbn [flat_map app].
      assert (K : kept_of f = if found f then fst (remove_fig isInit b lw f) else [f]) by reflexivity. rewrite K. destruct (found f).
      * rewrite figs_of_tag, Z.eqb_refl. reflexivity.
      * rewrite E1. reflexivity.
    + rewrite andb_false_r, E1. reflexivity.
  - destruct (found f && mod_net subs m); [rewrite figs_of_tag, E|rewrite E1]; reflexivity.
Qed.
Lemma figs_added n subs : figs_of n (added subs) = if mod_net subs n then best_of n subs else [].
Proof.
  unfold added, best_of. assert (G : forall l, figs_of n (flat_map (fun s => if mod_net subs (sn_net s) then map (fun f => (sn_net s, f)) (sn_best s) else []) l) =
    if mod_net subs n then flat_map sn_best (filter (fun s => sn_net s =? n) l) else []).
  { induction l as [|s r IH]; [destruct (mod_net subs n); reflexivity|]. cbn [flat_map filter]. rewrite figs_of_app, IH.
    destruct (sn_net s =? n) eqn:E.
    - apply Z.eqb_eq in E. rewrite E. destruct (mod_net subs n); [|reflexivity]. rewrite figs_of_tag, Z.eqb_refl. reflexivity.
    - destruct (mod_net subs (sn_net s)); [rewrite figs_of_tag, E|]; destruct (mod_net subs n); reflexivity. }
  apply G.
Qed.
Lemma figs_merge pts d n m : figs_of m (merge_db pin_at manuGrid swap pts d n) = if m =? n then mnet n (figs_of n d) (pts n) else figs_of m d.
Proof.
  unfold merge_db. rewrite figs_of_app, figs_of_tag. rewrite (Z.eqb_sym n m). destruct (m =? n) eqn:E.
  - replace (figs_of m (filter (fun x => negb (fst x =? n)) d)) with (@nil fig); [reflexivity|]. unfold figs_of.
    rewrite filter_none; [reflexivity|]. intros x H. apply filter_In in H as [_ H]. lia.
  - rewrite app_nil_r. unfold figs_of. f_equal. induction d as [|[k f] r IH]; [reflexivity|]. cbn. destruct (k =? n) eqn:E2; cbn; [|destruct (k =? m)]; rewrite <- ?IH; try reflexivity.
    destruct (k =? m) eqn:E3; [lia|reflexivity].
Qed.
Lemma figs_fold pts nets : forall d m, NoDup nets -> figs_of m (fold_left (merge_db pin_at manuGrid swap pts) nets d) =
  if existsb (Z.eqb m) nets then mnet m (figs_of m d) (pts m) else figs_of m d.
Proof.
  induction nets as [|n r IH]; intros d m N; [reflexivity|]. cbn [fold_left existsb]. inversion N as [|? ? N1 N2]; subst. rewrite IH by exact N2. rewrite figs_merge.
  destruct (m =? n) eqn:E; cbn [orb].
  - apply Z.eqb_eq in E. subst m. destruct (existsb (Z.eqb n) r) eqn:X; [|reflexivity]. apply existsb_exists in X as (k & Hk & Ek). apply Z.eqb_eq in Ek. subst. contradiction.
  - reflexivity.
Qed.
Lemma mod_net_in subs n : existsb (Z.eqb n) (nodup Z.eq_dec (map sn_net (filter sn_mod subs))) = mod_net subs n.
Proof.
  apply eq_true_iff_eq. unfold mod_net. rewrite !existsb_exists. split.
  - intros (m & H & E). apply Z.eqb_eq in E. subst m. apply nodup_In, in_map_iff in H as (s & <- & H). apply filter_In in H as [H M]. exists s. split; [exact H|]. rewrite M. cbn. apply Z.eqb_refl.
  - intros (s & H & E). apply andb_true_iff in E as [M E]. apply Z.eqb_eq in E. exists n. split; [|apply Z.eqb_refl]. apply nodup_In, in_map_iff. exists s. split; [exact E|]. apply filter_In. auto.
Qed.
Lemma figs_wback n subs d : figs_of n (wback subs d) =
  if mod_net subs n then mnet n (flat_map kept_of (figs_of n d) ++ best_of n subs) (bound_pts isInit b lw found subs d n) else figs_of n d.
Proof.
  unfold write_back. rewrite figs_fold by apply NoDup_nodup. rewrite mod_net_in, figs_of_app, figs_removed, figs_added.
  destruct (mod_net subs n); [reflexivity|]. apply app_nil_r.
Qed.
Lemma bound_in n subs d q : mod_net subs n = true ->
  In q (bound_pts isInit b lw found subs d n) <-> exists f, In f (figs_of n d) /\ found f = true /\ In q (snd (remove_fig isInit b lw f)).
Proof.
  intros M. unfold bound_pts. rewrite bp_fold_in, in_flat_map. split.
  - intros [([m f] & H & I)|[]]. cbn [fst snd] in I. destruct (found f && mod_net subs m && (m =? n)) eqn:E; [|destruct I].
    apply andb_true_iff in E as [E E2]. apply andb_true_iff in E as [E1 _]. apply Z.eqb_eq in E2. subst m. exists f. rewrite figs_of_in. auto.
  - intros (f & H & Ff & I). left. exists (n, f). rewrite figs_of_in in H. split; [exact H|]. cbn [fst snd]. rewrite Ff, M, Z.eqb_refl. exact I.
Qed.
End D.

(* a figure away from the closed box *)
Lemma away_seg isInit b lw w : solid b -> proper w -> (forall x y, on_line w x y -> ~ in_box2 b x y) ->
  load_fig isInit b lw (FSeg w) = [(Ext, FSeg w)] /\ remove_fig isInit b lw (FSeg w) = ([FSeg w], []).
Proof.
  intros [S1 S2] P A. assert (S3 : bleft b < bright b) by exact S1. assert (S4 : bbottom b < btop b) by exact S2. destruct w as [l [x y] [x' y'] s]. unfold proper in P. cbn [wb we px py] in P.
  unfold load_fig, remove_fig, load_seg, remove_seg. cbn [wb we px py wl ws]. cbv zeta.
  destruct P as [[-> P]|[-> P]].
  - assert (B : ~ (bleft b <= x' <= bright b) \/ y' < bbottom b \/ btop b < y).
    { destruct (Z_le_gt_dec (bleft b) x'); [|left; lia]. destruct (Z_le_gt_dec x' (bright b)); [|left; lia]. right.
      destruct (Z_lt_le_dec y' (bbottom b)); [left; lia|]. destruct (Z_lt_le_dec (btop b) y); [right; lia|]. exfalso.
      apply (A (2 * x') (2 * Z.max y (bbottom b))); unfold on_line, in_box2; cbn [wb we px py]; unfold bleft, bright, bbottom, btop in *; lia. }
    clear A. rewrite Z.eqb_refl. destruct ((bleft b <=? x') && (if isInit then x' <? bright b else x' <=? bright b)) eqn:E; cbn [andb].
    + assert (B' : y' < bbottom b \/ btop b < y) by (destruct isInit; lia). clear B E.
      destruct B' as [B|B].
      * zc; try (exfalso; lia). cbn. rewrite Z.min_l by lia. split; reflexivity.
      * zc; try (exfalso; lia). cbn. rewrite Z.max_l by lia. split; reflexivity.
    + split; reflexivity.
  - assert (B : ~ (bbottom b <= y' <= btop b) \/ x' < bleft b \/ bright b < x).
    { destruct (Z_le_gt_dec (bbottom b) y'); [|left; lia]. destruct (Z_le_gt_dec y' (btop b)); [|left; lia]. right.
      destruct (Z_lt_le_dec x' (bleft b)); [left; lia|]. destruct (Z_lt_le_dec (bright b) x); [right; lia|]. exfalso.
      apply (A (2 * Z.max x (bleft b)) (2 * y')); unfold on_line, in_box2; cbn [wb we px py]; unfold bleft, bright, bbottom, btop in *; lia. }
    clear A. destruct (x =? x') eqn:Ex; [lia|]. rewrite Z.eqb_refl. destruct ((bbottom b <=? y') && (if isInit then y' <? btop b else y' <=? btop b)) eqn:E; cbn [andb].
    + assert (B' : x' < bleft b \/ bright b < x) by (destruct isInit; lia). clear B E.
      destruct B' as [B|B].
      * zc; try (exfalso; lia). cbn. rewrite Z.min_l by lia. split; reflexivity.
      * zc; try (exfalso; lia). cbn. rewrite Z.max_l by lia. split; reflexivity.
    + split; reflexivity.
Qed.
