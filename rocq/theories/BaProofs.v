From Verif Require Import Base GeomModel BaModel BaSpec.
From Coq Require Import Permutation.

(* shapes *)
Lemma sides_eq r a b c d : sides r a b c d <-> r = mkBox (mkPt a b) (mkPt c d).
Proof.
  destruct r as [[x y] [z t]]. unfold sides, bleft, bbottom, bright, btop. cbn [ll ur px py]. split; [intros (-> & -> & -> & ->); reflexivity|intros H; injection H as -> -> -> ->; repeat split].
Qed.
Lemma box_set_ord a b c d : a <= c -> b <= d -> box_set a b c d = mkBox (mkPt a b) (mkPt c d).
Proof. intros H1 H2. unfold box_set. rewrite !Z.gtb_ltb. destruct (Z.ltb_spec c a); [lia|]. destruct (Z.ltb_spec d b); [lia|]. reflexivity. Qed.
Lemma moved_eq o b : upright b -> moved o b = mkBox (mkPt (px o + bleft b) (py o + bbottom b)) (mkPt (px o + bright b) (py o + btop b)).
Proof. intros [H1 H2]. unfold moved, box_transform, box_of_pts, pt_transform. cbn [ori xo yo px py]. apply box_set_ord; unfold bleft, bright, bbottom, btop in *; lia. Qed.
Lemma seg_box_eq b e w x y : fig_ok (DSeg 0 0 0 b e w x y) -> seg_box b e w x y =
  if px b =? px e then mkBox (mkPt (px b - w / 2) (py b - x)) (mkPt (px b + w / 2) (py e + y)) else mkBox (mkPt (px b - x) (py b - w / 2)) (mkPt (px e + y) (py b + w / 2)).
Proof.
  cbn [fig_ok]. intros (H & W & X & Y). unfold seg_box. assert (Q : Z.quot w 2 = w / 2) by (apply Z.quot_div_nonneg; lia). rewrite Q. assert (0 <= w / 2) by (apply Z.div_pos; lia).
  destruct (Z.eqb_spec (px b) (px e)) as [E|E].
  - rewrite <- E. destruct H as [[_ H]|[H1 H2]]; [|lia]. apply box_set_ord; lia.
  - destruct H as [[H _]|[H1 H2]]; [lia|]. rewrite <- H1. apply box_set_ord; lia.
Qed.
Lemma shapes_spec f l r : fig_ok f -> (In (l, r) (shapes_of f) <-> shape f l r).
Proof.
  intros O. destruct f as [i n la b e w x y|i n la o off|i n o d]; cbn [shapes_of].
  - rewrite seg_box_eq by exact O. destruct b as [bx by_], e as [ex ey]. cbn [fig_ok px py] in *. destruct O as (A & W & X & Y). split.
    + intros [H|[]]. injection H as <- <-. destruct (Z.eqb_spec bx ex) as [->|N].
      * apply sh_vert, sides_eq. reflexivity.
      * destruct A as [[A _]|[A1 A2]]; [contradiction|]. subst ey. apply sh_horz; [exact N|apply sides_eq; reflexivity].
    + intros H. left. inversion H as [? ? ? ? ? ? ? ? ? ? S|? ? ? ? ? ? ? ? ? ? N S| |]; subst; apply sides_eq in S; subst r; [rewrite Z.eqb_refl|destruct (Z.eqb_spec bx ex); [contradiction|]]; reflexivity.
  - cbn [fig_ok] in O. rewrite moved_eq by exact O. split.
    + intros [H|[]]. injection H as <- <-. apply sh_patch, sides_eq. reflexivity.
    + intros H. left. inversion H as [| |? ? ? ? ? ? S|]; subst. apply sides_eq in S. subst r. reflexivity.
  - cbn [fig_ok] in O. destruct O as (O1 & O2 & O3). rewrite !in_app_iff. rewrite Forall_forall in O1, O2, O3. split.
    + intros [H|[H|H]]; apply in_map_iff in H as (q & H & Q); injection H as <- <-.
      * rewrite (moved_eq o q (O1 q Q)). eapply sh_via; [left; reflexivity|exact Q|apply sides_eq; reflexivity].
      * rewrite (moved_eq o q (O2 q Q)). eapply sh_via; [right; left; reflexivity|exact Q|apply sides_eq; reflexivity].
      * rewrite (moved_eq o q (O3 q Q)). eapply sh_via; [right; right; left; reflexivity|exact Q|apply sides_eq; reflexivity].
    + intros H. inversion H as [| | |? ? ? ? ? fs q ? I Q S]; subst. apply sides_eq in S. subst r. destruct I as [E|[E|[E|[]]]]; injection E as <- <-.
      * left. apply in_map_iff. exists q. rewrite (moved_eq o q (O1 q Q)). split; [reflexivity|exact Q].
      * right; left. apply in_map_iff. exists q. rewrite (moved_eq o q (O2 q Q)). split; [reflexivity|exact Q].
      * right; right. apply in_map_iff. exists q. rewrite (moved_eq o q (O3 q Q)). split; [reflexivity|exact Q].
Qed.
Lemma meets_share a b : upright a -> upright b -> (meets a b = true <-> share a b).
Proof.
  unfold meets, share, upright. rewrite !andb_true_iff, !Z.leb_le. intros [A1 A2] [B1 B2]. split.
  - intros H. exists (Z.max (bleft a) (bleft b)), (Z.max (bbottom a) (bbottom b)). lia.
  - intros (x & y & H). lia.
Qed.
Lemma shape_upright f l r : fig_ok f -> shape f l r -> upright r.
Proof.
  intros O H. destruct H as [i n l x b e w p q r S|i n l y b e w p q r N S|i n l o off r S|i n o d l fs b r I Q S]; unfold sides in S; unfold upright; cbn [fig_ok px py] in O.
  - destruct O as (A & W & X & Y). assert (0 <= w / 2) by (apply Z.div_pos; lia). lia.
  - destruct O as (A & W & X & Y). assert (0 <= w / 2) by (apply Z.div_pos; lia). lia.
  - unfold upright in O. lia.
  - destruct O as (O1 & O2 & O3). rewrite Forall_forall in O1, O2, O3. assert (U : upright b) by (destruct I as [E|[E|[E|[]]]]; injection E as <- <-; auto). unfold upright in U. lia.
Qed.
(* the index *)
Lemma box_same_eq a b : box_same a b = true -> a = b.
Proof.
  destruct a as [[a1 a2] [a3 a4]], b as [[b1 b2] [b3 b4]]. unfold box_same, bleft, bbottom, bright, btop. cbn [ll ur px py]. rewrite !andb_true_iff, !Z.eqb_eq. intros [[[-> ->] ->] ->]. reflexivity.
Qed.
Lemma entry_same_refl x : entry_same x x = true.
Proof. destruct x as [[l b] f]. unfold entry_same, box_same. rewrite !Z.eqb_refl. reflexivity. Qed.
Lemma remove1_perm x l : In x l -> (forall y, In y l -> fig_id (snd y) = fig_id (snd x) -> snd y = snd x) -> Permutation (x :: remove1 x l) l.
Proof.
  induction l as [|y r IH]; intros I U; [contradiction|]. cbn [remove1]. destruct (entry_same x y) eqn:E.
  - destruct x as [[lx bx] fx], y as [[ly by_] fy]. unfold entry_same in E. rewrite !andb_true_iff, !Z.eqb_eq in E. destruct E as [[-> E2] E3]. apply box_same_eq in E2. subst by_.
    specialize (U (ly, bx, fy) (or_introl eq_refl) (eq_sym E3)). cbn [snd] in U. subst fy. reflexivity.
  - destruct I as [->|I]; [rewrite entry_same_refl in E; discriminate|]. rewrite perm_swap. constructor. apply IH; [exact I|]. intros z Z1. apply U. right. exact Z1.
Qed.
Lemma remove_all f : forall xs t rest, (forall x, In x xs -> snd x = f) -> Permutation t (xs ++ rest) -> (forall y, In y t -> fig_id (snd y) = fig_id f -> snd y = f) ->
  Permutation (fold_left (fun t x => remove1 x t) xs t) rest.
Proof.
  induction xs as [|x xs IH]; intros t rest X P U; cbn [fold_left]; [exact P|].
  assert (Ex : snd x = f) by (apply X; left; reflexivity).
  assert (R : Permutation (x :: remove1 x t) t). { apply remove1_perm; [apply (Permutation_in _ (Permutation_sym P)); left; reflexivity|]. rewrite Ex. exact U. }
  apply IH.
  - intros y Y. apply X. right. exact Y.
  - apply (Permutation_cons_inv (a := x)). rewrite R. exact P.
  - intros y Y. apply U. apply (Permutation_in _ R). right. exact Y.
Qed.
Lemma rq_remove_perm f l1 l2 t : NoDup (map fig_id (l1 ++ f :: l2)) -> Permutation t (rq_init (l1 ++ f :: l2)) -> Permutation (rq_remove f t) (rq_init (l1 ++ l2)).
Proof.
  intros N P. unfold rq_remove. apply (remove_all f).
  - intros x X. unfold entries in X. apply in_map_iff in X as (s & <- & _). reflexivity.
  - rewrite P. unfold rq_init. rewrite !flat_map_app. cbn [flat_map]. rewrite !app_assoc. apply Permutation_app_tail. apply Permutation_app_comm.
  - intros y Y E. apply (Permutation_in _ P) in Y. unfold rq_init in Y. apply in_flat_map in Y as (g & G & Y). unfold entries in Y. apply in_map_iff in Y as (s & <- & _). cbn [snd] in *.
    rewrite map_app in N. cbn [map] in N. apply NoDup_remove_2 in N. apply in_app_or in G as [G|[G|G]]; [|congruence|]; exfalso; apply N; rewrite <- E; apply in_or_app; [left|right]; apply in_map, G.
Qed.
Lemma history_inv fs os live : NoDup (map fig_id fs) -> history fs os live -> NoDup (map fig_id live) /\ Permutation (fold_left rq_step os (rq_init fs)) (rq_init live).
Proof.
  intros N H. induction H as [|os live f H [IN IP] F|os l1 f l2 H [IN IP]].
  - split; [exact N|reflexivity].
  - rewrite fold_left_app. cbn [fold_left rq_step]. split; [constructor; assumption|]. unfold rq_add, rq_init at 2. cbn [flat_map]. apply Permutation_app_head. exact IP.
  - rewrite fold_left_app. cbn [fold_left rq_step]. split.
    + rewrite map_app in *. cbn [map] in IN. apply NoDup_remove_1 in IN. exact IN.
    + apply rq_remove_perm; assumption.
Qed.
Lemma query_in q l t b f : In (b, f) (rq_query q l t) <-> In (l, b, f) t /\ meets q b = true.
Proof.
  unfold rq_query. rewrite in_map_iff. split.
  - intros ([[l' b'] f'] & E & H). cbn [fst snd] in E. injection E as -> ->. apply filter_In in H as [H1 H2]. cbn [fst snd] in H2. apply andb_true_iff in H2 as [H2 H3]. apply Z.eqb_eq in H2. subst. split; assumption.
  - intros [H1 H2]. exists (l, b, f). split; [reflexivity|]. apply filter_In. split; [exact H1|]. cbn [fst snd]. rewrite Z.eqb_refl, H2. reflexivity.
Qed.
Lemma init_in fs l b f : In (l, b, f) (rq_init fs) <-> In f fs /\ In (l, b) (shapes_of f).
Proof.
  unfold rq_init. rewrite in_flat_map. split.
  - intros (g & G & H). unfold entries in H. apply in_map_iff in H as (s & E & S). injection E as -> ->. split; assumption.
  - intros [H1 H2]. exists f. split; [exact H1|]. unfold entries. apply in_map_iff. exists (l, b). split; [reflexivity|exact H2].
Qed.
Lemma query_perm q l t t' : Permutation t t' -> Permutation (rq_query q l t) (rq_query q l t').
Proof.
  intros P. unfold rq_query. apply Permutation_map. induction P as [|x a b P IH|x y a|a b c P1 IH1 P2 IH2]; cbn [filter]; [reflexivity| | |rewrite IH1; exact IH2].
  - destruct (_ && _); [constructor|]; exact IH.
  - destruct ((fst (fst x) =? l) && _), ((fst (fst y) =? l) && _); try reflexivity. apply perm_swap.
Qed.
(* areas *)
Definition total (rb : box) (net : Z) (bp : point) (rs : list (box * dfig)) (xs : list (box * dfig)) : Z := fold_right (fun x s => fig_area rb net bp rs (snd x) + s) 0 xs.
Lemma fold_total rb net bp rs xs : forall a, fold_left (fun s x => s + fig_area rb net bp rs (snd x)) xs a = a + total rb net bp rs xs.
Proof. induction xs as [|x xs IH]; intros a; cbn [fold_left total fold_right]; [lia|]. rewrite IH. fold (total rb net bp rs xs). lia. Qed.
Lemma total_perm rb net bp rs xs ys : Permutation xs ys -> total rb net bp rs xs = total rb net bp rs ys.
Proof. intros P. induction P as [|x a b P IH|x y a|a b c P1 IH1 P2 IH2]; cbn [total fold_right]; unfold total in *; lia. Qed.
Lemma pt_eq_iff a b : pt_eq a b = true <-> a = b.
Proof. destruct a as [a1 a2], b as [b1 b2]. unfold pt_eq. cbn [px py]. rewrite andb_true_iff, !Z.eqb_eq. split; [intros [-> ->]; reflexivity|intros H; injection H as -> ->; split; reflexivity]. Qed.
Lemma contains_iff rb p : box_contains_pt rb p true = true <-> ~ outside rb p.
Proof.
  unfold box_contains_pt, outside. rewrite !andb_true_iff, !Z.leb_le. lia.
Qed.
Lemma total_app rb net bp rs xs ys : total rb net bp rs (xs ++ ys) = total rb net bp rs xs + total rb net bp rs ys.
Proof. unfold total. induction xs as [|x xs IH]; cbn [app fold_right]; lia. Qed.
Lemma query_app q l a b : rq_query q l (a ++ b) = rq_query q l a ++ rq_query q l b.
Proof. unfold rq_query. rewrite filter_app, map_app. reflexivity. Qed.
Lemma end_nonneg net pt rs : (forall b f, In (b, f) rs -> upright b) -> 0 <= end_area net pt rs.
Proof.
  induction rs as [|[b f] rs IH]; intros U; cbn [end_area]; [lia|].
  assert (I : 0 <= end_area net pt rs) by (apply IH; intros c g H; apply (U c g); right; exact H).
  assert (A : 0 <= box_width b * box_length b). { destruct (U b f (or_introl eq_refl)) as [U1 U2]. unfold box_width, box_length. apply Z.mul_nonneg_nonneg; lia. }
  destruct (fig_net f =? net); [|exact I]. destruct f; [exact I| |]; destruct (pt_eq _ _); try exact I; [exact A|]. apply Z.quot_pos; lia.
Qed.
Lemma end_none net pt rs : (forall b f, In (b, f) rs -> fig_net f = net -> ~ placed_at f pt) -> end_area net pt rs = 0.
Proof.
  induction rs as [|[b f] rs IH]; intros U; cbn [end_area]; [reflexivity|]. assert (I : end_area net pt rs = 0) by (apply IH; intros c g H; apply (U c g); right; exact H).
  destruct (Z.eqb_spec (fig_net f) net) as [E|E]; [|exact I]. pose proof (U b f (or_introl eq_refl) E) as N. destruct f as [| i n la o off|i n o d]; [exact I| |]; cbn [placed_at] in N;
    destruct (pt_eq o pt) eqn:P; try exact I; apply pt_eq_iff in P; contradiction.
Qed.
Lemma outside_bool rb p : outside rb p <-> negb (box_contains_pt rb p true) = true.
Proof. rewrite negb_true_iff. pose proof (contains_iff rb p) as C. destruct (box_contains_pt rb p true); split; intros H; try congruence. - exfalso. apply C; auto. - unfold outside in *. intros N. assert (X : false = true) by (apply C; intros M; apply M, N). discriminate X. Qed.
Lemma pt_box p : box_of_pts p p = mkBox p p.
Proof. unfold box_of_pts. rewrite box_set_ord by lia. destruct p. reflexivity. Qed.
Lemma seg_end_meets b e w x y p : fig_ok (DSeg 0 0 0 b e w x y) -> p = b \/ p = e -> meets (mkBox p p) (seg_box b e w x y) = true.
Proof.
  intros O H. rewrite seg_box_eq by exact O. cbn [fig_ok] in O. destruct O as (A & W & X & Y). assert (0 <= w / 2) by (apply Z.div_pos; lia).
  unfold meets, bleft, bright, bbottom, btop. rewrite !andb_true_iff, !Z.leb_le. destruct (Z.eqb_spec (px b) (px e)); cbn [ll ur px py]; destruct H as [-> | ->]; lia.
Qed.
Lemma fig_cases rb net l pin rs f : fig_ok f -> ~ outside rb pin ->
  (exists far a, leaves rb net l pin f far a /\ total rb net pin rs (rq_query (box_of_pts pin pin) l (entries f)) = a + end_area net far rs) \/
  (forall far a, ~ leaves rb net l pin f far a) /\ total rb net pin rs (rq_query (box_of_pts pin pin) l (entries f)) = 0.
Proof.
  intros O Hp. rewrite pt_box. destruct f as [i n la b e w x y|i n la o off|i n o d].
  - unfold entries. cbn [shapes_of map]. unfold rq_query. cbn [filter fst snd].
    assert (M := seg_end_meets b e w x y pin O).
    destruct (Z.eqb_spec la l) as [->|Nl].
    2:{ right. split; [intros far a H; inversion H; subst; contradiction|reflexivity]. }
    destruct (Z.eqb_spec n net) as [->|Nn].
    2:{ right. split; [intros far a H; inversion H; subst; contradiction|]. destruct (_ && _); [|reflexivity]. cbn [map total fold_right snd fig_area fig_net]. unfold fig_area. cbn [fig_net]. destruct (Z.eqb_spec n net); [contradiction|reflexivity]. }
    cbn [andb].
    destruct (pt_eq pin b && negb (box_contains_pt rb e true)) eqn:E1.
    + apply andb_true_iff in E1 as [P1 P2]. pose proof P1 as P1'. apply pt_eq_iff in P1. subst b. rewrite (M (or_introl eq_refl)). left. exists e, ((Z.abs (px e - px pin) + Z.abs (py e - py pin)) * w).
      split; [apply lv_begin, outside_bool, P2|]. cbn [map total fold_right snd]. unfold fig_area. cbn [fig_net]. rewrite Z.eqb_refl, P1', P2. cbn [andb].
      assert (Q : negb (box_contains_pt rb pin true) = false). { destruct (negb (box_contains_pt rb pin true)) eqn:Q; [|reflexivity]. apply outside_bool in Q. contradiction. }
      rewrite Q. cbn [andb]. lia.
    + destruct (negb (box_contains_pt rb b true) && pt_eq pin e) eqn:E2.
      * apply andb_true_iff in E2 as [P1 P2]. pose proof P2 as P2'. apply pt_eq_iff in P2. subst e. rewrite (M (or_intror eq_refl)). left. exists b, ((Z.abs (px pin - px b) + Z.abs (py pin - py b)) * w).
        split; [apply lv_end, outside_bool, P1|]. cbn [map total fold_right snd]. unfold fig_area. cbn [fig_net]. rewrite Z.eqb_refl, E1, P1, P2'. cbn [andb]. lia.
      * right. split.
        -- intros far a H. inversion H; subst.
           ++ match goal with K : outside _ _ |- _ => apply outside_bool in K; rewrite K in E1 end. match type of E1 with context [pt_eq ?p ?p] => rewrite (proj2 (pt_eq_iff p p) eq_refl) in E1 end. discriminate.
           ++ match goal with K : outside _ _ |- _ => apply outside_bool in K; rewrite K in E2 end. match type of E2 with context [pt_eq ?p ?p] => rewrite (proj2 (pt_eq_iff p p) eq_refl) in E2 end. discriminate.
        -- destruct (meets _ _); [|reflexivity]. cbn [map total fold_right snd]. unfold fig_area. cbn [fig_net]. rewrite Z.eqb_refl, E1, E2. reflexivity.
  - right. split; [intros far a H; inversion H|]. unfold rq_query, entries. cbn [shapes_of map filter]. destruct (_ && _); [|reflexivity]. cbn [map total fold_right snd]. unfold fig_area. destruct (_ =? net); reflexivity.
  - right. split; [intros far a H; inversion H|].
    assert (Z0 : forall xs, (forall z, In z xs -> snd z = DVia i n o d) -> total rb net pin rs xs = 0).
    { induction xs as [|z xs IH]; intros K; [reflexivity|]. unfold total. cbn [fold_right]. fold (total rb net pin rs xs). rewrite (K z (or_introl eq_refl)), IH by (intros u U; apply K; right; exact U). unfold fig_area. destruct (_ =? net); reflexivity. }
    apply Z0. intros [zb zf] Z1. apply query_in in Z1 as [Z1 _]. unfold entries in Z1. apply in_map_iff in Z1 as (s & E & _). injection E as _ <-. reflexivity.
Qed.
Lemma begin_total rb t net bp l : begin_area rb t net bp l = total rb net bp (rq_query (box_of_pts bp bp) l t) (rq_query (box_of_pts bp bp) l t).
Proof. unfold begin_area. cbn zeta. rewrite fold_total. lia. Qed.
(* entries of other nets are ignored *)
Lemma end_other net pt rs rs' : (forall x, In x rs' -> fig_net (snd x) <> net) -> end_area net pt (rs' ++ rs) = end_area net pt rs.
Proof. induction rs' as [|[b f] r IH]; intros H; [reflexivity|]. cbn [app end_area]. destruct (Z.eqb_spec (fig_net f) net) as [E|]; [exfalso; exact (H _ (or_introl eq_refl) E)|]. apply IH. intros x X. apply H. right. exact X. Qed.
Lemma area_other rb net bp rs rs' f : (forall x, In x rs' -> fig_net (snd x) <> net) -> fig_area rb net bp (rs' ++ rs) f = fig_area rb net bp rs f.
Proof. intros H. unfold fig_area. destruct (fig_net f =? net); [|reflexivity]. destruct f; try reflexivity. rewrite !(end_other net _ rs rs' H). reflexivity. Qed.
Lemma begin_skip rb net bp l g t : (forall b, In (b, g) (rq_query (box_of_pts bp bp) l (entries g)) -> fig_net g <> net) -> begin_area rb (rq_add g t) net bp l = begin_area rb t net bp l.
Proof.
  intros H. rewrite !begin_total. unfold rq_add. rewrite query_app. set (xs := rq_query _ l (entries g)) in *.
  assert (K : forall x, In x xs -> fig_net (snd x) <> net). { intros [b f] X. assert (E : f = g). { apply query_in in X as [X _]. unfold entries in X. apply in_map_iff in X as (s & E & _). congruence. } subst f. exact (H b X). }
  set (rs := rq_query _ l t). rewrite total_app. assert (Z0 : total rb net bp (xs ++ rs) xs = 0).
  { clear H. revert K. generalize (xs ++ rs). induction xs as [|z zs IH]; intros R K; [reflexivity|]. unfold total. cbn [fold_right]. fold (total rb net bp R zs). rewrite IH by (intros u U; apply K; right; exact U).
    unfold fig_area. destruct (Z.eqb_spec (fig_net (snd z)) net) as [E|]; [exfalso; exact (K z (or_introl eq_refl) E)|reflexivity]. }
  rewrite Z0. clear Z0. rewrite Z.add_0_l.
  assert (G : forall ys, total rb net bp (xs ++ rs) ys = total rb net bp rs ys); [|apply G].
  induction ys as [|r ys IH]; [reflexivity|]. unfold total in *. cbn [fold_right]. rewrite IH, area_other by exact K. reflexivity.
Qed.
