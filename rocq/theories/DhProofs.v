(* Proofs about the head of a DEF file. *)
From Coq Require Import QArith.
From Verif Require Import Base Stl GeomModel GeomSpec GeomProofs GraphModel GraphSpec DhModel DhSpec.
Local Open Scope Z_scope.

Section Tech.
Variable N2L : Z -> option Z.
Notation hstep := (hstep N2L). Notation hsteps := (hsteps N2L).

Lemma hsteps_app a b h : hsteps (a ++ b) h = match hsteps a h with Some h' => hsteps b h' | None => None end.
Proof. revert h. induction a as [|s a IH]; intros h; cbn [app DhModel.hsteps]; [reflexivity|]. destruct (hstep s h); [apply IH|reflexivity]. Qed.
Lemma push_at_len l tp v v' : push_at l tp v = Some v' -> length v' = length v.
Proof.
  revert l v'. induction v as [|x r IH]; intros [|l] v' H; cbn in H; try discriminate; [inversion H; reflexivity|].
  destruct (push_at l tp r) eqn:E; cbn in H; inversion H. cbn. f_equal. eapply IH, E.
Qed.
Lemma push_at_nth l tp v v' k : push_at l tp v = Some v' -> nth k v' [] = nth k v [] ++ (if Nat.eqb k l then [tp] else []).
Proof.
  revert l v' k. induction v as [|x r IH]; intros [|l] v' k H; cbn in H; try discriminate.
  - inversion H. destruct k; cbn; [reflexivity|]. rewrite app_nil_r. reflexivity.
  - destruct (push_at l tp r) eqn:E; cbn in H; inversion H. destruct k; cbn; [rewrite app_nil_r; reflexivity|]. apply IH, E.
Qed.
Lemma push_at_some l tp v : (l < length v)%nat -> exists v', push_at l tp v = Some v'.
Proof.
  revert l. induction v as [|x r IH]; intros l H; cbn in H; [lia|]. destruct l; cbn; [eauto|]. destruct (IH l) as (v' & E); [lia|]. rewrite E. cbn. eauto.
Qed.

Lemma tracks_shape isx start num step layers h h' : tracks_cbk N2L isx start num step layers h = Some h' ->
  h_units h' = h_units h /\ h_bounds h' = h_bounds h /\ h_box h' = h_box h /\ length (h_tracks h') = length (h_tracks h) /\
  exists n rest l s, layers = n :: rest /\ N2L n = Some l /\ to_uint step = Some s /\ 0 <= l /\ 0 <= num /\
    forall k, nth k (h_tracks h') [] = nth k (h_tracks h) [] ++ (if Nat.eqb k (Z.to_nat l) then [mkTP l isx start num s] else []).
Proof.
  unfold tracks_cbk. destruct layers as [|n rest]; [discriminate|]. destruct (N2L n) as [l|] eqn:EN; [|discriminate]. destruct (to_uint step) as [s|] eqn:ES; [|discriminate].
  destruct ((num <? 0) || (l <? 0)) eqn:EB; [discriminate|]. destruct (push_at _ _ _) as [t|] eqn:EP; [|discriminate]. cbn. intros H. inversion H. cbn.
  split; [reflexivity|]. split; [reflexivity|]. split; [reflexivity|]. split; [eapply push_at_len, EP|]. exists n, rest, l, s. repeat split; try reflexivity; try assumption; try lia. intros k. apply push_at_nth. exact EP.
Qed.
(* units and die: the last statement *)
Lemma units_keep s h h' : hstep s h = Some h' -> units_of s = None -> h_units h' = h_units h.
Proof. destruct s; cbn; intros H U; [discriminate|inversion H; reflexivity|]. apply tracks_shape in H. apply H. Qed.
Lemma die_keep s h h' : hstep s h = Some h' -> die_of s = None -> h_bounds h' = h_bounds h.
Proof. destruct s; cbn; intros H U; [inversion H; reflexivity|discriminate|]. apply tracks_shape in H. apply H. Qed.
Lemma keep_all {A B} (f : hstmt -> option A) (g : hdr -> B) : (forall s h h', hstep s h = Some h' -> f s = None -> g h' = g h) ->
  forall ss h h', hsteps ss h = Some h' -> Forall (fun t => f t = None) ss -> g h' = g h.
Proof.
  intros K ss. induction ss as [|s r IH]; intros h h' H F; cbn in H; [inversion H; reflexivity|]. destruct (hstep s h) as [h1|] eqn:E; [|discriminate].
  inversion_clear F. rewrite (IH _ _ H) by assumption. eapply K; eassumption.
Qed.
Lemma units_last ss h h' n : hsteps ss h = Some h' -> last_of units_of ss n -> h_units h' = n.
Proof.
  intros H (pre & s & post & -> & U & F). rewrite hsteps_app in H. destruct (hsteps pre h) as [h1|]; [|discriminate]. cbn in H. destruct (hstep s h1) as [h2|] eqn:E; [|discriminate].
  rewrite (keep_all units_of h_units units_keep _ _ _ H F). destruct s; cbn in U; inversion U; subst. cbn in E. inversion E. reflexivity.
Qed.
Lemma add_points_two p q r d : add_points 0 (p :: q :: r) d = mkDB (px p) (py p) (px q) (py q).
Proof.
  assert (K : forall i l e, add_points (S (S i)) l e = e) by (intros i l; revert i; induction l as [|x l IH]; intros i e; cbn; [reflexivity|apply (IH (S i))]).
  cbn [add_points]. rewrite K. reflexivity.
Qed.
Lemma die_last ss h h' p q r : hsteps ss h = Some h' -> last_of die_of ss (p :: q :: r) -> h_bounds h' = [die_points (mkDB (px p) (py p) (px q) (py q))].
Proof.
  intros H (pre & s & post & -> & U & F). rewrite hsteps_app in H. destruct (hsteps pre h) as [h1|]; [|discriminate]. cbn [DhModel.hsteps] in H. destruct (hstep s h1) as [h2|] eqn:E; [|discriminate].
  rewrite (keep_all die_of h_bounds die_keep _ _ _ H F). destruct s; cbn in U; inversion U; subst. cbn [DhModel.hstep] in E. rewrite add_points_two in E. inversion E. reflexivity.
Qed.
Lemma if_min a b : (if a <? b then a else b) = Z.min a b.
Proof. destruct (a <? b) eqn:E; lia. Qed.
Lemma if_max a b : (if a >? b then a else b) = Z.max a b.
Proof. destruct (a >? b) eqn:E; lia. Qed.
Lemma box_set_le a b c d : a <= c -> b <= d -> box_set a b c d = mkBox (mkPt a b) (mkPt c d).
Proof. intros H K. unfold box_set. zcases; f_equal; f_equal; lia. Qed.
Lemma die_box_two h a b c d : h_bounds h = [die_points (mkDB a b c d)] -> die_box h = mkBox (mkPt (Z.min a c) (Z.min b d)) (mkPt (Z.max a c) (Z.max b d)).
Proof.
  intros E. unfold die_box, boundary_bbox. rewrite E. assert (X : bound_bbox (die_points (mkDB a b c d)) = mkBox (mkPt (Z.min a c) (Z.min b d)) (mkPt (Z.max a c) (Z.max b d))).
  { unfold bound_bbox, die_points. cbn [d_xl d_yl d_xh d_yh px py fold_left]. rewrite !if_min, !if_max. rewrite box_set_le by lia. f_equal; f_equal; lia. }
  cbn [fold_left]. rewrite X. unfold bleft, bright, bbottom, btop. cbn [ll ur px py]. rewrite !if_min, !if_max. rewrite box_set_le by lia. f_equal; f_equal; lia.
Qed.

(* tracks: the patterns of a layer *)
Definition pats (k : nat) (s : hstmt) : list tpat :=
  match s with
  | HTracks isx start num step (n :: _) =>
      match N2L n with Some l => if Nat.eqb k (Z.to_nat l) then [mkTP l isx start num (Z.quot (Qnum step) (Zpos (Qden step)))] else [] | None => [] end
  | _ => []
  end.
Lemma hstep_tracks s h h' : hstep s h = Some h' -> length (h_tracks h') = length (h_tracks h) /\ forall k, nth k (h_tracks h') [] = nth k (h_tracks h) [] ++ pats k s.
Proof.
  destruct s as [n|pts|isx start num step names]; cbn [DhModel.hstep]; intros H.
  - inversion H. split; [reflexivity|]. intros k. cbn. rewrite app_nil_r. reflexivity.
  - inversion H. split; [reflexivity|]. intros k. cbn. rewrite app_nil_r. reflexivity.
  - apply tracks_shape in H. destruct H as (_ & _ & _ & L & n & rest & l & s & -> & EN & ES & _ & _ & K). split; [exact L|]. intros k. rewrite K. unfold pats. rewrite EN.
    unfold to_uint in ES. destruct (Qnum step <? 0); inversion ES. reflexivity.
Qed.
Lemma hsteps_tracks ss h h' : hsteps ss h = Some h' -> length (h_tracks h') = length (h_tracks h) /\ forall k, nth k (h_tracks h') [] = nth k (h_tracks h) [] ++ flat_map (pats k) ss.
Proof.
  revert h. induction ss as [|s r IH]; intros h H; cbn in H.
  - inversion H. split; [reflexivity|]. intros k. cbn. rewrite app_nil_r. reflexivity.
  - destruct (hstep s h) as [h1|] eqn:E; [|discriminate]. destruct (hstep_tracks _ _ _ E) as (L & K), (IH _ H) as (L' & K'). split; [congruence|]. intros k. rewrite K', K, <- app_assoc. reflexivity.
Qed.
Lemma good_step nl s h : good_tracks N2L nl s -> length (h_tracks h) = nl -> exists h', hstep s h = Some h'.
Proof.
  destruct s as [n|pts|isx start num step names]; cbn; [eauto|eauto|]. intros (N0 & (z & Z0 & ZE) & NN & K) L. unfold tracks_cbk.
  destruct names as [|n rest]; [congruence|]. destruct (K n (or_introl eq_refl)) as (l & -> & L0). unfold to_uint.
  assert (Q0 : Qnum step <? 0 = false) by (unfold Qeq in ZE; cbn in ZE; destruct step as [a b]; cbn in *; nia). rewrite Q0.
  replace ((num <? 0) || (l <? 0)) with false by lia. destruct (push_at_some (Z.to_nat l) (mkTP l isx start num (Z.quot (Qnum step) (Zpos (Qden step)))) (h_tracks h)) as (v & ->); [lia|]. cbn. eauto.
Qed.
Lemma good_all nl ss h : Forall (good_tracks N2L nl) ss -> length (h_tracks h) = nl -> exists h', hsteps ss h = Some h'.
Proof.
  revert h. induction ss as [|s r IH]; intros h F L; cbn; [eauto|]. inversion_clear F as [|? ? G R]. destruct (good_step _ _ _ G L) as (h1 & E). rewrite E.
  apply IH; [exact R|]. destruct (hstep_tracks _ _ _ E) as (L' & _). congruence.
Qed.
Lemma pats_on nl s k tp : good_tracks N2L nl s -> In tp (pats k s) -> Z.of_nat k = tp_layer tp /\ 0 < tp_step tp /\ forall c, on_pattern tp c <-> track_of N2L (first_layer s) (tp_isX tp) (tp_layer tp) c.
Proof.
  destruct s as [n|pts|isx start num step [|n rest]]; cbn; try contradiction. intros (N0 & (z & Z0 & ZE) & NN & K) H. destruct (K n (or_introl eq_refl)) as (l & EN & L0). rewrite EN in H.
  destruct (Nat.eqb k (Z.to_nat l)) eqn:EK; [|contradiction]. apply Nat.eqb_eq in EK. destruct H as [<-|[]]. cbn [tp_layer tp_step tp_isX].
  assert (QZ : Z.quot (Qnum step) (Zpos (Qden step)) = z) by (unfold Qeq in ZE; cbn in ZE; rewrite Z.mul_1_r in ZE; rewrite ZE; apply Z.quot_mul; discriminate).
  rewrite QZ. split; [lia|]. split; [exact Z0|]. intros c. unfold on_pattern. cbn [tp_num tp_start tp_step]. split.
  - intros (j & J & ->). split; [reflexivity|]. split; [exists n; auto|]. exists j. split; [exact J|]. rewrite ZE. rewrite <- inject_Z_mult, <- inject_Z_plus. reflexivity.
  - intros (_ & _ & j & J & E). exists j. split; [exact J|]. rewrite ZE, <- inject_Z_mult, <- inject_Z_plus in E. unfold Qeq in E; cbn in E; lia.
Qed.
Lemma pats_complete nl s isx l c : good_tracks N2L nl s -> track_of N2L (first_layer s) isx l c -> exists tp, In tp (pats (Z.to_nat l) s) /\ tp_isX tp = isx /\ tp_layer tp = l.
Proof.
  destruct s as [n|pts|x start num step [|n rest]]; cbn; try contradiction. { intros (_ & _ & NN & _). congruence. }
  intros _ (-> & (m & [<-|[]] & E) & _). rewrite E, Nat.eqb_refl. eexists. split; [left; reflexivity|]. split; reflexivity.
Qed.
Lemma in_all tp h : In tp (all_tracks h) <-> exists k, In tp (nth k (h_tracks h) []).
Proof.
  unfold all_tracks. rewrite in_concat. split.
  - intros (x & X & I). destruct (In_nth _ _ [] X) as (k & _ & E). exists k. rewrite E. exact I.
  - intros (k & I). exists (nth k (h_tracks h) []). split; [|exact I]. apply nth_In. destruct (Nat.lt_ge_cases k (length (h_tracks h))) as [|G]; [assumption|]. rewrite (nth_overflow _ _ G) in I. destruct I.
Qed.
Lemma repeat_nil {A} n k : nth k (repeat (@nil A) n) [] = [].
Proof. revert k. induction n as [|n IH]; intros [|k]; cbn; auto. Qed.
Lemma all_tracks_iff nl ss h : Forall (good_tracks N2L nl) ss -> hsteps ss (hdr0 nl) = Some h ->
  (forall tp, In tp (all_tracks h) -> 0 < tp_step tp /\ 0 <= tp_layer tp) /\
  forall isx l c, (exists tp, In tp (all_tracks h) /\ tp_isX tp = isx /\ tp_layer tp = l /\ on_pattern tp c) <-> exists s, In s ss /\ track_of N2L (first_layer s) isx l c.
Proof.
  intros F H. destruct (hsteps_tracks _ _ _ H) as (L & K).
  assert (A : forall tp, In tp (all_tracks h) <-> exists k s, In s ss /\ In tp (pats k s)).
  { intros tp. rewrite in_all. split; intros (k & X).
    - rewrite K in X. cbn [h_tracks hdr0] in X. rewrite repeat_nil in X. cbn in X. apply in_flat_map in X. exists k. exact X.
    - exists k. rewrite K. cbn [h_tracks hdr0]. rewrite repeat_nil. apply in_flat_map. exact X. }
  rewrite Forall_forall in F. split.
  - intros tp X. apply A in X. destruct X as (k & s & S1 & S2). destruct (pats_on _ _ _ _ (F s S1) S2) as (P1 & P2 & _). lia.
  - intros isx l c. split.
    + intros (tp & X & <- & <- & O). apply A in X. destruct X as (k & s & S1 & S2). destruct (pats_on _ _ _ _ (F s S1) S2) as (_ & _ & P). exists s. split; [exact S1|]. apply P, O.
    + intros (s & S1 & T). destruct (pats_complete _ _ _ _ _ (F s S1) T) as (tp & I & <- & <-). exists tp. split; [apply A; eauto|]. split; [reflexivity|]. split; [reflexivity|]. apply (pats_on _ _ _ _ (F s S1) I). exact T.
Qed.
Lemma first_same s isx l c : one_layer s -> track_of N2L (first_layer s) isx l c <-> track_of N2L s isx l c.
Proof. destruct s as [| |x a b d [|n [|m r]]]; cbn; try tauto; intros H; discriminate H. Qed.
End Tech.

Lemma gcell_layers_spec fuel l n : (0 <= l <= n + 1) -> (n - l < 2 * Z.of_nat fuel - 1) -> Z.even l = true -> gcell_layers fuel l n true = Some tt <-> Z.odd n = true.
Proof.
  revert l. induction fuel as [|f IH]; intros l H1 H2 H3; [lia|]. cbn [gcell_layers andb]. destruct (l <=? n) eqn:E.
  - destruct (l <? n) eqn:E'; cbn [negb].
    + apply IH; [lia|lia|]. rewrite Z.even_add, H3. reflexivity.
    + assert (l = n) by lia. subst. split; [discriminate|]. rewrite <- Z.negb_even, H3. discriminate.
  - split; [|reflexivity]. intros _. assert (n = l - 1) by lia. subst. rewrite Z.odd_sub, <- Z.negb_even, H3. reflexivity.
Qed.
