(* Equal keys mean equal views; moving an access point; rows. *)
From Verif Require Import Base GeomModel ApModel UiModel UiSpec UiProofs.

Section Q.
Variable E : uenv.
Hypothesis W : wf E.

Lemma pref_in t : In t (pref_tracks E) <-> preferred E t.
Proof.
  unfold pref_tracks, preferred. rewrite filter_In. destruct (u_horz E (tp_layer t)), (tp_vert t); cbn; intuition congruence.
Qed.
Lemma has_track_iff t i : has_track t (inst_box E i) = true <-> reaches E t i.
Proof.
  unfold has_track, reaches, last_track, side_hi, side_lo. destruct (tp_vert t);
    rewrite negb_true_iff, orb_false_iff, Z.gtb_ltb, !Z.ltb_ge; rewrite (Z.mul_comm (tp_space t)); tauto.
Qed.
Lemma fold_min_le ls : forall a l, u_bottom E <= l -> (fold_left (fun a l => if l >=? u_bottom E then Z.min a l else a) ls a <= l <->
   (a <= l \/ exists x, In x ls /\ u_bottom E <= x /\ x <= l)).
Proof.
  induction ls as [|y r IH]; intros a l B; cbn [fold_left].
  { split; [tauto|]. intros [H|[x [[] _]]]; exact H. }
  rewrite IH by exact B. destruct (y >=? u_bottom E) eqn:Q.
  - split.
    + intros [H|[x [H1 H2]]]; [|right; exists x; split; [right; exact H1|exact H2]].
      destruct (Z.le_gt_cases a l) as [X|X]; [left; exact X|]. right. exists y. split; [left; reflexivity|lia].
    + intros [H|[x [[-> |H1] H2]]]; [left; lia|left; lia|right; exists x; split; assumption].
  - split.
    + intros [H|[x [H1 H2]]]; [left; exact H|right; exists x; split; [right; exact H1|exact H2]].
    + intros [H|[x [[-> |H1] H2]]]; [left; exact H|lia|right; exists x; split; assumption].
Qed.
Lemma fold_max_ge ls : forall a l, l <= fold_left (fun a l => Z.max a l) ls a <-> (l <= a \/ exists x, In x ls /\ l <= x).
Proof.
  induction ls as [|y r IH]; intros a l; cbn [fold_left].
  { split; [tauto|]. intros [H|[x [[] _]]]; exact H. }
  rewrite IH. split.
  - intros [H|[x [H1 H2]]]; [|right; exists x; split; [right; exact H1|exact H2]].
    destruct (Z.le_gt_cases l a) as [X|X]; [left; exact X|]. right. exists y. split; [left; reflexivity|lia].
  - intros [H|[x [[-> |H1] H2]]]; [left; lia|left; lia|right; exists x; split; assumption].
Qed.
Lemma fold_min_bottom ls : forall a, u_bottom E <= a -> u_bottom E <= fold_left (fun a l => if l >=? u_bottom E then Z.min a l else a) ls a.
Proof. induction ls as [|y r IH]; intros a B; cbn [fold_left]; [exact B|]. apply IH. zcases; lia. Qed.
Lemma pin_range_spec m rg l : u_bottom E <= INT_MAX -> pin_range E m = Some rg -> l < INT_MAX ->
  (fst rg <= l <= snd rg <-> seen_layer E m l).
Proof.
  intros UB H L. unfold pin_range in H.
  set (mn := fold_left _ (u_figs E m) INT_MAX) in H. set (mx := fold_left _ (u_figs E m) INT_MIN) in H.
  destruct ((mn <? u_bottom E) || (mx >? u_top E)); [discriminate|]. injection H as <-. cbn [fst snd].
  assert (MB : u_bottom E <= mn) by (apply fold_min_bottom; exact UB).
  assert (M1 := fold_min_le (u_figs E m) INT_MAX). assert (M2 := fold_max_ge (u_figs E m) INT_MIN).
  fold mn in M1. fold mx in M2. unfold seen_layer. split.
  - intros H. assert (BL : u_bottom E <= l) by lia.
    destruct (proj1 (M1 l BL)) as [X|[a [Ha [Ba La]]]]; [lia|lia|].
    assert (X : exists b, In b (u_figs E m) /\ mx <= b).
    { destruct (proj1 (M2 mx)) as [X|X]; [lia| |exact X]. exists a. split; [exact Ha|].
      destruct W as [_ [W2 _]]. specialize (W2 m a Ha). lia. }
    destruct X as [b [Hb Lb]]. exists a, b. repeat split; try assumption; lia.
  - intros [a [b [Ha [Hb [Ba [[La Lb] Ln]]]]]]. assert (BL : u_bottom E <= l) by lia.
    assert (mn <= l) by (apply (M1 l BL); right; exists a; repeat split; assumption).
    assert (l - 2 <= mx) by (apply M2; right; exists b; split; [exact Hb|lia]). lia.
Qed.

Lemma umod_eq x y s : 0 < s -> 0 <= x <= INT_MAX -> 0 <= y <= INT_MAX -> (umod x s = umod y s <-> (s | x - y)).
Proof.
  intros S X Y. unfold umod. unfold INT_MAX in *. rewrite !(Z.mod_small _ (2 ^ 32)) by lia. split.
  - intros H. apply Z.mod_divide; [lia|]. rewrite Zminus_mod, H, Z.sub_diag. reflexivity.
  - intros [k H]. replace x with (y + k * s) by lia. apply Z.mod_add. lia.
Qed.
Lemma umod_lt x s : 0 < s -> 0 <= umod x s < s.
Proof. intros. unfold umod. apply Z.mod_pos_bound. lia. Qed.

Lemma org_bound t i : placed_nonneg i -> 0 <= org t i <= INT_MAX.
Proof. intros [H1 H2]. unfold org. destruct (tp_vert t); assumption. Qed.

(* one entry of the vectors *)
Lemma offset1_eq rg i j t : In t (pref_tracks E) -> placed_nonneg i -> placed_nonneg j ->
  (offset1 E rg i t = offset1 E rg j t <->
   (fst rg <= tp_layer t <= snd rg -> (reaches E t i <-> reaches E t j) /\ (reaches E t i -> (tp_space t | org t i - org t j)))).
Proof.
  intros T Pi Pj. apply pref_in in T. destruct T as [T _]. destruct W as [W1 _]. destruct (W1 t T) as [S _].
  unfold offset1. destruct ((tp_layer t >=? fst rg) && (tp_layer t <=? snd rg)) eqn:L.
  2:{ split; [intros _ H; lia|reflexivity]. }
  assert (LL : fst rg <= tp_layer t <= snd rg) by lia.
  assert (Z0 : (tp_space t =? 0) = false) by lia. rewrite Z0.
  assert (U1 := umod_lt (org t i) _ S). assert (U2 := umod_lt (org t j) _ S).
  assert (U3 := umod_eq (org t i) (org t j) _ S (org_bound t i Pi) (org_bound t j Pj)). unfold org in U1, U2, U3.
  assert (Ri := has_track_iff t i). assert (Rj := has_track_iff t j). unfold org.
  destruct (has_track t (inst_box E i)), (has_track t (inst_box E j)).
  - split; [intros H _; injection H as H; split; [tauto|intros _; apply U3; exact H]|].
    intros H. f_equal. apply U3. apply H; [exact LL|tauto].
  - split; [intros H; injection H as H; lia|]. intros H. exfalso. destruct (H LL) as [H1 _].
    assert (X : reaches E t j) by tauto. apply Rj in X. discriminate.
  - split; [intros H; injection H as H; lia|]. intros H. exfalso. destruct (H LL) as [H1 _].
    assert (X : reaches E t i) by tauto. apply Ri in X. discriminate.
  - split; [|reflexivity]. intros _ _. split; [split; intros X; [apply Ri in X|apply Rj in X]; discriminate|].
    intros X. apply Ri in X. discriminate.
Qed.
Lemma offset1_some rg i t : In t (pref_tracks E) -> offset1 E rg i t <> None.
Proof.
  intros T. apply pref_in in T. destruct T as [T _]. destruct W as [W1 _]. destruct (W1 t T) as [S _]. unfold offset1.
  assert (Z0 : (tp_space t =? 0) = false) by lia. rewrite Z0. zcases; discriminate.
Qed.
Lemma offsets_some rg i ts : (forall t, In t ts -> In t (pref_tracks E)) -> exists os, offsets E rg i ts = Some os.
Proof.
  induction ts as [|t r IH]; intros H; cbn [offsets]; [eexists; reflexivity|].
  destruct (offset1 E rg i t) as [o|] eqn:O; [|exfalso; apply (offset1_some rg i t (H t (or_introl eq_refl)) O)].
  destruct IH as [os ->]; [intros x Hx; apply H; right; exact Hx|]. eexists; reflexivity.
Qed.
Lemma offsets_eq rg i j ts : (forall t, In t ts -> In t (pref_tracks E)) ->
  (offsets E rg i ts = offsets E rg j ts <-> forall t, In t ts -> offset1 E rg i t = offset1 E rg j t).
Proof.
  induction ts as [|t r IH]; intros H; cbn [offsets]; [split; [easy|reflexivity]|].
  assert (Hr : forall x, In x r -> In x (pref_tracks E)) by (intros x Hx; apply H; right; exact Hx).
  destruct (offsets_some rg i r Hr) as [oi Oi]. destruct (offsets_some rg j r Hr) as [oj Oj].
  specialize (IH Hr). rewrite Oi, Oj in *.
  assert (Ai := offset1_some rg i t (H t (or_introl eq_refl))). assert (Aj := offset1_some rg j t (H t (or_introl eq_refl))).
  destruct (offset1 E rg i t) as [a|] eqn:Qi; [|congruence]. destruct (offset1 E rg j t) as [b|] eqn:Qj; [|congruence]. split.
  - intros X. injection X as -> ->. intros x [<- |Hx]; [congruence|]. apply (proj1 IH); [reflexivity|exact Hx].
  - intros X. assert (Q := X t (or_introl eq_refl)). rewrite Qi, Qj in Q. injection Q as ->.
    assert (R : Some oi = Some oj) by (apply IH; intros x Hx; apply X; right; exact Hx). injection R as ->. reflexivity.
Qed.

Lemma key_view i j : u_bottom E <= INT_MAX -> placed_nonneg i -> placed_nonneg j -> key_of E i <> None ->
  (key_of E i = key_of E j <-> same_view E i j).
Proof.
  intros UB Pi Pj NN. unfold same_view.
  assert (SUB : forall t, In t (pref_tracks E) -> In t (pref_tracks E)) by easy.
  assert (V : forall rg, pin_range E (i_master i) = Some rg ->
     (offsets E rg i (pref_tracks E) = offsets E rg j (pref_tracks E) <->
      forall t, preferred E t -> seen_layer E (i_master i) (tp_layer t) ->
        (reaches E t i <-> reaches E t j) /\ (reaches E t i -> (tp_space t | org t i - org t j)))).
  { intros rg R. rewrite (offsets_eq rg i j _ SUB). split.
    - intros H t T SL. assert (T' := T). apply pref_in in T'. specialize (H t T'). apply (offset1_eq rg i j t T' Pi Pj) in H; [exact H|].
      apply (pin_range_spec _ _ _ UB R); [|exact SL]. destruct W as [W1 _]. destruct T as [T _]. apply (W1 t T).
    - intros H t T. apply (offset1_eq rg i j t T Pi Pj). intros L. apply pref_in in T. apply H; [exact T|].
      apply (pin_range_spec _ _ _ UB R); [|exact L]. destruct W as [W1 _]. destruct T as [T _]. apply (W1 t T). }
  unfold key_of in *. destruct (pin_range E (i_master i)) as [rg|] eqn:R; [|congruence].
  specialize (V rg eq_refl). destruct (offsets_some rg i _ SUB) as [oi Oi]. rewrite Oi in *.
  split.
  - destruct (pin_range E (i_master j)) as [rj|] eqn:Rj; [|discriminate].
    destruct (offsets E rj j (pref_tracks E)) as [oj|] eqn:Oj; [|discriminate]. intros H. injection H as M O Q. subst oj.
    split; [exact M|]. split; [exact O|]. apply V. rewrite M in R. assert (rj = rg) by congruence. subst rj. congruence.
  - intros [M [O H]]. rewrite <- M, R. assert (Q := proj2 V H). rewrite <- Q. rewrite O. reflexivity.
Qed.
Lemma key_some i : (forall l, In l (u_figs E (i_master i)) -> l <= u_top E) -> u_bottom E <= INT_MAX -> INT_MIN <= u_top E ->
  key_of E i <> None.
Proof.
  intros T UB UT. unfold key_of, pin_range.
  assert (MB := fold_min_bottom (u_figs E (i_master i)) INT_MAX UB).
  set (mn := fold_left _ (u_figs E (i_master i)) INT_MAX) in *.
  assert (MT : fold_left (fun a l => Z.max a l) (u_figs E (i_master i)) INT_MIN <= u_top E).
  { destruct (proj1 (fold_max_ge (u_figs E (i_master i)) INT_MIN _) (Z.le_refl _)) as [X|[x [X1 X2]]]; [lia|]. specialize (T x X1). lia. }
  set (mx := fold_left _ (u_figs E (i_master i)) INT_MIN) in *.
  replace ((mn <? u_bottom E) || (mx >? u_top E)) with false by (destruct (mn <? u_bottom E) eqn:?, (mx >? u_top E) eqn:?; cbn; lia).
  destruct (offsets_some (mn, Z.min (mx + 2) (u_nlayers E)) i (pref_tracks E)) as [os ->]; [easy|discriminate].
Qed.

(* --- the same place of another instance ------------------------------------------------------------ *)
Definition moved (i j : inst) (p : point) : point := used_place j (stored_place i p).
Lemma moved_pt i j p : moved i j p = mkPt (px p - xo (i_xf i) + xo (i_xf j)) (py p - yo (i_xf i) + yo (i_xf j)).
Proof. unfold moved, used_place, stored_place, pt_transform. cbn. f_equal; lia. Qed.
Definition shifted (dx dy : Z) (b : box) : box := mkBox (mkPt (bleft b + dx) (bbottom b + dy)) (mkPt (bright b + dx) (btop b + dy)).
Lemma box_set_shift a b c d dx dy : box_set (a + dx) (b + dy) (c + dx) (d + dy) = shifted dx dy (box_set a b c d).
Proof.
  unfold box_set, shifted. cbn.
  replace (a + dx >? c + dx) with (a >? c) by lia. replace (b + dy >? d + dy) with (b >? d) by lia.
  destruct (a >? c), (b >? d); reflexivity.
Qed.
Lemma transform_shift p t dx dy : pt_transform p (mkXf (xo t + dx) (yo t + dy) (ori t)) =
  mkPt (px (pt_transform p t) + dx) (py (pt_transform p t) + dy).
Proof. unfold pt_transform. destruct t as [x y o]. cbn. destruct o; cbn; f_equal; lia. Qed.
Lemma box_transform_shift b t dx dy : box_transform b (mkXf (xo t + dx) (yo t + dy) (ori t)) = shifted dx dy (box_transform b t).
Proof. unfold box_transform, box_of_pts. rewrite !transform_shift. cbn [px py]. apply box_set_shift. Qed.
Lemma updated_shift ref t dx dy : 
  inst_updated_xform ref (mkXf (xo t + dx) (yo t + dy) (ori t)) false =
  mkXf (xo (inst_updated_xform ref t false) + dx) (yo (inst_updated_xform ref t false) + dy) (ori (inst_updated_xform ref t false)).
Proof.
  destruct t as [x y o]. unfold inst_updated_xform, xf_update. cbn [xo yo ori].
  destruct o; cbn [xo yo ori pt_transform px py]; f_equal; lia.
Qed.
Lemma xf_shift i j : ori (i_xf i) = ori (i_xf j) ->
  i_xf j = mkXf (xo (i_xf i) + (xo (i_xf j) - xo (i_xf i))) (yo (i_xf i) + (yo (i_xf j) - yo (i_xf i))) (ori (i_xf i)).
Proof. intros H. destruct (i_xf i) as [a b o], (i_xf j) as [c d o']. cbn in *. subst. f_equal; lia. Qed.
Lemma placed_shift i j r : i_master i = i_master j -> ori (i_xf i) = ori (i_xf j) ->
  placed E j r = shifted (xo (i_xf j) - xo (i_xf i)) (yo (i_xf j) - yo (i_xf i)) (placed E i r).
Proof.
  intros M O. unfold placed. rewrite <- M, (xf_shift i j O), updated_shift, box_transform_shift. cbn [xo yo].
  f_equal; lia.
Qed.
Lemma box_shift i j : i_master i = i_master j -> ori (i_xf i) = ori (i_xf j) ->
  inst_box E j = shifted (xo (i_xf j) - xo (i_xf i)) (yo (i_xf j) - yo (i_xf i)) (inst_box E i).
Proof.
  intros M O. assert (H := placed_shift i j (u_box E (i_master i)) M O). unfold inst_box. rewrite <- M. unfold placed in H.
  rewrite <- M in H. exact H.
Qed.
Lemma in_shifted dx dy p b q : px q = px p + dx -> py q = py p + dy -> (in_box q (shifted dx dy b) <-> in_box p b).
Proof. intros X Y. unfold in_box, shifted, bleft, bright, bbottom, btop. cbn. lia. Qed.

Lemma coord_moved t i j p : coord t (moved i j p) = coord t p - org t i + org t j.
Proof. rewrite moved_pt. unfold coord, org. destruct (tp_vert t); reflexivity. Qed.
Lemma side_in t p b : in_box p b -> side_lo t b <= coord t p <= side_hi t b.
Proof. intros [H1 H2]. unfold side_lo, side_hi, coord. destruct (tp_vert t); lia. Qed.

(* within an instance that the pattern spans, being on a track is being a multiple of the pitch away *)
Lemma on_pattern_spans t i c : 0 < tp_space t -> 0 < tp_num t -> spans E t i -> side_lo t (inst_box E i) <= c <= side_hi t (inst_box E i) ->
  (on_pattern t c <-> (tp_space t | c - tp_start t)).
Proof.
  intros S N [H1 H2] C. unfold on_pattern, last_track in *. split.
  - intros [k [K Q]]. exists k. lia.
  - intros [k Q]. exists k. split; [|lia]. split.
    + assert (0 < (k + 1) * tp_space t) by lia. nia.
    + assert (k * tp_space t < tp_num t * tp_space t) by nia. nia.
Qed.
Lemma on_pattern_reach t i c : 0 < tp_space t -> side_lo t (inst_box E i) <= c <= side_hi t (inst_box E i) ->
  on_pattern t c -> reaches E t i.
Proof. intros S C [k [K ->]]. unfold reaches, last_track. split; nia. Qed.

Lemma moved_track i j t p : same_view E i j -> preferred E t -> seen_layer E (i_master i) (tp_layer t) ->
  (reaches E t i -> spans E t i) -> (reaches E t j -> spans E t j) -> in_box p (inst_box E i) ->
  (on_pattern t (coord t p) <-> on_pattern t (coord t (moved i j p))).
Proof.
  intros [M [O V]] T SL Si Sj Hp. destruct (V t T SL) as [V1 V2]. destruct W as [W1 _]. destruct (W1 t (proj1 T)) as [S [N _]].
  assert (Hq : in_box (moved i j p) (inst_box E j)).
  { rewrite (box_shift i j M O). apply in_shifted with (p := p); [rewrite moved_pt; cbn; lia|rewrite moved_pt; cbn; lia|exact Hp]. }
  apply (side_in t) in Hp. apply (side_in t) in Hq.
  destruct (Z.le_gt_cases (tp_start t) (side_hi t (inst_box E i))) as [A|A];
  [destruct (Z.le_gt_cases (side_lo t (inst_box E i)) (last_track t)) as [B|B]|].
  - assert (R : reaches E t i) by (split; assumption). assert (R' := proj1 V1 R).
    rewrite (on_pattern_spans t i _ S N (Si R) Hp), (on_pattern_spans t j _ S N (Sj R') Hq), coord_moved.
    destruct (V2 R) as [d D]. split; intros [k K]; [exists (k - d)|exists (k + d)]; lia.
  - split; intros X; exfalso; [apply (on_pattern_reach t i _ S Hp) in X|apply (on_pattern_reach t j _ S Hq) in X; apply V1 in X];
      destruct X; lia.
  - split; intros X; exfalso; [apply (on_pattern_reach t i _ S Hp) in X|apply (on_pattern_reach t j _ S Hq) in X; apply V1 in X];
      destruct X; lia.
Qed.
End Q.

(* --- rows ------------------------------------------------------------------------------------------ *)
Section R.
Variable E : uenv.

Lemma rows_concat is : forall y x row rs, concat (rows_loop E is y x row rs) = concat rs ++ row ++ is.
Proof.
  induction is as [|i r IH]; intros y x row rs; cbn [rows_loop].
  { destruct row; [rewrite !app_nil_r; reflexivity|]. rewrite concat_app. cbn. rewrite !app_nil_r. reflexivity. }
  rewrite IH. destruct (negb (yo (i_xf i) =? y) || (xo (i_xf i) >? x)); destruct row; cbn.
  - reflexivity.
  - rewrite concat_app. cbn. rewrite app_nil_r, <- app_assoc. reflexivity.
  - reflexivity.
  - rewrite <- !app_assoc. reflexivity.
Qed.
(* rows are made of continuing neighbours and end where the next does not continue *)
Definition rowok (row : list inst) : Prop := row <> [] /\ forall a b, consecutive a b row -> continues E a b.
Definition split_ok (r1 r2 : list inst) : Prop :=
  forall a b l1 l2, r1 = l1 ++ [a] -> r2 = b :: l2 -> ~ continues E a b.
Lemma consecutive_snoc {A} (a b : A) l c : consecutive a b (l ++ [c]) -> consecutive a b l \/ (b = c /\ exists l1, l = l1 ++ [a]).
Proof.
  intros [l1 [l2 H]]. destruct l2 as [|z l2] using rev_ind.
  - replace (l1 ++ [a; b]) with ((l1 ++ [a]) ++ [b]) in H by (rewrite <- app_assoc; reflexivity).
    apply app_inj_tail in H. destruct H as [-> ->]. right. split; [reflexivity|exists l1; reflexivity].
  - clear IHl2. replace (l1 ++ a :: b :: l2 ++ [z]) with ((l1 ++ a :: b :: l2) ++ [z]) in H by (rewrite <- app_assoc; reflexivity).
    apply app_inj_tail in H. destruct H as [-> _]. left. exists l1, l2. reflexivity.
Qed.
Lemma consecutive_snoc_l {A} (a b : A) l c : consecutive a b l -> consecutive a b (l ++ [c]).
Proof. intros [l1 [l2 ->]]. exists l1, (l2 ++ [c]). rewrite <- app_assoc. reflexivity. Qed.

Definition hdeq (row row2 : list inst) : Prop := match row with [] => True | a :: _ => exists l, row2 = a :: l end.
Lemma split_hd r row row2 : row <> [] -> hdeq row row2 -> split_ok r row -> split_ok r row2.
Proof.
  intros N H S a b l1 l2 Q1 Q2. destruct row as [|c row]; [congruence|]. destruct H as [l H]. rewrite Q2 in H. injection H as -> ->.
  exact (S a c l1 row Q1 eq_refl).
Qed.

Lemma rows_inv is : forall row rs last,
  (row = [] -> rs = []) ->
  (row <> [] -> exists l, row = l ++ [last]) ->
  (forall r, In r rs -> rowok r) -> (row <> [] -> rowok row) ->
  (forall r1 r2, consecutive r1 r2 (rs ++ [row]) -> row <> [] -> split_ok r1 r2) ->
  let res := rows_loop E is (if match row with [] => true | _ => false end then INT_MIN else yo (i_xf last))
                            (if match row with [] => true | _ => false end then INT_MIN else bright (inst_box E last)) row rs in
  (forall r, In r res -> rowok r) /\ (forall r1 r2, consecutive r1 r2 res -> split_ok r1 r2).
Proof.
  induction is as [|i r IH]; intros row rs last H0 H1 H2 H3 H4; cbn zeta; cbn [rows_loop].
  { destruct row as [|a row].
    - rewrite (H0 eq_refl). split; [easy|]. intros r1 r2 [l1 [l2 X]]. destruct l1; discriminate.
    - split.
      + intros x Hx. apply in_app_iff in Hx. destruct Hx as [Hx|[<- |[]]]; [apply H2; exact Hx|apply H3; easy].
      + intros r1 r2 C. apply H4; [exact C|easy]. }
  destruct row as [|a row].
  - (* first instance *)
    rewrite (H0 eq_refl). 
    match goal with |- context [rows_loop E r ?y ?x (?w ++ [i]) ?z] =>
      replace w with (@nil inst) by (destruct (negb (yo (i_xf i) =? INT_MIN) || (xo (i_xf i) >? INT_MIN)); reflexivity);
      replace z with (@nil (list inst)) by (destruct (negb (yo (i_xf i) =? INT_MIN) || (xo (i_xf i) >? INT_MIN)); reflexivity) end.
    cbn [app]. apply (IH [i] [] i); [discriminate|intros _; exists []; reflexivity|easy| |].
    + intros _. split; [discriminate|]. intros x y [l1 [l2 X]]. destruct l1 as [|? [|]]; discriminate.
    + intros r1 r2 [l1 [l2 X]]. destruct l1 as [|? [|]]; discriminate.
  - assert (NE : a :: row <> []) by discriminate. destruct (H1 NE) as [l HL]. cbn [negb].
    destruct (negb (yo (i_xf i) =? yo (i_xf last)) || (xo (i_xf i) >? bright (inst_box E last))) eqn:BR.
    + cbn [app]. apply (IH [i] (rs ++ [a :: row]) i); [discriminate|intros _; exists []; reflexivity| | |].
      * intros x Hx. apply in_app_iff in Hx. destruct Hx as [Hx|[<- |[]]]; [apply H2; exact Hx|apply H3; easy].
      * intros _. split; [discriminate|]. intros x y [l1 [l2 X]]. destruct l1 as [|? [|]]; discriminate.
      * intros r1 r2 C _. apply consecutive_snoc in C. destruct C as [C|[-> [l1 C]]].
        { apply H4; assumption. }
        apply app_inj_tail in C. destruct C as [_ <-]. intros x y m1 m2 Q1 Q2. injection Q2 as <- <-.
        rewrite HL in Q1. apply app_inj_tail in Q1. destruct Q1 as [_ <-]. unfold continues. lia.
    + apply (IH ((a :: row) ++ [i]) rs i); [intros X; destruct row; discriminate|intros _; exists (a :: row); reflexivity|exact H2| |].
      * intros _. split; [destruct row; discriminate|]. intros x y C. apply consecutive_snoc in C. destruct C as [C|[-> [l1 C]]].
        { apply (H3 NE); exact C. }
        rewrite HL in C. apply app_inj_tail in C. destruct C as [_ <-]. unfold continues. lia.
      * intros r1 r2 C _. apply consecutive_snoc in C. destruct C as [C|[-> [l1 C]]].
        { apply (H4 r1 r2); [apply consecutive_snoc_l; exact C|exact NE]. }
        apply split_hd with (row := a :: row); [exact NE|cbn; eexists; reflexivity|]. apply H4; [|exact NE].
        exists l1, []. rewrite C, <- app_assoc. reflexivity.
Qed.
Lemma rows_spec is : concat (rows E is) = is /\ (forall r, In r (rows E is) -> rowok r) /\
  (forall r1 r2, consecutive r1 r2 (rows E is) -> split_ok r1 r2).
Proof.
  unfold rows. split; [apply (rows_concat is)|]. destruct is as [|i r].
  { cbn. split; [easy|]. intros r1 r2 [l1 [l2 X]]. destruct l1; discriminate. }
  apply (rows_inv (i :: r) [] [] i); try easy.
Qed.
End R.
