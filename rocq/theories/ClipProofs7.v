From Coq Require Import Permutation.
From Verif Require Import Base GeomModel GeomSpec ClipModel ClipSpec ClipProofs ClipProofs2 ClipProofs3 ClipProofs4 ClipProofs5 ClipProofs6.

Lemma proper_st w : proper w -> straight w.
Proof. intros [[? ?]|[? ?]]; [left|right]; lia. Qed.
Lemma on_side_in s f l : In f (on_side s l) <-> In (s, f) l.
Proof.
  unfold on_side. rewrite in_map_iff. split.
  - intros ([s' g] & <- & H). apply filter_In in H as [H E]. cbn in E. destruct s', s; try discriminate; exact H.
  - intros H. exists (s, f). split; [reflexivity|]. apply filter_In. split; [exact H|]. cbn. destruct s; reflexivity.
Qed.
Lemma sides_perm l : Permutation (map snd l) (on_side Ext l ++ on_side Route l).
Proof.
  induction l as [|[[] f] r IH]; cbn; [reflexivity| |].
  - unfold on_side in *. cbn. rewrite IH. apply Permutation_middle.
  - unfold on_side in *. cbn. apply perm_skip, IH.
Qed.
Lemma on_side_app s l l' : on_side s (l ++ l') = on_side s l ++ on_side s l'.
Proof. unfold on_side. now rewrite filter_app, map_app. Qed.

Lemma origin_in_ok isInit b o : origin_in isInit b o = true <-> owned isInit b (2 * px o) (2 * py o).
Proof.
  unfold origin_in, owned, in_box2. destruct isInit; rewrite !andb_true_iff; split.
  - intros. split; [lia|]. intros _. lia.
  - intros [A B]. specialize (B eq_refl). lia.
  - intros. split; [lia|]. discriminate.
  - intros [A _]. lia.
Qed.
Lemma unowned_seg isInit b lw w : solid b -> proper w -> (forall x y, on_line w x y -> ~ owned isInit b x y) ->
  fst (remove_fig isInit b lw (FSeg w)) = [FSeg w].
Proof.
  intros [S1 S2] P A. assert (S3 : bleft b < bright b) by exact S1. assert (S4 : bbottom b < btop b) by exact S2.
  destruct w as [l [x y] [x' y'] s]. unfold proper in P. cbn [wb we px py] in P.
  unfold remove_fig, remove_seg. cbn [wb we px py wl ws]. cbv zeta.
  destruct P as [[-> P]|[-> P]].
  - rewrite Z.eqb_refl. destruct ((bleft b <=? x') && (if isInit then x' <? bright b else x' <=? bright b)) eqn:E; cbn [andb]; [|reflexivity].
    assert (B : y' < bbottom b \/ btop b < y \/ (isInit = true /\ btop b = y)).
    { destruct (Z_lt_le_dec y' (bbottom b)); [left; lia|]. right. destruct (Z_lt_le_dec (btop b) y); [left; lia|]. right. destruct (Z.eq_dec (btop b) y) as [Q|Q]; [destruct isInit eqn:I|]; [auto| |]; exfalso.
      - apply (A (2 * x') (2 * Z.max y (bbottom b))); [unfold on_line; cbn [wb we px py]; lia|]. split; [unfold in_box2; lia|discriminate].
      - apply (A (2 * x') (2 * Z.max y (bbottom b))); [unfold on_line; cbn [wb we px py]; lia|]. split; [unfold in_box2; destruct isInit; lia|]. intros ->. lia. }
    clear A. destruct (negb ((y >? btop b) || (y' <? bbottom b))) eqn:N; [|reflexivity].
    assert (y = btop b) by lia. subst y. zc; try (exfalso; lia). cbn. rewrite Z.max_id. reflexivity.
  - destruct (x =? x') eqn:Ex; [lia|]. rewrite Z.eqb_refl. destruct ((bbottom b <=? y') && (if isInit then y' <? btop b else y' <=? btop b)) eqn:E; cbn [andb]; [|reflexivity].
    assert (B : x' < bleft b \/ bright b < x \/ (isInit = true /\ bright b = x)).
    { destruct (Z_lt_le_dec x' (bleft b)); [left; lia|]. right. destruct (Z_lt_le_dec (bright b) x); [left; lia|]. right. destruct (Z.eq_dec (bright b) x) as [Q|Q]; [destruct isInit eqn:I|]; [auto| |]; exfalso.
      - apply (A (2 * Z.max x (bleft b)) (2 * y')); [unfold on_line; cbn [wb we px py]; lia|]. split; [unfold in_box2; lia|discriminate].
      - apply (A (2 * Z.max x (bleft b)) (2 * y')); [unfold on_line; cbn [wb we px py]; lia|]. split; [unfold in_box2; destruct isInit; lia|]. intros ->. lia. }
    clear A. destruct (negb ((x >? bright b) || (x' <? bleft b))) eqn:N; [|reflexivity].
    assert (x = bright b) by lia. subst x. zc; try (exfalso; lia). cbn. rewrite Z.max_id. reflexivity.
Qed.

Section W.
Variable isInit : bool.
Variable b : box.
Variable lw : Z -> Z.
Hypothesis sol : solid b.
Variable found : fig -> bool.
Hypothesis fok : forall f, meets b f -> found f = true.
Notation kept := (kept_of isInit b lw found).

Lemma not_found f : fig_proper f -> found f = false -> load_fig isInit b lw f = [(Ext, f)] /\ remove_fig isInit b lw f = ([f], []).
Proof.
  intros P N. assert (M : ~ meets b f) by (intros M; apply fok in M; congruence). destruct f as [w|o l1 l2 d|o l off].
  - apply away_seg; [exact sol|exact P|]. intros x y O I. apply M. exists x, y. auto.
  - cbn. destruct (origin_in isInit b o) eqn:E; [|auto]. apply origin_in_ok in E. exfalso. apply M, E.
  - cbn. destruct (origin_in isInit b o) eqn:E; [|auto]. apply origin_in_ok in E. exfalso. apply M, E.
Qed.
Lemma kept_ext f : fig_proper f -> kept f = on_side Ext (load_fig isInit b lw f).
Proof.
  intros P. unfold kept_of. destruct (found f) eqn:E; [apply kept_is_ext_fig; assumption|]. destruct (not_found f P E) as [-> _]. reflexivity.
Qed.
Lemma kept_in F f : Forall fig_proper F -> In f (flat_map kept F) <-> exists g, In g F /\ In (Ext, f) (load_fig isInit b lw g).
Proof.
  intros P. rewrite Forall_forall in P. rewrite in_flat_map. split; intros (g & Hg & H); exists g; (split; [exact Hg|]).
  - rewrite kept_ext in H by (apply P, Hg). apply on_side_in, H.
  - rewrite kept_ext by (apply P, Hg). apply on_side_in, H.
Qed.
Lemma piece_of_seg s c g : In (s, FSeg c) (load_fig isInit b lw g) -> exists w, g = FSeg w.
Proof. destruct g as [w|o l1 l2 d|o l off]; [eauto| |]; cbn; (intros [E|[]]; discriminate E). Qed.
Lemma load_straight s g f : fig_proper g -> In (s, f) (load_fig isInit b lw g) -> fig_straight f.
Proof.
  intros P H. destruct f as [c| |]; try exact I. destruct (piece_of_seg _ _ _ H) as (w & ->). apply proper_st. exact (proj2 (proj2 (piece_layer isInit b lw sol w s c P H))).
Qed.
Lemma kept_straight F : Forall fig_proper F -> Forall fig_straight (flat_map kept F).
Proof. intros P. apply Forall_forall. intros f Hf. apply kept_in in Hf as (g & Hg & Hf); [|exact P]. rewrite Forall_forall in P. apply (load_straight Ext g f (P g Hg) Hf). Qed.
Lemma lines_outside F l x y : Forall fig_proper F -> ~ in_box2 b x y -> lines (flat_map kept F) l x y <-> lines F l x y.
Proof.
  intros P O. split.
  - intros (c & Hc & L & On). apply kept_in in Hc as (g & Hg & Hc); [|exact P]. destruct (piece_of_seg _ _ _ Hc) as (w & ->). rewrite Forall_forall in P. specialize (P _ Hg). cbn in P.
    exists w. split; [exact Hg|]. split; [rewrite <- L; symmetry; apply (piece_layer isInit b lw sol w Ext c P Hc)|]. apply (piece_on isInit b lw sol w Ext c P Hc _ _ On).
  - intros (w & Hw & L & On). assert (Pw : proper w) by (rewrite Forall_forall in P; apply (P _ Hw)).
    destruct (line_covered isInit b lw sol w Pw x y On) as ([|] & c & Hc & Oc).
    + exfalso. apply O. apply (route_inside isInit b lw sol w c Pw Hc _ _ Oc).
    + exists c. split; [apply kept_in; [exact P|exists (FSeg w); auto]|]. split; [|exact Oc]. rewrite <- L. apply (piece_layer isInit b lw sol w Ext c Pw Hc).
Qed.
Lemma lines_interior F l x y : Forall fig_proper F -> in_interior2 x y b -> ~ lines (flat_map kept F) l x y.
Proof.
  intros P O (c & Hc & L & On). apply kept_in in Hc as (g & Hg & Hc); [|exact P]. destruct (piece_of_seg _ _ _ Hc) as (w & ->). rewrite Forall_forall in P. specialize (P _ Hg). cbn in P.
  apply (ext_outside isInit b lw sol w c P Hc _ _ On O).
Qed.
Lemma base_perm F best : Forall fig_proper F -> Permutation best (loaded isInit b lw Route F) ->
  Permutation (flat_map kept F ++ best) (flat_map (fun f => map snd (load_fig isInit b lw f)) F).
Proof.
  intros P ->. unfold loaded. induction P as [|f r Pf Pr IH]; [reflexivity|]. cbn [flat_map]. rewrite on_side_app, kept_ext by exact Pf.
  rewrite <- IH, (sides_perm (load_fig isInit b lw f)). rewrite <- !app_assoc. apply Permutation_app_head. rewrite !app_assoc. apply Permutation_app_tail. apply Permutation_app_comm.
Qed.
Lemma lines_perm F G l x y : Permutation F G -> lines F l x y <-> lines G l x y.
Proof. intros P. split; intros (w & H & K); exists w; (split; [|exact K]); [|symmetry in P]; apply (Permutation_in _ P H). Qed.
Lemma lines_app F G l x y : lines (F ++ G) l x y <-> lines F l x y \/ lines G l x y.
Proof.
  unfold lines. split.
  - intros (w & H & K). apply in_app_or in H as [H|H]; [left|right]; eauto.
  - intros [(w & H & K)|(w & H & K)]; exists w; (split; [apply in_or_app; auto|exact K]).
Qed.
Lemma lines_load F l x y : Forall fig_proper F -> lines (flat_map (fun f => map snd (load_fig isInit b lw f)) F) l x y <-> lines F l x y.
Proof.
  intros P. rewrite Forall_forall in P. split.
  - intros (c & H & L & O). apply in_flat_map in H as (g & Hg & H). apply in_map_iff in H as ([s c'] & E & H). cbn in E. subst c'.
    destruct (piece_of_seg _ _ _ H) as (w & ->). specialize (P _ Hg). cbn in P. exists w. split; [exact Hg|]. split; [rewrite <- L; symmetry; apply (piece_layer isInit b lw sol w s c P H)|].
    apply (piece_on isInit b lw sol w s c P H _ _ O).
  - intros (w & H & L & O). pose proof (P _ H) as Pw. destruct (line_covered isInit b lw sol w Pw x y O) as (s & c & Hc & Oc). exists c. split.
    + apply in_flat_map. exists (FSeg w). split; [exact H|]. apply in_map_iff. exists (s, FSeg c). auto.
    + split; [|exact Oc]. rewrite <- L. apply (piece_layer isInit b lw sol w s c Pw Hc).
Qed.
Lemma load_not_wire f : fig_proper f -> filter not_wire (map snd (load_fig isInit b lw f)) = filter not_wire [f].
Proof.
  intros P. destruct f as [w|o l1 l2 d|o l off]; try reflexivity. cbn [not_wire filter]. apply filter_none. intros g H. apply in_map_iff in H as ([s g'] & <- & H).
  destruct (piece_cases isInit b lw sol w P s g' H) as (c & -> & _). reflexivity.
Qed.
Lemma loads_not_wire F : Forall fig_proper F -> filter not_wire (flat_map (fun f => map snd (load_fig isInit b lw f)) F) = filter not_wire F.
Proof.
  induction 1 as [|f r Pf Pr IH]; [reflexivity|]. cbn [flat_map]. rewrite filter_app, IH, load_not_wire by exact Pf. change (f :: r) with ([f] ++ r). now rewrite filter_app.
Qed.
Lemma kept_not_wire F f : Forall fig_proper F -> not_wire f = true -> In f (flat_map kept F) <-> In f F /\ ~ owned_origin isInit b f.
Proof.
  intros P N. rewrite kept_in by exact P. split.
  - intros (g & Hg & H). destruct g as [w|o l1 l2 d|o l off].
    + rewrite Forall_forall in P. destruct (piece_cases isInit b lw sol w (P _ Hg) Ext f H) as (c & -> & _). discriminate N.
    + cbn in H. destruct (origin_in isInit b o) eqn:E; destruct H as [H|[]]; [discriminate H|]. injection H as <-. split; [exact Hg|]. cbn [owned_origin]. rewrite <- origin_in_ok. congruence.
    + cbn in H. destruct (origin_in isInit b o) eqn:E; destruct H as [H|[]]; [discriminate H|]. injection H as <-. split; [exact Hg|]. cbn [owned_origin]. rewrite <- origin_in_ok. congruence.
  - intros [Hf O]. exists f. split; [exact Hf|]. destruct f as [w|o l1 l2 d|o l off]; [discriminate N| |]; cbn [owned_origin] in O; cbn [load_fig]; rewrite <- origin_in_ok in O; destruct (origin_in isInit b o); try tauto; now left.
Qed.
End W.
