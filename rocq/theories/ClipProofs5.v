From Coq Require Import Permutation.
From Verif Require Import Base GeomModel GeomSpec ClipModel ClipSpec ClipProofs ClipProofs2 ClipProofs3 ClipProofs4.

Definition lo_ (w : wire) (f : option Z) : Z := match f with None => b0 w | Some c => c end.
Definition hi_ (w : wire) (t : option Z) : Z := match t with None => e0 w | Some c => c end.
Lemma from_at w f : proper w -> from_ w f = at_ w (lo_ w f).
Proof. intros P. destruct f; [reflexivity|]. cbn. symmetry. apply at_begin, P. Qed.
Lemma to_at w t : proper w -> to_ w t = at_ w (hi_ w t).
Proof. intros P. destruct t; [reflexivity|]. cbn. symmetry. apply at_end, P. Qed.
Lemma sub_proper h w f t : proper w -> lo_ w f < hi_ w t -> proper (sub h w f t) /\
  (vert w = true -> px (wb (sub h w f t)) = px (we (sub h w f t))) /\ (vert w = false -> py (wb (sub h w f t)) = py (we (sub h w f t))).
Proof.
  intros P L. unfold sub, proper. cbn [wb we]. rewrite from_at, to_at by exact P. unfold at_. destruct (vert w); cbn [px py]; (split; [|split; intros; try discriminate; reflexivity]); [left|right]; auto.
Qed.
Lemma sub_ends h w f t p l : proper w -> ends_at p l (FSeg (sub h w f t)) = true -> wl w = l /\ exists c, p = at_ w c /\ (c = lo_ w f \/ c = hi_ w t).
Proof.
  intros P H. apply ends_at_only in H as [L H]. split; [exact L|]. unfold sub in H. cbn [wb we] in H. rewrite from_at, to_at in H by exact P.
  destruct H as [<-|<-]; eauto.
Qed.
Lemma sub_style h w f t : 0 <= h -> style_ok w -> style_ok (sub h w f t).
Proof. intros H (S1 & S2 & S3). unfold style_ok, sub. cbn. destruct f, t; auto. Qed.
Lemma sub_join h w f c t : proper w -> lo_ w f < c -> c < hi_ w t ->
  end_to_end (sub h w f (Some c)) (sub h w (Some c) t) (at_ w c) /\ joined (sub h w f (Some c)) (sub h w (Some c) t) = sub h w f t.
Proof.
  intros P L1 L2. split; [|reflexivity].
  destruct (sub_proper h w f (Some c) P L1) as (A1 & A2 & A3). destruct (sub_proper h w (Some c) t P L2) as (B1 & B2 & B3).
  split; [reflexivity|]. split; [reflexivity|]. split; [reflexivity|]. split; [exact A1|]. split; [exact B1|].
  destruct (vert w); [left|right]; auto.
Qed.

Definition q_eqb (a c : point * Z) : bool := pt_eq (fst a) (fst c) && (snd a =? snd c).
Lemma q_eqb_ok a c : q_eqb a c = true <-> a = c.
Proof. destruct a as [p l], c as [q m]. unfold q_eqb. cbn. rewrite andb_true_iff, pt_eq_ok, Z.eqb_eq. split; [intros [-> ->]; reflexivity|intros E; injection E; auto]. Qed.
Definition minus (rem : point * Z -> bool) (q r : point * Z) : bool := rem r && negb (q_eqb r q).
Lemma filter_filter {A} (f g : A -> bool) l : filter (fun x => f x && g x) l = filter g (filter f l).
Proof. induction l as [|a r IH]; [reflexivity|]. cbn. destruct (f a); cbn; [destruct (g a); now rewrite IH|exact IH]. Qed.

Section R.
Variable isInit : bool.
Variable b : box.
Variable lw : Z -> Z.
Hypothesis sol : solid b.
Hypothesis lwp : forall l, 0 <= lw l.
Variable pin_at : Z -> point -> Z -> bool.
Variable manuGrid : Z.
Variable swap : point -> Z -> bool.
Variable n : Z.
Notation mpt := (merge_pt pin_at manuGrid swap).

Definition left_cuts (rem : point * Z -> bool) (w : wire) : list Z := filter (fun c => rem (at_ w c, wl w)) (cuts isInit b w).
Definition pieces_ (rem : point * Z -> bool) (f : fig) : list fig :=
  match f with FSeg w => map FSeg (chain (half lw w) w None (left_cuts rem w)) | _ => [f] end.
Definition st (rem : point * Z -> bool) (F : list fig) : list fig := flat_map (pieces_ rem) F.

Lemma left_cuts_ok rem w : cuts_ok w (left_cuts rem w).
Proof. apply filter_cuts, cuts_are_ok, sol. Qed.
Lemma left_cut_in rem w c : In c (left_cuts rem w) -> In c (cuts isInit b w).
Proof. intros H. apply filter_In in H. apply H. Qed.

Lemma few figs p l : (length (filter (ends_at p l) figs) <= 1)%nat -> mpt n figs (p, l) = figs.
Proof.
  intros H. destruct (merge_pt_cases pin_at manuGrid swap n figs p l) as [E|(w0 & w1 & j & rest & Pm & _ & _ & E0 & E1 & _)]; [exact E|exfalso].
  apply (filter_perm (ends_at p l)) in Pm. apply Permutation_length in Pm. cbn [filter] in Pm. rewrite E0, E1 in Pm. cbn in Pm. lia.
Qed.
Lemma piece_end_on w cs c : proper w -> cuts_ok w cs -> In c (chain (half lw w) w None cs) ->
  wl c = wl w /\ on_line w (2 * px (wb c)) (2 * py (wb c)) /\ on_line w (2 * px (we c)) (2 * py (we c)).
Proof.
  intros P K H. pose proof (len_pos w P) as L.
  assert (G : forall f t, b0 w <= lo_ w f -> lo_ w f <= e0 w -> b0 w <= hi_ w t -> hi_ w t <= e0 w -> c = sub (half lw w) w f t ->
     wl c = wl w /\ on_line w (2 * px (wb c)) (2 * py (wb c)) /\ on_line w (2 * px (we c)) (2 * py (we c))).
  { intros f t G1 G2 G3 G4 ->. unfold sub. cbn [wl wb we]. rewrite from_at, to_at by exact P. split; [reflexivity|]. split; apply at_on_line; auto. }
  destruct cs as [|x [|y [|]]]; cbn in K, H; try tauto.
  - destruct H as [<-|[]]. apply (G None None); cbn; lia || reflexivity.
  - destruct H as [<-|[<-|[]]]; [apply (G None (Some x))|apply (G (Some x) None)]; cbn; lia || reflexivity.
  - destruct H as [<-|[<-|[<-|[]]]]; [apply (G None (Some x))|apply (G (Some x) (Some y))|apply (G (Some y) None)]; cbn; lia || reflexivity.
Qed.

Variable F : list fig.
Hypothesis pF : Forall fig_proper F.
Hypothesis sF : forall w, In (FSeg w) F -> style_ok w.
(* at every boundary point of a wire: no other wire of the layer goes through it, no patch, no pin *)
Hypothesis alone : forall F1 w F2 p l, F = F1 ++ FSeg w :: F2 -> In (p, l) (snd (remove_fig isInit b lw (FSeg w))) ->
  (forall w', In (FSeg w') (F1 ++ F2) -> wl w' = l -> ~ on_line w' (2 * px p) (2 * py p)) /\
  (forall o off, In (FPatch o l off) F -> o <> p) /\ skip_pt pin_at manuGrid n p l = false.

Lemma step rem figs q : (exists w, In (FSeg w) F /\ In q (snd (remove_fig isInit b lw (FSeg w)))) ->
  Permutation figs (st rem F) -> Permutation (mpt n figs q) (st (minus rem q) F).
Proof.
  destruct q as [p l]. intros (w & Hw & Hq) Pm. destruct (in_split _ _ Hw) as (F1 & F2 & EF).
  destruct (alone F1 w F2 p l EF Hq) as (Al & Ap & Sk).
  assert (Pw : proper w) by (rewrite Forall_forall in pF; apply (pF (FSeg w) Hw)).
  assert (Sw : style_ok w) by (apply sF, Hw).
  assert (H0 : 0 <= half lw w) by (apply half_nonneg, lwp).
  destruct (remove_pts isInit b lw w p l sol Pw Hq) as (El & On & Kind). subst l.
  assert (Hoth : forall f, In f (st rem (F1 ++ F2)) -> ends_at p (wl w) f = false /\ patch_at p (wl w) f = false).
  { intros f Hf. apply in_flat_map in Hf as (f0 & H0f & Hf).
    assert (I0 : In f0 F) by (rewrite EF; apply in_app_or in H0f as [X|X]; apply in_or_app; [left|right; right]; exact X).
    destruct f0 as [w'|o l1 l2 d|o l' off]; cbn [pieces_] in Hf.
    - apply in_map_iff in Hf as (c & <- & Hc). split; [|reflexivity]. destruct (ends_at p (wl w) (FSeg c)) eqn:E; [exfalso|reflexivity].
      assert (Pw' : proper w') by (rewrite Forall_forall in pF; apply (pF (FSeg w') I0)).
      destruct (piece_end_on w' _ c Pw' (left_cuts_ok rem w') Hc) as (Lc & O1 & O2). apply ends_at_only in E as [L E].
      apply (Al w' H0f ltac:(congruence)). destruct E as [<-|<-]; assumption.
    - destruct Hf as [<-|[]]. split; reflexivity.
    - destruct Hf as [<-|[]]. split; [reflexivity|]. cbn. destruct (l' =? wl w) eqn:E; [|reflexivity].
      assert (l' = wl w) by lia. subst l'. destruct (pt_eq o p) eqn:E2; [|now rewrite andb_false_r]. apply pt_eq_ok in E2. exfalso. apply (Ap o off I0 E2). }
  assert (Hsame : st (minus rem (p, wl w)) (F1 ++ F2) = st rem (F1 ++ F2)).
  { unfold st. rewrite !flat_map_concat_map. f_equal. apply map_ext_in. intros f Hf. destruct f as [w'| |]; try reflexivity. cbn [pieces_]. do 2 f_equal.
    unfold left_cuts. apply filter_ext_in. intros c Hc. unfold minus. destruct (q_eqb (at_ w' c, wl w') (p, wl w)) eqn:E; [exfalso|now rewrite andb_true_r].
    apply q_eqb_ok in E. injection E as E1 E2. apply (Al w' Hf E2). rewrite <- E1. apply at_on_line; [|pose proof (cut_inside isInit b w' c sol Hc); lia].
    rewrite Forall_forall in pF. apply (pF (FSeg w')). rewrite EF. apply in_app_or in Hf as [X|X]; apply in_or_app; [left|right; right]; exact X. }
  assert (Split : forall r, Permutation (st r F) (map FSeg (chain (half lw w) w None (left_cuts r w)) ++ st r (F1 ++ F2))).
  { intros r. unfold st. rewrite EF, !flat_map_app. cbn [flat_map pieces_]. rewrite !app_assoc. apply Permutation_app_tail. apply Permutation_app_comm. }
  assert (Ecs : left_cuts (minus rem (p, wl w)) w = filter (fun c => negb (pt_eq (at_ w c) p)) (left_cuts rem w)).
  { unfold left_cuts, minus. rewrite filter_filter. apply filter_ext. intros c. unfold q_eqb. cbn. now rewrite Z.eqb_refl, andb_true_r. }
  rewrite (Split (minus rem (p, wl w))), Hsame, Ecs. rewrite (Split rem) in Pm.
  pose proof (left_cuts_ok rem w) as Kc. pose proof (len_pos w Pw) as Lp.
  assert (NoE : forall f, In f (st rem (F1 ++ F2)) -> ends_at p (wl w) f = false) by (intros f Hf; apply (Hoth f Hf)).
  assert (Few : (length (filter (ends_at p (wl w)) (map FSeg (chain (half lw w) w None (left_cuts rem w)))) <= 1)%nat -> mpt n figs (p, wl w) = figs).
  { intros H. apply few. rewrite (Permutation_length (filter_perm _ _ _ Pm)), filter_app, app_length, (filter_none _ _ NoE). cbn. lia. }
  assert (Two : forall u v rest, Permutation figs (FSeg u :: FSeg v :: rest) -> end_to_end u v p -> wl u = wl w -> sWid (ws u) = sWid (ws v) -> style_ok u -> style_ok v ->
     (forall f, In f rest -> ends_at p (wl w) f = false) -> (forall f, In f rest -> patch_at p (wl w) f = false) -> Permutation (mpt n figs (p, wl w)) (FSeg (joined u v) :: rest)).
  { intros u v rest A1 A2 A3 A4 A5 A6 A7 A8. apply merge_two; assumption. }
  assert (Not2 : forall f t f' t', (forall c c', (c = lo_ w f \/ c = hi_ w t) -> (c' = lo_ w f' \/ c' = hi_ w t') -> c = c' -> at_ w c <> p) ->
     ends_at p (wl w) (FSeg (sub (half lw w) w f t)) && ends_at p (wl w) (FSeg (sub (half lw w) w f' t')) = false).
  { intros f t f' t' H. destruct (ends_at p (wl w) (FSeg (sub (half lw w) w f t))) eqn:E1; [|reflexivity]. cbn [andb]. destruct (ends_at p (wl w) (FSeg (sub (half lw w) w f' t'))) eqn:E2; [|reflexivity]. exfalso.
    apply (sub_ends _ _ _ _ _ _ Pw) in E1 as (_ & c & Ec & Kc1). apply (sub_ends _ _ _ _ _ _ Pw) in E2 as (_ & c' & Ec' & Kc2).
    apply (H c c' Kc1 Kc2); [apply (at_inj w); congruence|congruence]. }
  set (cs := left_cuts rem w) in *. destruct cs as [|x [|y [|]]]; cbn [cuts_ok] in Kc; try tauto.
  - cbn [filter]. rewrite Few; [exact Pm|]. cbn [chain map filter]. destruct (ends_at p (wl w) (FSeg (sub (half lw w) w None None))); cbn; lia.
  - cbn [filter]. destruct (pt_eq (at_ w x) p) eqn:Ex; cbn [negb].
    + apply pt_eq_ok in Ex. cbn [chain map app] in Pm. destruct (sub_join (half lw w) w None x None Pw) as [J1 J2]; [cbn; lia|cbn; lia|]. rewrite Ex in J1.
      cbn [chain map app]. rewrite <- J2. apply (Two _ _ _ Pm J1); try reflexivity; try (apply sub_style; assumption); intros f Hf; apply (Hoth f Hf).
    + assert (Nx : at_ w x <> p) by (intros E; apply pt_eq_ok in E; congruence).
      rewrite Few; [exact Pm|]. cbn [chain map filter].
      specialize (Not2 None (Some x) (Some x) None). cbn [lo_ hi_] in Not2. rewrite andb_false_iff in Not2.
      destruct Not2 as [N|N]; [intros c c' [-> | ->] [-> | ->] E; try (exfalso; lia); assumption|rewrite N|rewrite N]; cbn [filter length];
        try (destruct (ends_at p (wl w) (FSeg (sub (half lw w) w (Some x) None))); cbn; lia); try (destruct (ends_at p (wl w) (FSeg (sub (half lw w) w None (Some x)))); cbn; lia).
  - cbn [filter]. destruct (pt_eq (at_ w x) p) eqn:Ex; cbn [negb].
    + apply pt_eq_ok in Ex. destruct (pt_eq (at_ w y) p) eqn:Ey; [exfalso; apply pt_eq_ok in Ey; assert (x = y) by (apply (at_inj w); congruence); lia|]. cbn [negb].
      cbn [chain map app] in Pm |- *. destruct (sub_join (half lw w) w None x (Some y) Pw) as [J1 J2]; [cbn; lia|cbn; lia|]. rewrite Ex in J1. rewrite <- J2.
      apply (Two _ _ _ Pm J1); try reflexivity; try (apply sub_style; assumption); (intros f [<-|Hf]; [|apply (Hoth f Hf)]); [|reflexivity].
      destruct (ends_at p (wl w) (FSeg (sub (half lw w) w (Some y) None))) eqn:E; [exfalso|reflexivity]. apply (sub_ends _ _ _ _ _ _ Pw) in E as (_ & c & Ec & Kc1).
      assert (c = x) by (apply (at_inj w); congruence). cbn in Kc1. lia.
    + assert (Nx : at_ w x <> p) by (intros E; apply pt_eq_ok in E; congruence). destruct (pt_eq (at_ w y) p) eqn:Ey; cbn [negb].
      * apply pt_eq_ok in Ey. cbn [chain map app] in Pm |- *. destruct (sub_join (half lw w) w (Some x) y None Pw) as [J1 J2]; [cbn; lia|cbn; lia|]. rewrite Ey in J1. rewrite <- J2.
        assert (Pm' : Permutation figs (FSeg (sub (half lw w) w (Some x) (Some y)) :: FSeg (sub (half lw w) w (Some y) None) :: FSeg (sub (half lw w) w None (Some x)) :: st rem (F1 ++ F2))).
        { rewrite Pm. etransitivity; [apply perm_swap|]. apply perm_skip. apply perm_swap. }
        etransitivity; [apply (Two _ _ _ Pm' J1); try reflexivity; try (apply sub_style; assumption); (intros f [<-|Hf]; [|apply (Hoth f Hf)]); [|reflexivity]|apply perm_swap].
        destruct (ends_at p (wl w) (FSeg (sub (half lw w) w None (Some x)))) eqn:E; [exfalso|reflexivity]. apply (sub_ends _ _ _ _ _ _ Pw) in E as (_ & c & Ec & Kc1).
        assert (c = y) by (apply (at_inj w); congruence). cbn in Kc1. lia.
      * assert (Ny : at_ w y <> p) by (intros E; apply pt_eq_ok in E; congruence).
        rewrite Few; [exact Pm|]. cbn [chain map filter].
        pose proof (Not2 None (Some x) (Some x) (Some y)) as N1. pose proof (Not2 None (Some x) (Some y) None) as N2. pose proof (Not2 (Some x) (Some y) (Some y) None) as N3. cbn [lo_ hi_] in N1, N2, N3.
        specialize (N1 ltac:(intros c c' [-> | ->] [-> | ->] E; try (exfalso; lia); assumption)).
        specialize (N2 ltac:(intros c c' [-> | ->] [-> | ->] E; try (exfalso; lia); assumption)).
        specialize (N3 ltac:(intros c c' [-> | ->] [-> | ->] E; try (exfalso; lia); assumption)).
        destruct (ends_at p (wl w) (FSeg (sub (half lw w) w None (Some x)))), (ends_at p (wl w) (FSeg (sub (half lw w) w (Some x) (Some y)))), (ends_at p (wl w) (FSeg (sub (half lw w) w (Some y) None))); try discriminate; cbn; lia.
Qed.

Lemma steps pts : forall rem figs, (forall q, In q pts -> exists w, In (FSeg w) F /\ In q (snd (remove_fig isInit b lw (FSeg w)))) ->
  Permutation figs (st rem F) ->
  exists rem', (forall q, In q pts -> rem' q = false) /\ (forall q, rem q = false -> rem' q = false) /\
    Permutation (merge_net pin_at manuGrid swap n figs pts) (st rem' F).
Proof.
  induction pts as [|q r IH]; intros rem figs H P.
  - exists rem. split; [intros q []|]. split; [auto|exact P].
  - destruct (IH (minus rem q) (mpt n figs q)) as (rem' & A & B & C).
    + intros q' Hq'. apply H. now right.
    + apply step; [apply H; now left|exact P].
    + exists rem'. split; [|split; [|exact C]].
      * intros q' [<-|Hq']; [|apply A, Hq']. apply B. unfold minus. rewrite (proj2 (q_eqb_ok q q) eq_refl). now rewrite andb_false_r.
      * intros q' Hq'. apply B. unfold minus. now rewrite Hq'.
Qed.
Lemma restored pts figs :
  (forall q, In q pts <-> exists w, In (FSeg w) F /\ In q (snd (remove_fig isInit b lw (FSeg w)))) ->
  Permutation figs (flat_map (fun f => map snd (load_fig isInit b lw f)) F) ->
  Permutation (merge_net pin_at manuGrid swap n figs pts) F.
Proof.
  intros H P. destruct (steps pts (fun _ => true) figs) as (rem & A & _ & C).
  - intros q Hq. apply H, Hq.
  - rewrite P. unfold st. rewrite !flat_map_concat_map. apply Permutation_refl'. f_equal. apply map_ext_in. intros f Hf. destruct f as [w| |].
    + cbn [pieces_]. rewrite load_chain; [|exact sol|rewrite Forall_forall in pF; apply (pF _ Hf)]. do 2 f_equal. unfold left_cuts. symmetry. apply filter_all. auto.
    + cbn. destruct (origin_in isInit b o); reflexivity.
    + cbn. destruct (origin_in isInit b o); reflexivity.
  - rewrite C. apply Permutation_refl'. unfold st. assert (G : forall f, In f F -> pieces_ rem f = [f]).
    { intros f Hf. destruct f as [w| |]; try reflexivity. cbn [pieces_]. replace (left_cuts rem w) with (@nil Z); [cbn; now rewrite sub_whole|].
      symmetry. apply filter_none. intros c Hc. apply A, H. exists w. split; [exact Hf|]. apply cut_is_pt; [exact sol| |exact Hc]. rewrite Forall_forall in pF. apply (pF _ Hf). }
    clear - G. induction F as [|f r IH]; [reflexivity|]. cbn [flat_map]. rewrite G by now left. cbn. f_equal. apply IH. intros; apply G; now right.
Qed.
End R.
