(* Areas in unit squares; what each shape check adds. *)
From Coq Require Import Arith.
From Verif Require Import Base Stl GeomModel GcModel GcSpec GcProofs GcProofs2 GcProofs3 CutModel CutProofs2 EolModel EolSpec EolProofs
  EolProofs3 EolProofs4 StepModel StepSpec StepProofs StepProofs2 StepProofs3.

(* ---- squares ---- *)
Lemma cell_square x y b : cell_in (x, y) b = true <-> square_in x y b.
Proof. unfold cell_in, square_in. cbn [fst snd]. rewrite !andb_true_iff, !Z.leb_le, !Z.ltb_lt. lia. Qed.
Lemma cells_square x y b : In (x, y) (cells b) <-> square_in x y b.
Proof. rewrite cells_In. unfold square_in. lia. Qed.
Lemma cover_iff l x y : existsb (cell_in (x, y)) l = true <-> exists b, In b l /\ square_in x y b.
Proof. rewrite existsb_exists. split; intros (b & I & H); exists b; rewrite cell_square in *; auto. Qed.
Lemma filter_le {A} (f : A -> bool) l : (length (filter f l) <= length l)%nat.
Proof. induction l as [|a l IH]; cbn; [lia|]. destruct (f a); cbn; lia. Qed.
Lemma filter_all {A} (f : A -> bool) l : length (filter f l) = length l <-> forall x, In x l -> f x = true.
Proof.
  induction l as [|a l IH]; cbn; [split; [intros _ x []|reflexivity]|]. destruct (f a) eqn:F; cbn.
  - split; [intros E x [<- |I]; [exact F|apply IH; [lia|exact I]]|]. intros H. f_equal. apply IH. auto.
  - pose proof (filter_le f l). split; [lia|]. intros H1. specialize (H1 a (or_introl eq_refl)). congruence.
Qed.
Lemma filter_both {A} (f g : A -> bool) l :
  length (filter (fun x => f x && g x) l) = length (filter f l) <-> forall x, In x l -> f x = true -> g x = true.
Proof.
  induction l as [|a l IH]; cbn; [split; [intros _ x []|reflexivity]|].
  assert (Le : forall l', (length (filter (fun x => f x && g x) l') <= length (filter f l'))%nat).
  { induction l' as [|b l' IH']; cbn; [lia|]. destruct (f b), (g b); cbn; lia. }
  specialize (Le l). destruct (f a) eqn:F, (g a) eqn:G; cbn.
  - split; [intros E x [<- |I] Fx; [exact G|apply IH; auto; lia]|]. intros H. f_equal. apply IH. auto.
  - split; [lia|]. intros H. specialize (H a (or_introl eq_refl) F). congruence.
  - split; [intros E x [<- |I] Fx; [congruence|apply IH; auto]|]. intros H. apply IH. auto.
  - split; [intros E x [<- |I] Fx; [congruence|apply IH; auto]|]. intros H. apply IH. auto.
Qed.
Lemma not_all_fixed V P r : area_in r (sv_fixed V (s_net P)) <> length (cells r) <-> exists x y, square_in x y r /\ ~ fixed_at V P x y.
Proof.
  unfold area_in. rewrite filter_all. split.
  - intros N. destruct (forallb (fun c => existsb (cell_in c) (sv_fixed V (s_net P))) (cells r)) eqn:F.
    + exfalso. apply N. rewrite forallb_forall in F. exact F.
    + assert (X : exists c, In c (cells r) /\ existsb (cell_in c) (sv_fixed V (s_net P)) = false).
      { clear N. revert F. generalize (cells r). induction l as [|a l IH]; cbn; [discriminate|]. intros H. apply andb_false_iff in H as [H|H]; [eauto|].
        destruct (IH H) as (c & I & E). eauto. }
      destruct X as ([x y] & I & E). exists x, y. split; [apply cells_square; exact I|]. intros H. apply cover_iff in H. congruence.
  - intros (x & y & I & N) H. apply N. apply cover_iff. apply H. apply cells_square. exact I.
Qed.
Lemma not_both_fixed V P r : area_both r (s_metal P) (sv_fixed V (s_net P)) <> area_in r (s_metal P) <->
  exists x y, square_in x y r /\ metal_at P x y /\ ~ fixed_at V P x y.
Proof.
  unfold area_in, area_both. rewrite filter_both. split.
  - intros N. set (h := fun c => negb (existsb (cell_in c) (s_metal P)) || existsb (cell_in c) (sv_fixed V (s_net P))).
    destruct (forallb h (cells r)) eqn:F.
    + exfalso. apply N. rewrite forallb_forall in F. intros c I Hc. specialize (F c I). unfold h in F. rewrite Hc in F. exact F.
    + assert (X : exists c, In c (cells r) /\ h c = false).
      { clear N. revert F. generalize (cells r). induction l as [|a l IH]; cbn; [discriminate|]. intros H. apply andb_false_iff in H as [H|H]; [eauto|].
        destruct (IH H) as (c & I & E). eauto. }
      destruct X as ([x y] & I & E). unfold h in E. apply orb_false_iff in E as [E1 E2]. apply negb_false_iff in E1. exists x, y.
      split; [apply cells_square; exact I|]. split; [apply cover_iff; exact E1|]. intros H. apply cover_iff in H. congruence.
  - intros (x & y & I & M & N) H. apply N. apply cover_iff. apply H; [apply cells_square; exact I|apply cover_iff; exact M].
Qed.
Lemma meets_iff l b : (meets l b = true <-> exists x y r, square_in x y b /\ In r l /\ square_in x y r).
Proof.
  unfold meets. rewrite existsb_exists. split.
  - intros (r & I & H). exists (bleft (box_and b r)), (bbottom (box_and b r)), r. apply andb_true_iff in H. rewrite !Z.ltb_lt in H.
    revert H. unfold box_and, square_in. bx b. bx r. bxs. intros H. split; [|split; [exact I|]]; lia.
  - intros (x & y & r & H1 & I & H2). exists r. split; [exact I|]. apply andb_true_iff. rewrite !Z.ltb_lt.
    revert H1 H2. unfold box_and, square_in. bx b. bx r. bxs. lia.
Qed.

(* ---- what each check adds ---- *)
Definition width_found (V : senv) (P : spoly) (isH : bool) (r : box) (m : marker) : Prop :=
  (if isH then bright r - bleft r else btop r - bbottom r) < sv_minwidth V /\
  (exists x y, square_in x y r /\ ~ fixed_at V P x y) /\ m = report_on V P (sv_width_id V) r.
Lemma check_width_grows V P isH ms r : grows (width_found V P isH r) ms (check_width V P isH ms r).
Proof.
  unfold check_width, width_found. pose proof (not_all_fixed V P r) as NF. destruct isH; cbn [andb negb].
  - destruct (Z.leb_spec (sv_minwidth V) (bright r - bleft r)); [apply grows_none; intros m (H1 & _); lia|].
    destruct (Nat.eqb_spec (area_in r (sv_fixed V (s_net P))) (length (cells r))) as [E|E]; [apply grows_none; intros m (_ & H1 & _); apply NF in H1; contradiction|].
    eapply grows_ext; [|apply add_grows]. intros m. cbv beta. apply NF in E. split; [intros ->; auto|intros (_ & _ & ->); reflexivity].
  - destruct (Z.leb_spec (sv_minwidth V) (btop r - bbottom r)); [apply grows_none; intros m (H1 & _); lia|].
    destruct (Nat.eqb_spec (area_in r (sv_fixed V (s_net P))) (length (cells r))) as [E|E]; [apply grows_none; intros m (_ & H1 & _); apply NF in H1; contradiction|].
    eapply grows_ext; [|apply add_grows]. intros m. cbv beta. apply NF in E. split; [intros ->; auto|intros (_ & _ & ->); reflexivity].
Qed.

Definition step_found (V : senv) (P : spoly) (m : marker) : Prop :=
  exists con c, sv_step V = Some con /\ In c (s_outlines P) /\ outline_found V P con c m.
Lemma fold_grows_in {X} (f : list marker -> X -> list marker) (Q : X -> marker -> Prop) xs :
  (forall x ms, In x xs -> grows (Q x) ms (f ms x)) ->
  forall ms, grows (fun m => exists x, In x xs /\ Q x m) ms (fold_left f xs ms).
Proof.
  induction xs as [|x xs IH]; intros H ms; cbn [fold_left].
  - apply grows_none. intros m (x & [] & _).
  - eapply grows_ext; [|eapply grows_trans; [apply (H x ms); left; reflexivity|apply IH; intros y ms' I; apply H; right; exact I]].
    intros m. cbv beta. split.
    + intros [A|(y & I & A)]; [exists x|exists y]; split; auto; [left; reflexivity|right; exact I].
    + intros (y & [<- |I] & A); [left; exact A|right; exists y; auto].
Qed.
Lemma check_step_grows V P ms : good_poly P -> grows (step_found V P) ms (check_step V P ms).
Proof.
  intros GP. unfold check_step, step_found. destruct (sv_step V) as [con|]; [|apply grows_none; intros m (con & c & H & _); discriminate].
  eapply grows_ext; [|apply fold_grows_in; intros c ms' I; apply step_outline_grows; apply (proj1 (proj2 (proj2 (proj2 (proj2 (proj2 (proj2 GP)))))) c I)].
  intros m. cbv beta. split; [intros (c & I & H); exists con, c; auto|]. intros (con' & c & [= <-] & I & H). exists c. auto.
Qed.

Lemma turn_to a b : straight b -> o_high a = o_low b -> orientation a b = 1 <-> ahead b (o_low a) < 0.
Proof.
  intros S M. rewrite orientation_to by exact S. rewrite M. assert (Z0 : ahead b (o_low b) = 0) by (unfold ahead; lia). rewrite Z0. lia.
Qed.
Lemma ahead_high b : straight b -> ahead b (o_high b) = 0.
Proof. unfold ahead, straight. intros [[-> _]|[_ ->]]; rewrite ?Z.sub_diag; cbn [Z.sgn]; lia. Qed.
Lemma turn_from b c s : straight b -> o_high b = o_low c -> orientation b c = s <-> Z.sgn (- ahead b (o_high c)) = s.
Proof. intros S M. rewrite orientation_from by exact S. rewrite <- M, ahead_high by exact S. replace (0 - ahead b (o_high c)) with (- ahead b (o_high c)) by lia. reflexivity. Qed.

Definition step58_found (V : senv) (P : spoly) (m : marker) : Prop :=
  exists r c i, In r (sv_step58 V) /\ s8_eol r <> -1 /\ In c (s_outlines P) /\ c <> [] /\ eol_between r c i /\
    m = report_on V P (s8_id r) (extents (end_corners c i)).
Lemma step58_edge_grows V P r c i ms : closed_outline c -> c <> [] ->
  grows (fun m => eol_between r c i /\ m = report_on V P (s8_id r) (extents (end_corners c i))) ms
    (step58_edge V P r ms (edge_at c i, edge_at c (i + 1), edge_at c (i + 2))).
Proof.
  intros CO Nc. pose proof (edge_at_meets c i CO Nc) as M1. pose proof (edge_at_meets c (i + 1) CO Nc) as M2.
  replace (i + 1 + 1)%nat with (i + 2)%nat in M2 by lia. destruct CO as [St _].
  unfold step58_edge, eol_between. cbv zeta.
  assert (Sa : straight (edge_at c i)) by (apply St, edge_at_in, Nc). assert (Sb : straight (edge_at c (i + 1))) by (apply St, edge_at_in, Nc).
  assert (Sd : straight (edge_at c (i + 2))) by (apply St, edge_at_in, Nc).
  rewrite !seg_len by assumption.
  destruct (Z.ltb_spec (len (edge_at c i)) (s8_len r)); cbn [negb]; [|apply grows_none; intros m [(A1 & _) _]; lia].
  destruct (Z.leb_spec (s8_len r) (len (edge_at c (i + 2)))); [apply grows_none; intros m [(_ & _ & A1 & _) _]; lia|].
  pose proof (turn_to _ _ Sb M1) as T1. pose proof (turn_from _ _ 1 Sb M2) as T2.
  destruct (Z.eqb_spec (orientation (edge_at c i) (edge_at c (i + 1))) 1) as [O1|O1]; cbn [negb orb];
    [|apply grows_none; intros m [(_ & _ & _ & A1 & _) _]; tauto].
  destruct (Z.eqb_spec (orientation (edge_at c (i + 1)) (edge_at c (i + 2))) 1) as [O2|O2]; cbn [negb];
    [|apply grows_none; intros m [(_ & _ & _ & _ & A1 & _) _]; apply O2, T2; lia].
  apply T2 in O2. apply T1 in O1.
  destruct (Z.leb_spec (s8_eol r) (len (edge_at c (i + 1)))); [apply grows_none; intros m [(_ & A1 & _) _]; lia|].
  destruct (o_fixed (edge_at c i) && o_fixed (edge_at c (i + 1)) && o_fixed (edge_at c (i + 2))) eqn:F.
  { apply grows_none. intros m [(_ & _ & _ & _ & _ & A1) _]. apply A1. apply andb_true_iff in F as [F1 F3]. apply andb_true_iff in F1. tauto. }
  eapply grows_ext; [|apply add_grows]. intros m. cbv beta. split; [|intros [_ ->]; reflexivity]. intros ->. split; [|reflexivity].
  split; [assumption|]. split; [assumption|]. split; [assumption|]. split; [exact O1|]. split; [lia|]. intros (F1 & F2 & F3). rewrite F1, F2, F3 in F. discriminate.
Qed.
Lemma check_step58_grows V P ms : good_poly P -> grows (step58_found V P) ms (check_step58 V P ms).
Proof.
  intros GP. unfold check_step58, step58_found. 
  eapply grows_ext.
  2: { apply fold_grows_in with (Q := fun r m => s8_eol r <> -1 /\ exists c, In c (s_outlines P) /\ exists t, In t (with_next2 c) /\
         exists i, t = (edge_at c i, edge_at c (i + 1), edge_at c (i + 2)) /\ c <> [] /\ eol_between r c i /\ m = report_on V P (s8_id r) (extents (end_corners c i))).
       intros r ms1 Ir. unfold has_eol. destruct (Z.eqb_spec (s8_eol r) (-1)) as [E|E]; cbn [negb].
       { apply grows_none. intros m [N _]. contradiction. }
       eapply grows_ext; [|apply fold_grows_in; intros c ms2 Ic; apply fold_grows_in; intros t ms3 It].
       { intros m. cbv beta. split; [intros H; split; [exact E|exact H]|intros [_ H]; exact H]. }
       apply next2_in in It as [Nc (i & ->)].
       pose proof (proj1 (proj1 (proj2 (proj2 (proj2 (proj2 (proj2 (proj2 GP)))))) c Ic)) as St.
       assert (CO : closed_outline c) by apply (proj1 (proj2 (proj2 (proj2 (proj2 (proj2 (proj2 GP)))))) c Ic).
       eapply grows_ext; [|apply (step58_edge_grows V P r c i ms3 CO Nc)].
       intros m. cbv beta. split; [intros [H1 H2]; exists i; auto|]. intros (i' & Eq & _ & H1 & H2).
       assert (EB : eol_between r c i <-> eol_between r c i') by (unfold eol_between; injection Eq as -> -> ->; reflexivity).
       assert (EC : end_corners c i = end_corners c i') by (unfold end_corners; injection Eq as -> -> ->; reflexivity).
       rewrite EB, EC. auto. }
  intros m. cbv beta. split.
  - intros (r & Ir & N & c & Ic & t & It & i & Et & Nc & H & Hm). exists r, c, i. auto 10.
  - intros (r & c & i & Ir & N & Ic & Nc & H & Hm). exists r. split; [exact Ir|]. split; [exact N|]. exists c. split; [exact Ic|].
    exists (edge_at c i, edge_at c (i + 1), edge_at c (i + 2)). split; [apply next2_in; eauto|]. exists i. auto.
Qed.

Definition rect_found (V : senv) (P : spoly) (m : marker) : Prop :=
  exists con c i b, sv_rectonly V = Some con /\ length (s_maxrects P) <> 1%nat /\ In c (s_outlines P) /\ c <> [] /\ concave c i /\
    let w := around (o_high (edge_at c i)) (sv_minwidth V) in
    (exists x y, square_in x y w /\ metal_at P x y /\ ~ fixed_at V P x y) /\ In b (s_max_in P w) /\ m = report_on V P con b.
Lemma rect_corner_grows V P con ms p :
  grows (fun m => exists b, (exists x y, square_in x y (around p (sv_minwidth V)) /\ metal_at P x y /\ ~ fixed_at V P x y) /\
           In b (s_max_in P (around p (sv_minwidth V))) /\ m = report_on V P con b) ms (rect_corner V P con ms p).
Proof.
  unfold rect_corner. cbv zeta. fold (around p (sv_minwidth V)). set (w := around p (sv_minwidth V)).
  destruct (Nat.eqb_spec (area_both w (s_metal P) (sv_fixed V (s_net P))) (area_in w (s_metal P))) as [E|E].
  - apply grows_none. intros m (b & H & _). apply not_both_fixed in H. contradiction.
  - apply not_both_fixed in E. eapply grows_ext; [|apply fold_grows; intros b ms'; apply add_grows]. intros m. cbv beta.
    split; [intros (b & I & ->); exists b; auto|intros (b & _ & I & ->); exists b; auto].
Qed.
Lemma check_rectonly_grows V P ms : good_poly P -> grows (rect_found V P) ms (check_rectonly V P ms).
Proof.
  intros GP. unfold check_rectonly, rect_found. destruct (sv_rectonly V) as [con|]; [|apply grows_none; intros m (con & c & i & b & H & _); discriminate].
  destruct (Nat.eqb_spec (length (s_maxrects P)) 1) as [E|E]; [apply grows_none; intros m (con' & c & i & b & _ & H & _); contradiction|].
  eapply grows_ext; [|apply fold_grows; intros p ms'; apply rect_corner_grows]. intros m. cbv beta.
  assert (Cv : forall c, In c (s_outlines P) -> c <> [] -> forall i, (orientation (edge_at c i) (edge_at c (i + 1)) =? -1) = true <-> concave c i).
  { intros c Ic Nc i. destruct (proj1 (proj2 (proj2 (proj2 (proj2 (proj2 (proj2 GP)))))) c Ic) as [CO _].
    rewrite Z.eqb_eq, (turn_from _ _ (-1) (proj1 CO _ (edge_at_in _ _ Nc)) (edge_at_meets c i CO Nc)). unfold concave. lia. }
  split.
  - intros (p & Ip & b & H). unfold concave_corners in Ip. apply in_flat_map in Ip as (c & Ic & Ip). apply in_flat_map in Ip as (t & It & Ip).
    apply pair_in in It as [Nc (i & ->)]. cbn [fst snd] in Ip. destruct (_ =? -1) eqn:O; [|destruct Ip].
    destruct Ip as [<- |[]]. exists con, c, i, b. split; [reflexivity|]. split; [exact E|]. split; [exact Ic|]. split; [exact Nc|]. split; [apply Cv; auto|exact H].
  - intros (con' & c & i & b & [= <-] & _ & Ic & Nc & H & H'). exists (o_high (edge_at c i)). split; [|exists b; exact H'].
    unfold concave_corners. apply in_flat_map. exists c. split; [exact Ic|]. apply in_flat_map. exists (edge_at c i, edge_at c (i + 1)).
    split; [apply pair_in; eauto|]. cbn [fst snd]. apply (Cv c Ic Nc i) in H. rewrite H. left. reflexivity.
Qed.

Definition box_off_grid (g : Z) (b : box) : Prop :=
  ~ (on_grid g (bleft b) /\ on_grid g (bright b) /\ on_grid g (bbottom b) /\ on_grid g (btop b)).
Lemma rem_grid g x : 0 < g -> (Z.rem x g =? 0) = true <-> on_grid g x.
Proof.
  intros G. rewrite Z.eqb_eq, Z.rem_divide by lia. unfold on_grid. split; intros (k & H); exists k; lia.
Qed.
Definition grid_found (V : senv) (P : spoly) (m : marker) : Prop :=
  exists r, In r (s_maxrects P) /\ box_off_grid (sv_mgrid V) r /\ (exists x y, square_in x y r /\ routed_at V P x y) /\ m = report_on V P (sv_grid_id V) r.
Lemma check_offgrid_grows V P ms : 0 < sv_mgrid V -> grows (grid_found V P) ms (check_offgrid V P ms).
Proof.
  intros G. unfold check_offgrid. eapply grows_ext; [intros m; apply iff_refl|]. unfold grid_found. apply fold_grows. intros r ms'.
  unfold offgrid_rect. cbv zeta.
  assert (B : (negb (Z.rem (bleft r) (sv_mgrid V) =? 0) || negb (Z.rem (bright r) (sv_mgrid V) =? 0) ||
      negb (Z.rem (bbottom r) (sv_mgrid V) =? 0) || negb (Z.rem (btop r) (sv_mgrid V) =? 0)) = true <-> box_off_grid (sv_mgrid V) r).
  { unfold box_off_grid. rewrite <- !rem_grid by exact G. rewrite !orb_true_iff, !negb_true_iff, <- !not_true_iff_false.
    destruct (Z.rem (bleft r) (sv_mgrid V) =? 0), (Z.rem (bright r) (sv_mgrid V) =? 0), (Z.rem (bbottom r) (sv_mgrid V) =? 0), (Z.rem (btop r) (sv_mgrid V) =? 0); intuition congruence. }
  destruct (_ || _) eqn:O; [|apply grows_none; intros m (H & _); apply B in H; congruence].
  assert (M : meets (sv_route V (s_net P)) r = true <-> exists x y, square_in x y r /\ routed_at V P x y).
  { rewrite meets_iff. unfold routed_at. split; [intros (x & y & b & H1 & H2 & H3); exists x, y; eauto|intros (x & y & H1 & b & H2 & H3); exists x, y, b; auto]. }
  destruct (meets _ _); cbn [negb].
  - eapply grows_ext; [|apply add_grows]. intros m. cbv beta. split; [intros ->; split; [apply B; reflexivity|split; [apply M; reflexivity|reflexivity]]|intros (_ & _ & ->); reflexivity].
  - apply grows_none. intros m (_ & H & _). apply M in H. discriminate.
Qed.

Definition hole_found (V : senv) (P : spoly) (m : marker) : Prop :=
  exists h con area, In h (s_holes P) /\ In (con, area) (sv_holes V) /\ poly_area h < area /\
    (exists x y, metal_at P x y /\ routed_at V P x y) /\ m = report_on V P con (extents h).
Lemma check_holes_grows V P ms : grows (hole_found V P) ms (check_holes V P ms).
Proof.
  unfold check_holes, hole_found. 
  assert (M : existsb (meets (sv_route V (s_net P))) (s_metal P) = true <-> exists x y, metal_at P x y /\ routed_at V P x y).
  { rewrite existsb_exists. unfold metal_at, routed_at. split.
    - intros (b & I & H). apply meets_iff in H as (x & y & r & H1 & H2 & H3). exists x, y. split; [exists b|exists r]; auto.
    - intros (x & y & (b & I & H) & r & I' & H'). exists b. split; [exact I|]. apply meets_iff. exists x, y, r. auto. }
  eapply grows_ext.
  2: { apply fold_grows. intros h ms1. apply (fold_grows _ (fun con m => poly_area h < snd con /\ (exists x y, metal_at P x y /\ routed_at V P x y) /\
         m = report_on V P (fst con) (extents h))). intros con ms2. unfold hole_rule.
       destruct (Z.ltb_spec (poly_area h) (snd con)); [|apply grows_none; intros m (H1 & _); lia].
       destruct (existsb _ _); cbn [negb]; [|apply grows_none; intros m (_ & H1 & _); apply M in H1; discriminate].
       pose proof (proj1 M eq_refl). eapply grows_ext; [|apply add_grows]. intros m. cbv beta. split; [intros ->; auto|intros (_ & _ & ->); reflexivity]. }
  intros m. cbv beta. split.
  - intros (h & Ih & [con a] & Ic & H). exists h, con, a. cbn [fst snd] in H. tauto.
  - intros (h & con & a & Ih & Ic & H). exists h. split; [exact Ih|]. exists (con, a). split; [exact Ic|]. exact H.
Qed.

Definition shape_found (V : senv) (P : spoly) (m : marker) : Prop :=
  (exists r, In r (s_hslabs P) /\ width_found V P true r m) \/ (exists r, In r (s_vslabs P) /\ width_found V P false r m) \/
  step_found V P m \/ step58_found V P m \/ rect_found V P m \/ grid_found V P m \/ hole_found V P m.
Lemma check_shape_grows V P ms : good_poly P -> 0 < sv_mgrid V -> grows (shape_found V P) ms (check_shape V ms P).
Proof.
  intros GP G. unfold check_shape. cbv zeta.
  set (m1 := fold_left (check_width V P true) (s_hslabs P) ms). set (m2 := fold_left (check_width V P false) (s_vslabs P) m1).
  set (m3 := check_step V P m2). set (m4 := check_step58 V P m3). set (m5 := check_rectonly V P m4). set (m6 := check_offgrid V P m5).
  pose proof (fold_grows (check_width V P true) _ (fun r ms1 => check_width_grows V P true ms1 r) (s_hslabs P) ms : grows _ ms m1) as G1.
  pose proof (fold_grows (check_width V P false) _ (fun r ms1 => check_width_grows V P false ms1 r) (s_vslabs P) m1 : grows _ m1 m2) as G2.
  pose proof (check_step_grows V P m2 GP : grows _ m2 m3) as G3. pose proof (check_step58_grows V P m3 GP : grows _ m3 m4) as G4.
  pose proof (check_rectonly_grows V P m4 GP : grows _ m4 m5) as G5. pose proof (check_offgrid_grows V P m5 G : grows _ m5 m6) as G6.
  pose proof (check_holes_grows V P m6) as G7.
  eapply grows_ext; [|exact (grows_trans _ _ _ _ _ G1 (grows_trans _ _ _ _ _ G2 (grows_trans _ _ _ _ _ G3 (grows_trans _ _ _ _ _ G4
    (grows_trans _ _ _ _ _ G5 (grows_trans _ _ _ _ _ G6 G7))))))].
  intros m. reflexivity.
Qed.
Lemma check_shapes_grows V ps ms : (forall P, In P ps -> good_poly P) -> 0 < sv_mgrid V ->
  grows (fun m => exists P, In P ps /\ shape_found V P m) ms (check_shapes V ps ms).
Proof. intros GP G. unfold check_shapes. apply fold_grows_in. intros P ms1 I. apply check_shape_grows; auto. Qed.
