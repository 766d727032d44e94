(* The found trip is nearly cheapest; the estimate never exceeds what remains. *)
From Verif Require Import Base Stl GeomModel GeomSpec GridModel GridSpec GridProofs GridProofs2 MazeModel MazeSpec MazeAbs MazeProofs FareModel FareSpec FareAbs FareProofs FareProofs2.

Section Fares.
Variables (F : fenv) (g : gg) (cc : list midx) (d1 d2 : midx) (center : point).
Hypothesis FO : fare_ok F g.
Hypothesis EI : edges_inside g.
Notation W_ s ds := ((s, ds) : walk).
Notation ext s ds := (wext F g d1 d2 center (s, ds)).

(* the fields of an entry say what was travelled since the last via *)
Definition ext_ok (s : midx) (ds : list dir) : Prop :=
  match since_via F g s ds with
  | None => x_vx (ext s ds) = FMAX /\ x_vy (ext s ds) = FMAX
  | Some (a, b, v) => x_vx (ext s ds) = a /\ x_vy (ext s ds) = b /\ x_viaup (ext s ds) = dir_eqb v DD /\ is_via_dir v = true /\ 0 <= a /\ 0 <= b
  end.
Lemma legal_tail s d r : legal g s (d :: r) -> legal g s r.
Proof. intros (A & _). exact A. Qed.
Lemma ext_steps s : In s cc -> lengths_fit F g cc -> forall ds, legal g s ds -> NoDup (stops s ds) -> ext_ok s ds.
Proof.
  intros Hs (_ & _ & LF). induction ds as [|d r IH]; intros L N.
  - split; reflexivity.
  - destruct L as (L & D & E & S). cbn [stops] in N. inversion N as [|x l Nx Nr]; subst. specialize (IH L Nr). unfold ext_ok in *.
    change (s, d :: r) with (wadd (s, r) d). rewrite wext_add. unfold fnext, went. cbn [epos ebuf eext x_vx x_vy x_viaup].
    rewrite stop_wpos. rewrite (hop_len F g FO EI _ _ D E). pose proof (hop_nn F g (stop s r) d) as HN.
    specialize (LF s r). cbn [since_via].
    destruct (since_via F g s r) as [[[a b] v]|].
    + destruct IH as (-> & -> & -> & V & A & B). destruct (LF a b v Hs L Nr eq_refl) as [LA LB].
      replace (a =? FMAX) with false by lia. replace (b =? FMAX) with false by lia. cbn [negb andb].
      destruct d; try congruence; cbn [is_via_dir is_x_dir andb negb dir_eqb dir_code]; repeat split; try reflexivity; try assumption; lia.
    + destruct IH as (-> & ->). rewrite Z.eqb_refl. cbn [negb andb].
      destruct d; try congruence; cbn [is_via_dir is_x_dir andb negb]; repeat split; reflexivity.
Qed.
Lemma sur_surcharge s r d : lengths_fit F g cc -> ext_ok s r -> d <> DUnk -> hasEdge g (stop s r) d = true ->
  (match r with [] => True | e :: _ => e <> DUnk end) ->
  sur F g d1 d2 center (s, r) d = surcharge F g s r d.
Proof.
  intros (LV & LT & _) X D E N. unfold sur, surcharge. rewrite stop_wpos, (hop_len F g FO EI _ _ D E).
  assert (B : (if negb (dir_eqb (wlast (s, r)) d) && negb (dir_eqb (wlast (s, r)) DUnk) then 1 else 0) = bend r d).
  { destruct r as [|e r]; [cbn; rewrite andb_false_r; reflexivity|]. cbn [wlast snd bend].
    replace (dir_eqb e DUnk) with false by (symmetry; apply dir_eqb_neq; assumption). rewrite andb_true_r. destruct (dir_eqb e d); reflexivity. }
  rewrite B. clear B.
  assert (V : v2v_hit F (mz (stop s r)) (ext s r) d = via_clash F g s r d).
  { unfold v2v_hit, via_clash. unfold ext_ok in X. destruct (is_via_dir d) eqn:ED; cbn [andb].
    2:{ destruct (since_via F g s r) as [[[a b] v]|]; reflexivity. }
    destruct (since_via F g s r) as [[[a b] v]|].
    - destruct X as (-> & -> & -> & Hv & A & B).
      replace (negb (dir_eqb v DD)) with (dir_eqb v DU) by (destruct v; try discriminate; reflexivity).
      replace (negb (dir_eqb d DU)) with (dir_eqb d DD) by (destruct d; try discriminate; reflexivity).
      destruct (0 <? a) eqn:A0, (0 <? b) eqn:B0; try (replace (a =? 0) with false by lia); try (replace (a =? 0) with true by lia);
        try (replace (b =? 0) with false by lia); try (replace (b =? 0) with true by lia); cbn [andb orb negb].
      + apply andb_comm.
      + destruct (fe_v2v _ _ _ _ true a); reflexivity.
      + destruct (fe_v2v _ _ _ _ false b); reflexivity.
      + reflexivity.
    - destruct X as (-> & ->). rewrite !LV, !andb_false_r. reflexivity. }
  assert (T : turn_hit F (mz (stop s r)) (ext s r) (wlast (s, r)) d = turn_clash F g s r d).
  { unfold turn_hit, turn_clash. unfold ext_ok in X. destruct r as [|e r].
    - cbn [wlast snd since_via]. reflexivity.
    - cbn [wlast snd]. replace (dir_eqb e DUnk) with false by (symmetry; apply dir_eqb_neq; assumption). cbn [negb andb].
      destruct (since_via F g s (e :: r)) as [[[a b] v]|].
      + destruct X as (-> & -> & -> & Hv & A & B).
        replace (negb (dir_eqb v DD)) with (dir_eqb v DU) by (destruct v; try discriminate; reflexivity).
        destruct (dir_eqb e d), (is_via_dir d); cbn [negb andb]; try reflexivity. destruct e; reflexivity.
      + destruct X as (-> & ->). rewrite !LT. destruct (dir_eqb e d), (is_via_dir d), e; reflexivity. }
  rewrite V, T. reflexivity.
Qed.
Lemma legal_dirs s ds : legal g s ds -> match ds with [] => True | e :: _ => e <> DUnk end.
Proof. destruct ds; [trivial|]. intros (_ & A & _). exact A. Qed.
Lemma fare_cost s ds : In s cc -> lengths_fit F g cc -> legal g s ds -> NoDup (stops s ds) ->
  gc (w F g) (sur F g d1 d2 center) (s, ds) = fare F g s ds.
Proof.
  intros Hs LF. induction ds as [|d r IH]; intros L N; [reflexivity|].
  pose proof N as N0. cbn [stops] in N. inversion N as [|x l Nx Nr]; subst. destruct L as (L & D & E & S).
  change (s, d :: r) with (wadd (s, r) d). rewrite gc_add, (IH L Nr). cbn [fare].
  rewrite (sur_surcharge s r d LF (ext_steps s Hs LF r L Nr) D); [|rewrite <- stop_wpos, stop_wpos; assumption|apply (legal_dirs s), L].
  unfold w. rewrite stop_wpos, (edge_part_price F g FO EI _ _ D E). reflexivity.
Qed.

(* trips in travel order *)
Lemma way_app s a b : way (fun p d => hasEdge g p d) (isSrc g) s a -> way (fun p d => hasEdge g p d) (isSrc g) (way_end s a) b ->
  way (fun p d => hasEdge g p d) (isSrc g) s (a ++ b).
Proof. revert s. induction a as [|d a IH]; intros s A B; [exact B|]. destruct A as (D & E & S & A). cbn [app way]. auto. Qed.
Lemma way_end_app s a b : way_end s (a ++ b) = way_end (way_end s a) b.
Proof. revert s. induction a as [|d a IH]; intros s; [reflexivity|]. cbn. apply IH. Qed.
Lemma way_cost_app wt s a b : way_cost wt s (a ++ b) = way_cost wt s a + way_cost wt (way_end s a) b.
Proof. revert s. induction a as [|d a IH]; intros s; cbn; [reflexivity|]. rewrite IH. lia. Qed.
Lemma trip_way s ds : legal g s ds -> way (fun p d => hasEdge g p d) (isSrc g) s (rev ds) /\ way_end s (rev ds) = stop s ds /\
  way_cost (w F g) s (rev ds) = price F g s ds.
Proof.
  induction ds as [|d r IH]; intros L; [cbn; auto|]. destruct L as (L & D & E & S). destruct (IH L) as (A & B & C).
  cbn [rev stop price]. rewrite way_end_app, way_cost_app, B, C. cbn [way_end way_cost]. split; [|split; [reflexivity|]].
  - apply way_app; [assumption|]. rewrite B. cbn [way]. auto.
  - unfold w. rewrite (edge_part_price F g FO EI _ _ D E). lia.
Qed.
End Fares.

(* the box of the access points contains them *)
Lemma fold_min_valid g l : forall c, (forall p, In p l -> valid g p) -> valid g c ->
  valid g (fold_left mi_min l c).
Proof.
  induction l as [|a l IH]; intros c H C; [exact C|]. cbn [fold_left]. apply IH; [intros; apply H; right; assumption|].
  specialize (H a (or_introl eq_refl)). unfold valid, on_grid in *. cbn. lia.
Qed.
Lemma fold_max_valid g l : forall c, (forall p, In p l -> valid g p) -> valid g c ->
  valid g (fold_left mi_max l c).
Proof.
  induction l as [|a l IH]; intros c H C; [exact C|]. cbn [fold_left]. apply IH; [intros; apply H; right; assumption|].
  specialize (H a (or_introl eq_refl)). unfold valid, on_grid in *. cbn. lia.
Qed.
Lemma xs_mono F g i j : fare_ok F g -> 0 <= i <= j -> j < nx g -> nth (Z.to_nat i) (gxs g) 0 <= nth (Z.to_nat j) (gxs g) 0.
Proof. intros ((S & _) & _) A B. apply (sorted_lt_le _ S); unfold nx in *; lia. Qed.
Lemma ys_mono F g i j : fare_ok F g -> 0 <= i <= j -> j < ny g -> nth (Z.to_nat i) (gys g) 0 <= nth (Z.to_nat j) (gys g) 0.
Proof. intros ((_ & S & _) & _) A B. apply (sorted_lt_le _ S); unfold ny in *; lia. Qed.
Lemma zs_mono F g i : fare_ok F g -> forall n, 0 <= i -> i + Z.of_nat n < nz g -> fe_height F i <= fe_height F (i + Z.of_nat n).
Proof.
  intros (_ & H & _) n A. induction n as [|n IH]; intros B; [rewrite Z.add_0_r; lia|].
  specialize (IH ltac:(lia)). specialize (H (i + Z.of_nat n) ltac:(lia) ltac:(lia)).
  replace (i + Z.of_nat (S n)) with (i + Z.of_nat n + 1) by lia. lia.
Qed.
Lemma in_box_zero F g aps p : fare_ok F g -> dst_ok g aps -> In p aps ->
  h0 F g (fst (dst_box g aps)) (snd (dst_box g aps)) p = 0.
Proof.
  intros FO (V & _) Hp. unfold dst_box. cbn [fst snd].
  set (b1 := fold_left mi_min aps _). set (b2 := fold_left mi_max aps _).
  pose proof (V p Hp) as Vp. destruct Vp as (P1 & P2 & P3).
  assert (V1 : valid g b1).
  { apply fold_min_valid; [assumption|]. unfold valid, on_grid. cbn [mx my mz]. lia. }
  assert (V2 : valid g b2).
  { apply fold_max_valid; [assumption|]. unfold valid, on_grid. cbn [mx my mz]. lia. }
  assert (L : forall f, coordf f -> f b1 <= f p <= f b2).
  { intros f Hf. destruct (fold_min_spec f aps Hf (mkMI (nx g - 1) (ny g - 1) (nz g - 1))) as (_ & A & _).
    destruct (fold_max_spec f aps Hf (mkMI 0 0 0)) as (_ & B & _). split; [apply A|apply B]; assumption. }
  destruct V1 as (A1 & A2 & A3). destruct V2 as (B1 & B2 & B3).
  pose proof (L mx (or_introl eq_refl)) as Lx. pose proof (L my (or_intror (or_introl eq_refl))) as Ly. pose proof (L mz (or_intror (or_intror eq_refl))) as Lz.
  unfold h0, min_x, min_y, min_z, getPoint. cbn [px py].
  pose proof (xs_mono F g (mx b1) (mx p) FO ltac:(lia) ltac:(lia)) as X1. pose proof (xs_mono F g (mx p) (mx b2) FO ltac:(lia) ltac:(lia)) as X2.
  pose proof (ys_mono F g (my b1) (my p) FO ltac:(lia) ltac:(lia)) as Y1. pose proof (ys_mono F g (my p) (my b2) FO ltac:(lia) ltac:(lia)) as Y2.
  pose proof (zs_mono F g (mz b1) FO (Z.to_nat (mz p - mz b1)) ltac:(lia) ltac:(lia)) as Z1.
  pose proof (zs_mono F g (mz p) FO (Z.to_nat (mz b2 - mz p)) ltac:(lia) ltac:(lia)) as Z2.
  replace (mz b1 + Z.of_nat (Z.to_nat (mz p - mz b1))) with (mz p) in Z1 by lia.
  replace (mz p + Z.of_nat (Z.to_nat (mz b2 - mz p))) with (mz b2) in Z2 by lia.
  assert (M : forall a b c, a <= b -> b <= c -> Z.max (Z.max (a - b) (b - c)) 0 = 0) by (clear; intros; lia).
  rewrite !M by assumption. reflexivity.
Qed.

Lemma init_erel F g cc d1 d2 center :
  Forall2 (erel F g d1 d2 center) (map (fun i => mkEntry i 0 (finit F d1 d2 center g i)) cc) (map (fun s => (s, [])) cc).
Proof. induction cc as [|s l IH]; cbn; constructor; [|exact IH]. split; [split; reflexivity|reflexivity]. Qed.
Lemma walk_legal F g cc d1 d2 center K a :
  Inv (fun p d => hasEdge g p d) (isSrc g) (isDst g) cc (w F g) (sur F g d1 d2 center) (h0 F g d1 d2) (hb F g d1 d2) K a ->
  forall s ds, In (s, ds) (wP a) -> In s cc /\ legal g s ds.
Proof.
  intros I s. induction ds as [|d r IH]; intros H.
  - split; [apply (iC0 _ _ _ _ _ _ _ _ _ _ I), H|exact Logic.I].
  - change (s, d :: r) with (wadd (s, r) d) in H. destruct (iC _ _ _ _ _ _ _ _ _ _ I _ _ H) as [G O].
    destruct (iG _ _ _ _ _ _ _ _ _ _ I _ G) as [_ P]. destruct (IH P) as [A B]. split; [assumption|].
    destruct O as (D & E & S & _). rewrite stop_wpos in E, S. cbn [legal stop]. auto.
Qed.
Theorem fare_near F pick center aps fuel tbf g cc c1 c2 K g' f :
  search_ready g cc -> fare_ok F g -> charge_limit F g K -> lengths_fit F g cc -> dst_ok g aps -> heap_pick pick ->
  (grid_size g <= tbf)%nat ->
  fare_search F pick center aps fuel tbf g cc c1 c2 = SFound g' f ->
  (exists s, In s cc /\ isDst g s = true /\ fpath f = [s]) \/
  (exists s ds, In s cc /\ legal g s ds /\ route g cc (stops s ds) /\ bends DUnk (fpath f) (stops s ds) /\
     forall s' ds', In s' cc -> legal g s' ds' -> isDst g (stop s' ds') = true ->
       fare F g s ds <= price F g s' ds' + (2 * K + 2) * Z.of_nat (length ds') + 2).
Proof.
  intros R FO CL LF DO HP TB. unfold fare_search. destruct (dst_box g aps) as [d1 d2] eqn:DB.
  pose proof (proj1 R) as EI.
  unfold search. destruct (find (isDst g) cc) as [s|] eqn:FD.
  { intros H. injection H as <- <-. left. apply find_some in FD as [A B]. exists s. auto. }
  intros H. right. pose proof (find_none_all g cc FD) as ND.
  pose proof (loop_sim F g cc d1 d2 center K pick R FO CL HP tbf c1 c2 fuel 0%nat g (map (fun i => mkEntry i 0 (finit F d1 d2 center g i)) cc) (winit cc)) as L.
  assert (G0 : grel g g (wcm (winit cc))).
  { split; [apply static_refl|]. intros p Hp. destruct R as (_ & _ & A). apply A, Hp. }
  assert (I0 : Inv (fun p d => hasEdge g p d) (isSrc g) (isDst g) cc (w F g) (sur F g d1 d2 center) (h0 F g d1 d2) (hb F g d1 d2) K (winit cc)).
  { eapply init_inv; eauto using w_edge, h0_lipschitz, h0_nonneg, hb_bounds, hb_first, all_good, (cc_src g cc R). }
  assert (H0 : whist (fun p d => hasEdge g p d) (isSrc g) cc (winit cc)) by (apply init_hist; exact (cc_src g cc R)).
  specialize (L G0 (init_erel F g cc d1 d2 center) I0 H0). rewrite H in L.
  destruct L as (a & W & I & Hh & Hin & Le & Dd & G & T).
  destruct W as [s ds]. destruct (walk_legal F g cc d1 d2 center K a I s ds (iA _ _ _ _ _ _ _ _ _ _ I _ Hin)) as [Hs Lg].
  destruct (Hh _ Hin) as [Hist N]. rewrite stops_wpts in Hist, N. unfold wkey in Hist. rewrite stop_wpos in *.
  pose proof (hist_V (fun p d => hasEdge g p d) (isSrc g) cc (points g) (cc_V g cc R) (edge_V g cc R) _ _ _ Hist) as HV.
  assert (D2 : wlast (s, ds) <> DUnk).
  { destruct ds as [|d r]; [cbn [stop] in Dd; rewrite (ND s Hs) in Dd; discriminate|]. destruct Lg as (_ & D & _). exact D. }
  assert (Ln : (length (stops s ds) <= tbf)%nat).
  { pose proof (NoDup_incl_length N HV) as X. rewrite points_len in X. unfold grid_size in TB. lia. }
  destruct (tb_hist fext (fnext F d1 d2 center) (finit F d1 d2 center) pick g cc R g' (wcm a) (stop s ds) _ _ (stops s ds) tbf c1 c2 G Hist D2 Ln)
    as (es & path & Wl & Hhd & (x & y & r & El) & T' & P & Il & Ns & Lk).
  rewrite T in T'. injection T' as ->. cbn [fpath].
  exists s, ds. split; [assumption|]. split; [assumption|]. split; [|split].
  - rewrite El in *. cbn [hd] in Hhd. subst x. exists (stop s ds), (removelast (y :: r)), (lastp (y :: r)).
    assert (Er : y :: r = removelast (y :: r) ++ [lastp (y :: r)]) by (apply app_removelast_last; discriminate).
    split; [f_equal; exact Er|]. split; [assumption|]. split; [exact Il|]. split; [assumption|]. split; [assumption|].
    split; [intros p Hp; apply points_in, HV; assumption|]. exact Ns.
  - rewrite P. apply (pathf_bends (stops s ds) es DUnk Wl). destruct es as [|e0 es0]; [exact Logic.I|].
    rewrite El in Wl. apply Wl.
  - intros s' ds' Hs' Lg' Dd'. destruct (trip_way F g FO EI s' ds' Lg') as (Wy & We & Wc).
    rewrite <- (fare_cost F g cc d1 d2 center FO EI s ds Hs LF Lg N), <- Wc, <- (rev_length ds').
    apply (near_final (fun p d => hasEdge g p d) (isSrc g) (isDst g) cc (cc_src g cc R) (w F g) (sur F g d1 d2 center) (h0 F g d1 d2) (hb F g d1 d2) K)
      with (a := a); try assumption.
    + eauto using w_edge.
    + eauto using h0_lipschitz.
    + apply h0_nonneg.
    + apply hb_bounds.
    + apply hb_first.
    + eauto using all_good.
    + destruct CL as [CL _]. lia.
    + rewrite We. exact Dd'.
    + rewrite We. assert (V : valid g (stop s' ds')).
      { destruct ds' as [|d' r']; [apply R; exact Hs'|]. destruct Lg' as (_ & D' & E' & _). cbn [stop]. apply (EI _ _ D' E'). }
      pose proof (in_box_zero F g aps (stop s' ds') FO DO (proj2 DO _ V Dd')) as Z. rewrite DB in Z. exact Z.
    + unfold hh. pose proof (h0_nonneg F g d1 d2 (wpos (s, ds))). pose proof (hb_bounds F g d1 d2 (wpos (s, ds)) (wlast (s, ds))). lia.
Qed.

(* ---- the estimate ---- *)
Definition lastd (l : dir) (ds : list dir) : dir := match ds with [] => l | d :: _ => d end.
Lemma est_trip F g d1 d2 p l ds : fare_ok F g -> on_edges g p ds ->
  h0 F g d1 d2 p + hb F g d1 d2 p l <= price F g p ds + turns l ds + h0 F g d1 d2 (stop p ds) + hb F g d1 d2 (stop p ds) (lastd l ds).
Proof.
  intros FO. induction ds as [|d r IH]; intros L; [cbn; lia|].
  destruct L as (L & D & E). specialize (IH L). cbn [price turns stop lastd].
  pose proof (est_step F g d1 d2 (stop p r) (lastd l r) d D) as S. pose proof (edge_price_hop F g FO (stop p r) d).
  assert (B : (if negb (dir_eqb (lastd l r) d) && negb (dir_eqb (lastd l r) DUnk) then 1 else 0) <= bend (r ++ match l with DUnk => [] | _ => [l] end) d).
  { destruct r as [|e r]; cbn [lastd app bend].
    - destruct l, d; cbn; lia.
    - destruct (dir_eqb e d); cbn [negb andb]; [lia|]. destruct (dir_eqb e DUnk); cbn; lia. }
  lia.
Qed.
Theorem est_below F g aps p l ds : fare_ok F g -> edges_inside g -> dst_ok g aps -> valid g p ->
  on_edges g p ds -> isDst g (stop p ds) = true ->
  getEstCost F g p (fst (dst_box g aps)) (snd (dst_box g aps)) l <= price F g p ds + turns l ds.
Proof.
  intros FO EI DO V L D. rewrite (est_split F g FO).
  pose proof (est_trip F g (fst (dst_box g aps)) (snd (dst_box g aps)) p l ds FO L) as H.
  assert (V' : valid g (stop p ds)).
  { destruct ds as [|d r]; [exact V|]. destruct L as (_ & D' & E). cbn [stop]. apply (EI _ _ D' E). }
  pose proof (in_box_zero F g aps (stop p ds) FO DO (proj2 DO _ V' D)) as Z.
  enough (hb F g (fst (dst_box g aps)) (snd (dst_box g aps)) (stop p ds) (lastd l ds) = 0) by lia.
  unfold h0 in Z. unfold hb, bend_cnt.
  assert (0 <= min_x g (stop p ds) (fst (dst_box g aps)) (snd (dst_box g aps))) by apply Z.le_max_r.
  assert (0 <= min_y g (stop p ds) (fst (dst_box g aps)) (snd (dst_box g aps))) by apply Z.le_max_r.
  assert (0 <= min_z F (stop p ds) (fst (dst_box g aps)) (snd (dst_box g aps))) by apply Z.le_max_r.
  replace (min_x g (stop p ds) (fst (dst_box g aps)) (snd (dst_box g aps))) with 0 by lia.
  replace (min_y g (stop p ds) (fst (dst_box g aps)) (snd (dst_box g aps))) with 0 by lia.
  replace (min_z F (stop p ds) (fst (dst_box g aps)) (snd (dst_box g aps))) with 0 by lia. reflexivity.
Qed.
