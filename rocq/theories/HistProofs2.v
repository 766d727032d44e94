(* Effects on the grid. *)
From Verif Require Import Base Stl GeomModel GridModel GridSpec GridProofs GridProofs2 HistModel HistSpec HistProofs.

Definition marker_add (o : gop) : Prop := match o with AddMarkerPlanar _ | AddMarkerVia _ => True | AddMarker _ d => d = DU \/ d = DD | _ => False end.
Definition cnt (ops : list gop) (q : midx) (a : attr) : Z := Z.of_nat (length (filter (fun o => hits o q a) ops)).
Lemma add_step g o q a : marker_add o -> op_safe g o -> valid g q ->
  same_shape g (gstep g o) /\
  (hits o q a = false -> read (gstep g o) q a = read g q a) /\
  (hits o q a = true -> 0 <= read g q a <= 245 -> read (gstep g o) q a = read g q a + 10).
Proof.
  intros M Sf V. pose proof (gstep_ok g o Sf) as (R & En & Ot). split; [apply R|]. split.
  - intros H. apply Ot; [exact V|]. intros _ E. injection E as E1 E2. assert (hits o q a = true) by (apply hits_true; auto). congruence.
  - intros H L. apply hits_true in H as [-> ->]. assert (E : op_enabled g o).
    { destruct o; cbn [marker_add] in M; try contradiction; cbn [op_enabled op_point] in *; auto. split; [destruct M as [->| ->]; discriminate|exact V]. }
    rewrite (En E). destruct o; cbn [marker_add] in M; try contradiction; cbn [op_value op_point op_attr] in *; rewrite Z.min_l, Z.mod_small by lia; reflexivity.
Qed.
Lemma adds_run ops : forall g q a, Forall marker_add ops -> Forall (op_safe g) ops -> valid g q ->
  same_shape g (grun g ops) /\
  (cnt ops q a = 0 -> read (grun g ops) q a = read g q a) /\
  (0 <= read g q a -> read g q a + 10 * cnt ops q a <= 255 -> read (grun g ops) q a = read g q a + 10 * cnt ops q a).
Proof.
  induction ops as [|o ops IH]; intros g q a M Sf V.
  - cbn. split; [apply same_shape_refl|]. split; [reflexivity|intros; lia].
  - apply Forall_cons_iff in M as [M Ms]. apply Forall_cons_iff in Sf as [S1 S2]. destruct (add_step g o q a M S1 V) as (Sh & A & B).
    assert (S2' : Forall (op_safe (gstep g o)) ops) by (eapply Forall_impl; [|exact S2]; intros x; apply op_safe_shape, Sh).
    destruct (IH (gstep g o) q a Ms S2' (proj1 (valid_shape g _ q Sh) V)) as (Sh' & A' & B'). unfold grun in *. cbn [fold_left].
    split; [eapply same_shape_trans; eauto|]. unfold cnt in *. cbn [filter]. destruct (hits o q a) eqn:H.
    + cbn [length]. split; [lia|]. intros N L. rewrite B'; [|rewrite B; auto; lia|rewrite B by (auto; lia); lia]. rewrite B by (auto; lia). lia.
    + split; [intros Z; rewrite A', A; auto|]. intros N L. rewrite B'; rewrite A; auto.
Qed.
Lemma read_byte g q a : attr_len a = 8 -> 0 <= read g q a <= 255.
Proof. intros L. unfold read. rewrite L. pose proof (Z.mod_pos_bound (gbits g (getIdx g q) / 2 ^ attr_pos a) (2 ^ 8)). lia. Qed.
Lemma cnt_planar ps q : NoDup ps -> cnt (map AddMarkerPlanar ps) q AMarkX = if in_dec midx_dec q ps then 1 else 0.
Proof.
  induction ps as [|p ps IH]; intros N; [reflexivity|]. apply NoDup_cons_iff in N as [N1 N2]. specialize (IH N2). unfold cnt in *. cbn [map filter].
  destruct (hits (AddMarkerPlanar p) q AMarkX) eqn:H.
  - apply hits_true in H as [H _]. cbn [op_point] in H. subst p. cbn [length]. destruct (in_dec midx_dec q ps); [contradiction|]. destruct (in_dec midx_dec q (q :: ps)) as [_|C]; [|destruct C; left; reflexivity]. lia.
  - assert (D : q <> p). { intros ->. assert (T : hits (AddMarkerPlanar p) p AMarkX = true) by (apply hits_true; split; reflexivity). congruence. }
    rewrite IH. destruct (in_dec midx_dec q ps) as [I|I], (in_dec midx_dec q (p :: ps)) as [J|J]; try reflexivity; [destruct J; right; exact I|]. destruct J as [E|J]; [congruence|contradiction].
Qed.
Definition patch_ops (ps : list midx) : list gop := flat_map (fun p => [AddMarkerPlanar p; AddMarker p DU; AddMarker p DD]) ps.
Lemma cnt_patch_x ps q : cnt (patch_ops ps) q AMarkX = cnt (map AddMarkerPlanar ps) q AMarkX.
Proof.
  unfold cnt. f_equal. induction ps as [|p ps IH]; [reflexivity|]. cbn [patch_ops flat_map map app filter].
  assert (U : hits (AddMarker p DU) q AMarkX = false) by (apply not_true_iff_false; rewrite hits_true; intros [_ E]; discriminate).
  assert (D : hits (AddMarker p DD) q AMarkX = false) by (apply not_true_iff_false; rewrite hits_true; intros [_ E]; discriminate).
  rewrite U, D. fold (patch_ops ps). destruct (hits (AddMarkerPlanar p) q AMarkX); cbn [length]; rewrite IH; reflexivity.
Qed.
Lemma cnt_planar_u ps q : cnt (map AddMarkerPlanar ps) q AMarkU = 0.
Proof.
  unfold cnt. induction ps as [|p ps IH]; [reflexivity|]. cbn [map filter].
  assert (U : hits (AddMarkerPlanar p) q AMarkU = false) by (apply not_true_iff_false; rewrite hits_true; intros [_ E]; discriminate). rewrite U. exact IH.
Qed.
Lemma patch_nodup g b lNum : NoDup (patch_points g b lNum).
Proof.
  unfold patch_points. set (z := mz _). clearbody z. generalize (my (getMazeIdx g (ll b) lNum)) (my (getMazeIdx g (ur b) lNum)). intros y1 y2.
  assert (NX : NoDup (zrange (mx (getMazeIdx g (ll b) lNum)) (mx (getMazeIdx g (ur b) lNum)))) by (unfold zrange; apply FinFun.Injective_map_NoDup; [intros i j H; lia|apply seq_NoDup]).
  assert (NY : NoDup (zrange y1 y2)) by (unfold zrange; apply FinFun.Injective_map_NoDup; [intros i j H; lia|apply seq_NoDup]).
  induction NX as [|x l Hx N IH]; cbn [flat_map]; [constructor|].
  assert (N1 : NoDup (map (fun y => mkMI x y z) (zrange y1 y2))) by (apply FinFun.Injective_map_NoDup; [intros i j H; congruence|exact NY]).
  assert (D : forall p, In p (map (fun y => mkMI x y z) (zrange y1 y2)) -> ~ In p (flat_map (fun x => map (fun y => mkMI x y z) (zrange y1 y2)) l)).
  { intros p Hp C. apply in_map_iff in Hp as (y & <- & _). apply in_flat_map in C as (x' & Hx' & C). apply in_map_iff in C as (y' & E & _). injection E as E1 E2. subst. contradiction. }
  revert N1 D. generalize (map (fun y => mkMI x y z) (zrange y1 y2)) as m. induction m as [|p m IHm]; intros N1 D; cbn; [exact IH|].
  apply NoDup_cons_iff in N1 as [Hp N1]. constructor.
  - rewrite in_app_iff. intros [C|C]; [contradiction|]. apply (D p); [left; reflexivity|exact C].
  - apply IHm; [exact N1|]. intros p' Hp'. apply D. right; exact Hp'.
Qed.
Lemma hins_in p q s : In q (hins p s) <-> q = p \/ In q s.
Proof. unfold hins. destruct (in_dec midx_dec p s) as [I|I]; cbn; [split; [auto|intros [->|H]; auto]|split; intros [H|H]; auto]. Qed.
Lemma hins_nodup p s : NoDup s -> NoDup (hins p s).
Proof. unfold hins. destruct (in_dec midx_dec p s); [auto|intros; constructor; auto]. Qed.
Lemma hinss_in ps : forall s q, In q (fold_left (fun l p => hins p l) ps s) <-> In q ps \/ In q s.
Proof. induction ps as [|p ps IH]; intros s q; cbn [fold_left]; [cbn; tauto|]. rewrite IH, hins_in. cbn. split; [intros [H|[H|H]]; auto|intros [[H|H]|H]; auto]. Qed.
Lemma hinss_nodup ps : forall s, NoDup s -> NoDup (fold_left (fun l p => hins p l) ps s).
Proof. induction ps as [|p ps IH]; intros s N; cbn; [exact N|]. apply IH, hins_nodup, N. Qed.

(* the points that a shape marks *)
Definition fig_points (g : gg) (rb mbox : box) (lNum : Z) (f : hfig) : list midx :=
  match f with
  | HSeg bp ep w m1 m2 => if box_contains_pt rb bp true && box_contains_pt rb ep true then seg_points g mbox w m1 m2 else []
  | HVia _ _ _ => []
  | HPatch o b => if box_contains_pt rb o true then patch_points g b lNum else []
  end.
Lemma fig_points_valid g rb mbox lNum f p : grid_sorted g -> bleft mbox <= bright mbox -> bbottom mbox <= btop mbox -> fig_ok g lNum f -> In p (fig_points g rb mbox lNum f) -> valid g p.
Proof.
  intros S P1 P2 F H. destruct f as [bp ep w m1 m2|n o m|o b]; cbn [fig_points fig_ok] in *.
  - destruct (_ && _); [|destruct H]. destruct F as [W0 W]. destruct (seg_points_spec g mbox w m1 m2 S W P1 P2 W0) as (k & Rk & Ik). apply Ik in H. destruct H as [(A & B & C) _].
    destruct W as (V1 & V2 & Ez & _). unfold valid, on_grid in *. lia.
  - destruct H.
  - destruct (box_contains_pt _ _ _); [|destruct H]. apply patch_points_in in H as (A & B & C). destruct F as [V1 V2]. unfold valid, on_grid in *. lia.
Qed.
Lemma safe_planar g ps : Forall (valid g) ps -> Forall (op_safe g) (map AddMarkerPlanar ps) /\ Forall marker_add (map AddMarkerPlanar ps).
Proof. intros F. split; apply Forall_forall; intros o Ho; apply in_map_iff in Ho as (p & <- & Hp); cbn; auto. rewrite Forall_forall in F. auto. Qed.
Lemma safe_patch g ps : Forall (valid g) ps -> Forall (op_safe g) (patch_ops ps) /\ Forall marker_add (patch_ops ps).
Proof.
  intros F. rewrite Forall_forall in F. split; apply Forall_forall; intros o Ho; apply in_flat_map in Ho as (p & Hp & [<-|[<-|[<-|[]]]]); cbn; auto.
Qed.
Lemma add_range g o q a : marker_add o -> op_safe g o -> valid g q -> attr_len a = 8 -> read g q a <= read (gstep g o) q a \/ 245 < read g q a.
Proof.
  intros M Sf V L. destruct (add_step g o q a M Sf V) as (_ & A & B). pose proof (read_byte g q a L). destruct (hits o q a) eqn:E; [|left; rewrite A by auto; lia].
  destruct (Z.le_gt_cases (read g q a) 245); [left; rewrite B; auto; lia|right; lia].
Qed.

(* one shape *)
Record fig_effect (rb mbox : box) (lNum : Z) (f : hfig) (s s' : hstate) : Prop := mkFE {
  fe_shape : same_shape (hg s) (hg s');
  fe_hp : forall q, In q (hp s') <-> In q (fig_points (hg s) rb mbox lNum f) \/ In q (hp s);
  fe_nodup : NoDup (hp s) -> NoDup (hp s');
  fe_same : forall q, valid (hg s) q -> ~ In q (fig_points (hg s) rb mbox lNum f) -> cost_x s' q = cost_x s q;
  fe_more : forall q, valid (hg s) q -> In q (fig_points (hg s) rb mbox lNum f) -> cost_x s q <= 245 -> cost_x s' q = cost_x s q + 10 }.
Lemma fe_refl rb mbox lNum f s : fig_points (hg s) rb mbox lNum f = [] -> fig_effect rb mbox lNum f s s.
Proof. intros E. constructor; rewrite ?E; auto; [apply same_shape_refl|cbn; tauto|intros q _ []]. Qed.
Lemma fig_effect_ok rb mbox lNum f s vio : grid_sorted (hg s) -> bleft mbox <= bright mbox -> bbottom mbox <= btop mbox -> fig_ok (hg s) lNum f ->
  fig_effect rb mbox lNum f s (fst (hist_fig rb mbox lNum (s, vio) f)).
Proof.
  intros S P1 P2 F. pose proof (fun p => fig_points_valid (hg s) rb mbox lNum f p S P1 P2 F) as FV. unfold hist_fig. destruct f as [bp ep w m1 m2|n o m|o b]; cbn [fig_points] in *.
  - destruct (_ && _) eqn:E; cbn [fst]; [|apply fe_refl; cbn [fig_points]; rewrite E; reflexivity].
    rewrite <- Forall_forall in FV. destruct (safe_planar (hg s) _ FV) as [Sf M]. set (ps := seg_points (hg s) mbox w m1 m2) in *.
    assert (ND : NoDup ps) by apply seg_points_nodup.
    assert (R : forall q, valid (hg s) q -> same_shape (hg s) (grun (hg s) (map AddMarkerPlanar ps)) /\ _) by (intros q V; exact (adds_run (map AddMarkerPlanar ps) (hg s) q AMarkX M Sf V)).
    constructor; cbn [hg hp hv fig_points].
    + apply grun_shape, Sf.
    + intros q. rewrite hinss_in. rewrite E. reflexivity.
    + intros H. apply hinss_nodup, H.
    + intros q V H. rewrite E in H. destruct (R q V) as (_ & A & _). unfold cost_x. cbn [hg]. apply A. rewrite (cnt_planar ps q ND). destruct (in_dec midx_dec q ps); [contradiction|reflexivity].
    + intros q V H L. rewrite E in H. destruct (R q V) as (_ & _ & B). unfold cost_x in *. cbn [hg]. rewrite (cnt_planar ps q ND) in B. destruct (in_dec midx_dec q ps); [|contradiction].
      pose proof (read_byte (hg s) q AMarkX eq_refl). rewrite B; lia.
  - destruct (box_contains_pt rb o true); [|apply fe_refl; reflexivity].
    destruct (existsb _ vio); [apply fe_refl; reflexivity|]. destruct (in_dec midx_dec m (hv s)); [apply fe_refl; reflexivity|].
    cbn [fst]. cbn [fig_ok] in F.
    constructor; cbn [hg hp hv fig_points]; auto.
    + apply gstep_shape. exact F.
    + intros q. cbn. tauto.
    + intros q V _. unfold cost_x. cbn [hg]. destruct (add_step (hg s) (AddMarkerVia m) q AMarkX I F V) as (_ & A & _). apply A. apply not_true_iff_false. rewrite hits_true. intros [_ E]. discriminate.
    + intros q V [].
  - destruct (box_contains_pt rb o true) eqn:E; cbn [fst]; [|apply fe_refl; cbn [fig_points]; rewrite E; reflexivity].
    rewrite <- Forall_forall in FV. destruct (safe_patch (hg s) _ FV) as [Sf M]. set (ps := patch_points (hg s) b lNum) in *.
    assert (ND : NoDup ps) by apply patch_nodup. fold (patch_ops ps).
    assert (R : forall q, valid (hg s) q -> same_shape (hg s) (grun (hg s) (patch_ops ps)) /\ _) by (intros q V; exact (adds_run (patch_ops ps) (hg s) q AMarkX M Sf V)).
    constructor; cbn [hg hp hv fig_points].
    + apply grun_shape, Sf.
    + intros q. rewrite hinss_in, E. reflexivity.
    + intros H. apply hinss_nodup, H.
    + intros q V H. rewrite E in H. destruct (R q V) as (_ & A & _). unfold cost_x. cbn [hg]. apply A. rewrite cnt_patch_x, (cnt_planar ps q ND). destruct (in_dec midx_dec q ps); [contradiction|reflexivity].
    + intros q V H L. rewrite E in H. destruct (R q V) as (_ & _ & B). unfold cost_x in *. cbn [hg]. rewrite cnt_patch_x, (cnt_planar ps q ND) in B. destruct (in_dec midx_dec q ps); [|contradiction].
      pose proof (read_byte (hg s) q AMarkX eq_refl). rewrite B; lia.
Qed.
