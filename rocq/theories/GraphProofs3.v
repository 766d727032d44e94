From Verif Require Import Base Stl GeomModel GeomSpec GridModel GridSpec GridProofs GridProofs2 GraphModel GraphSpec GraphProofs GraphProofs2.

(* every operation of a grid point is a setter at that point *)
Lemma cell_ops_form T L xs ys p b i o : In o (cell_ops T L xs ys p b i) ->
  (exists d, (d = DE \/ d = DN \/ d = DU) /\ o = AddEdge p d b i) \/
  o = SetGridCostE p \/ o = SetGridCostN p \/ o = SetGridCostU p.
Proof.
  unfold cell_ops. cbn zeta. intros H.
  repeat match type of H with
  | In _ (_ ++ _) => apply in_app_or in H as [H|H]
  | In _ (if ?c then _ else _) => destruct c
  | In _ (match ?c with Some _ => _ | None => _ end) => destruct c
  | In _ (_ :: _) => destruct H as [H|H]
  | In _ [] => destruct H
  end; subst o; try (left; eexists; split; [|reflexivity]; tauto); tauto.
Qed.
Lemma cell_ops_setter T L xs ys p b i o : In o (cell_ops T L xs ys p b i) ->
  is_setter o /\ op_point o = p /\ (forall g, valid g p -> op_safe g o).
Proof.
  intros H. apply cell_ops_form in H as [(d & Hd & ->)|[-> | [-> | ->]]];
    (split; [intros v; reflexivity|]); (split; [|intros g Hg; cbn; tauto]); try reflexivity.
  destruct Hd as [-> | [-> | ->]]; reflexivity.
Qed.

(* the three kinds of contribution of a grid point *)
Definition planar_part (inr rw v : bool) (e c : gop) : list gop :=
  if inr && (negb rw || v) then e :: (if negb v then [c] else []) else [].
Definition via_part (rw rwn v : bool) (v2 : option bool) (e c : gop) : list gop :=
  match v2 with
  | None => []
  | Some x2 => if (rw && negb v) || (rwn && negb x2) then [] else e :: (if negb v || negb x2 then [c] else [])
  end.
Definition wrong_part (o : option bool) (e c : gop) : list gop :=
  match o with None => [] | Some _ => [e; c] end.
Lemma planar_in inr rw v e c o : In o (planar_part inr rw v e c) <->
  inr = true /\ (rw = true -> v = true) /\ (o = e \/ (o = c /\ v = false)).
Proof. unfold planar_part. destruct inr, rw, v; cbn; intuition congruence. Qed.
Lemma via_in rw rwn v v2 e c o : In o (via_part rw rwn v v2 e c) <->
  v2 <> None /\ (rw = true -> v = true) /\ (rwn = true -> v2 = Some true) /\
  (o = e \/ (o = c /\ (v = false \/ v2 <> Some true))).
Proof. unfold via_part. destruct v2 as [[]|], rw, rwn, v; cbn; intuition congruence. Qed.
Lemma wrong_in w e c o : In o (wrong_part w e c) <-> w <> None /\ (o = e \/ o = c).
Proof. unfold wrong_part. destruct w as [[]|]; cbn; intuition congruence. Qed.
Lemma cell_ops_parts T L xs ys p b i :
  let l := l_num L in let np := nonpref_layer T l in
  let inr := (l >=? t_rbot T) && (l <=? t_rtop T) in
  cell_ops T L xs ys p b i =
  (if l_horz L then
     match sub_get ys l with
     | None => []
     | Some v => planar_part inr (rightway T l) v (AddEdge p DE b i) (SetGridCostE p) ++
                 via_part (rightway T l) (rightway T np) v (sub_get xs (l + 2)) (AddEdge p DU b i) (SetGridCostU p)
     end
   else
     match sub_get xs l with
     | None => []
     | Some v => planar_part inr (rightway T l) v (AddEdge p DN b i) (SetGridCostN p) ++
                 via_part (rightway T l) (rightway T np) v (sub_get ys (l + 2)) (AddEdge p DU b i) (SetGridCostU p)
     end) ++
  (if t_nonpref T && inr then
     if l_horz L then wrong_part (sub_get xs np) (AddEdge p DN b i) (SetGridCostN p)
     else wrong_part (sub_get ys np) (AddEdge p DE b i) (SetGridCostE p)
   else []).
Proof.
  cbn zeta. unfold cell_ops, planar_part, via_part, wrong_part. cbn zeta.
  destruct (l_horz L); [reflexivity|]. destruct (sub_get xs (l_num L)) as [v|]; [|reflexivity].
  destruct (sub_get ys (l_num L + 2)) as [v2|]; [|reflexivity]. rewrite (orb_comm (negb v2)). reflexivity.
Qed.

Lemma find_key (m : tmap) : forall i c s, sorted_lt (map fst m) -> nth_error m i = Some (c, s) ->
  find (fun e : Z * list (Z * bool) => fst e =? c) m = Some (c, s).
Proof.
  induction m as [|[k t] r IH]; intros i c s S H; [destruct i; discriminate|].
  cbn [find fst]. cbn [map fst] in S. destruct i as [|i].
  - inversion H; subst. rewrite Z.eqb_refl. reflexivity.
  - cbn in H. assert (Hin : In c (map fst r)) by (apply nth_error_In in H; apply (in_map fst) in H; exact H).
    pose proof (sorted_lt_head _ _ _ S Hin). rewrite (proj2 (Z.eqb_neq _ _)) by lia.
    eapply IH; [eapply sorted_lt_tail; exact S|exact H].
Qed.
Lemma nth_error_valid {A} (l : list A) i : 0 <= i < Z.of_nat (length l) -> exists a, nth_error l (Z.to_nat i) = Some a.
Proof.
  intros H. destruct (nth_error l (Z.to_nat i)) as [a|] eqn:E; [exists a; reflexivity|].
  apply nth_error_None in E. lia.
Qed.

Section graph.
  Variables (T : tech) (xm ym : tmap) (b : box) (initDR follow : bool).
  Hypothesis (Hx : sorted_lt (map fst xm)) (Hy : sorted_lt (map fst ym)) (Ht : tech_ok T).
  Let g0 := init_grids T xm ym follow.
  Let ops := init_ops T xm ym b initDR.
  Lemma init_valid p : valid g0 p <->
    0 <= mx p < Z.of_nat (length xm) /\ 0 <= my p < Z.of_nat (length ym) /\ 0 <= mz p < Z.of_nat (length (t_layers T)).
  Proof. unfold valid, on_grid, nx, ny, nz, g0, init_grids. cbn [gxs gys gzs]. rewrite !map_length. tauto. Qed.
  Lemma ops_in o : In o ops <-> exists L cx xs cy ys p, valid g0 p /\
    nth_error (t_layers T) (Z.to_nat (mz p)) = Some L /\ nth_error xm (Z.to_nat (mx p)) = Some (cx, xs) /\
    nth_error ym (Z.to_nat (my p)) = Some (cy, ys) /\ In o (cell_ops T L xs ys p b initDR).
  Proof.
    unfold ops, init_ops. rewrite in_flat_map. split.
    - intros ([z L] & Hz & H). apply enum_in in Hz as [Hz1 Hz2].
      apply in_flat_map in H as ([y [cy ys]] & Hyy & H). apply enum_in in Hyy as [Hy1 Hy2].
      apply in_flat_map in H as ([x [cx xs]] & Hxx & H). apply enum_in in Hxx as [Hx1 Hx2].
      cbn [fst snd] in H. exists L, cx, xs, cy, ys, (mkMI x y z). cbn [mx my mz].
      split; [|tauto]. apply init_valid. cbn [mx my mz].
      pose proof (proj1 (nth_error_Some (t_layers T) (Z.to_nat z)) ltac:(congruence)).
      pose proof (proj1 (nth_error_Some xm (Z.to_nat x)) ltac:(congruence)).
      pose proof (proj1 (nth_error_Some ym (Z.to_nat y)) ltac:(congruence)). lia.
    - intros (L & cx & xs & cy & ys & [x y z] & Hv & HL & HX & HY & H). apply init_valid in Hv. cbn [mx my mz] in *.
      exists (z, L). split; [apply enum_in; split; [lia|assumption]|].
      apply in_flat_map. exists (y, (cy, ys)). split; [apply enum_in; split; [lia|assumption]|].
      apply in_flat_map. exists (x, (cx, xs)). split; [apply enum_in; split; [lia|assumption]|exact H].
  Qed.
  Lemma ops_safe : Forall (op_safe g0) ops /\ Forall is_setter ops.
  Proof.
    split; apply Forall_forall; intros o Ho; apply ops_in in Ho as (L & cx & xs & cy & ys & p & Hv & _ & _ & _ & Ho);
      apply cell_ops_setter in Ho as (H1 & H2 & H3); auto.
  Qed.
  Lemma init_read_zero q a : read g0 q a <> 1.
  Proof. unfold read, g0, init_grids. cbn [gbits]. rewrite Z.div_0_l by (pose proof (Z.pow_pos_nonneg 2 (attr_pos a)); pose proof (attr_pos_nn a); lia). rewrite Z.mod_0_l; [lia|]. pose proof (Z.pow_pos_nonneg 2 (attr_len a)); pose proof (attr_len_nn a); lia. Qed.
  Let g := grun g0 ops.
  Lemma g_shape : same_shape g0 g.
  Proof. apply grun_shape, ops_safe. Qed.
  (* what the word of a grid point holds *)
  Lemma g_read q a L cx xs cy ys : valid g0 q ->
    nth_error (t_layers T) (Z.to_nat (mz q)) = Some L -> nth_error xm (Z.to_nat (mx q)) = Some (cx, xs) ->
    nth_error ym (Z.to_nat (my q)) = Some (cy, ys) ->
    (read g q a = 1 <-> exists o, In o (cell_ops T L xs ys q b initDR) /\ op_enabled g0 o /\ op_attr o = a).
  Proof.
    intros Hq HL HX HY. unfold g. rewrite grun_setters; [|apply ops_safe|apply ops_safe|assumption]. split.
    - intros [H|(o & Ho & He & Hp & Ha)]; [destruct (init_read_zero _ _ H)|].
      apply ops_in in Ho as (L' & cx' & xs' & cy' & ys' & p & Hv & HL' & HX' & HY' & Ho).
      pose proof (cell_ops_setter _ _ _ _ _ _ _ _ Ho) as (_ & Hp' & _). rewrite Hp' in Hp. subst p.
      rewrite HL' in HL. rewrite HX' in HX. rewrite HY' in HY. inversion HL; inversion HX; inversion HY; subst.
      exists o. tauto.
    - intros (o & Ho & He & Ha). right. exists o.
      split; [apply ops_in; exists L, cx, xs, cy, ys, q; tauto|]. split; [assumption|].
      split; [|assumption]. apply cell_ops_setter in Ho. tauto.
  Qed.
  Lemma point_of q cx xs cy ys : valid g0 q ->
    nth_error xm (Z.to_nat (mx q)) = Some (cx, xs) -> nth_error ym (Z.to_nat (my q)) = Some (cy, ys) ->
    getPoint g0 q = mkPt cx cy.
  Proof.
    intros Hq HX HY. unfold getPoint, g0, init_grids. cbn [gxs gys].
    apply (map_nth_error fst) in HX. apply (map_nth_error fst) in HY.
    f_equal; apply nth_error_nth; assumption.
  Qed.
  Lemma layer_of q L : nth_error (t_layers T) (Z.to_nat (mz q)) = Some L -> getLayerNum g0 (mz q) = l_num L.
  Proof.
    intros H. unfold getLayerNum, g0, init_grids. cbn [gzs]. apply nth_error_nth. apply map_nth_error. exact H.
  Qed.
  (* the conditions under which edges are added, over the maps *)
  Definition has_track (isx : bool) (c l : Z) : Prop := tm_get (sel isx (xm, ym)) c l <> None.
  Definition on_design (isx : bool) (c l : Z) : Prop := tm_get (sel isx (xm, ym)) c l = Some true.
  Definition m_planar q (horz : bool) : Prop :=
    let l := getLayerNum g0 (mz q) in let c := edge_coord g0 q horz in
    routable T l /\
    (if Bool.eqb horz (is_horz T l) then has_track (negb horz) c l /\ (rightway T l = true -> on_design (negb horz) c l)
     else t_nonpref T = true /\ has_track (negb horz) c (nonpref_layer T l)).
  Definition m_via q : Prop :=
    let l := getLayerNum g0 (mz q) in let h := is_horz T l in
    let c := edge_coord g0 q h in let c2 := edge_coord g0 q (negb h) in
    has_track (negb h) c l /\ has_track h c2 (l + 2) /\
    (rightway T l = true -> on_design (negb h) c l) /\
    (rightway T (nonpref_layer T l) = true -> on_design h c2 (l + 2)).
  (* off-track or wrong-way *)
  Definition m_planar_cost q (horz : bool) : Prop :=
    let l := getLayerNum g0 (mz q) in let c := edge_coord g0 q horz in
    if Bool.eqb horz (is_horz T l) then ~ on_design (negb horz) c l else True.
  Definition m_via_cost q : Prop :=
    let l := getLayerNum g0 (mz q) in let h := is_horz T l in
    ~ on_design (negb h) (edge_coord g0 q h) l \/ ~ on_design h (edge_coord g0 q (negb h)) (l + 2).
  Definition m_edge q d : Prop :=
    match d with DE => m_planar q true | DN => m_planar q false | _ => m_via q end.
  Definition m_cost q d : Prop :=
    match d with DE => m_planar_cost q true | DN => m_planar_cost q false | _ => m_via_cost q end.
  Lemma cell_edges q L cx xs cy ys d : valid g0 q ->
    nth_error (t_layers T) (Z.to_nat (mz q)) = Some L -> nth_error xm (Z.to_nat (mx q)) = Some (cx, xs) ->
    nth_error ym (Z.to_nat (my q)) = Some (cy, ys) -> d = DE \/ d = DN \/ d = DU ->
    (In (AddEdge q d b initDR) (cell_ops T L xs ys q b initDR) <-> m_edge q d) /\
    (In (match d with DE => SetGridCostE q | DN => SetGridCostN q | _ => SetGridCostU q end)
        (cell_ops T L xs ys q b initDR) <-> m_edge q d /\ m_cost q d).
  Proof.
    intros Hq HL HX HY Hd.
    assert (Eh : is_horz T (l_num L) = l_horz L).
    { unfold is_horz. rewrite find_layer_in; [reflexivity|exact Ht|]. eapply nth_error_In; exact HL. }
    assert (Ex : forall l, tm_get (sel true (xm, ym)) cx l = sub_get xs l).
    { intros l. unfold tm_get. cbn [sel fst]. rewrite (find_key xm _ _ _ Hx HX). reflexivity. }
    assert (Ey : forall l, tm_get (sel false (xm, ym)) cy l = sub_get ys l).
    { intros l. unfold tm_get. cbn [sel snd]. rewrite (find_key ym _ _ _ Hy HY). reflexivity. }
    unfold m_edge, m_cost, m_planar, m_via, m_planar_cost, m_via_cost, has_track, on_design, edge_coord, routable.
    rewrite (layer_of q L HL), (point_of q cx xs cy ys Hq HX HY), Eh. cbn [px py].
    rewrite cell_ops_parts. cbn zeta.
    set (np := nonpref_layer T (l_num L)) in *. set (l := l_num L) in *.
    assert (ER : (l >=? t_rbot T) && (l <=? t_rtop T) = true <-> t_rbot T <= l <= t_rtop T) by lia.
    set (inr := (l >=? t_rbot T) && (l <=? t_rtop T)) in *.
    destruct Hd as [-> | [-> | ->]]; destruct (l_horz L); cbn [Bool.eqb negb]; rewrite <- ?ER; clear ER; rewrite ?Ex, ?Ey, !in_app_iff.
    - destruct (sub_get ys l) as [v|]; rewrite ?in_app_iff, ?planar_in, ?via_in;
        (destruct (t_nonpref T), inr; cbn [andb]; rewrite ?wrong_in; cbn [In]; try (destruct v); intuition congruence).
    - destruct (sub_get xs l) as [v|]; rewrite ?in_app_iff, ?planar_in, ?via_in;
        (destruct (t_nonpref T), inr; cbn [andb]; rewrite ?wrong_in; cbn [In]; intuition congruence).
    - destruct (sub_get ys l) as [v|]; rewrite ?in_app_iff, ?planar_in, ?via_in;
        (destruct (t_nonpref T), inr; cbn [andb]; rewrite ?wrong_in; cbn [In]; intuition congruence).
    - destruct (sub_get xs l) as [v|]; rewrite ?in_app_iff, ?planar_in, ?via_in;
        (destruct (t_nonpref T), inr; cbn [andb]; rewrite ?wrong_in; cbn [In]; try (destruct v); intuition congruence).
    - destruct (sub_get ys l) as [v|]; rewrite ?in_app_iff, ?planar_in, ?via_in;
        (destruct (t_nonpref T), inr; cbn [andb]; rewrite ?wrong_in; cbn [In]; try (destruct v); intuition congruence).
    - destruct (sub_get xs l) as [v|]; rewrite ?in_app_iff, ?planar_in, ?via_in;
        (destruct (t_nonpref T), inr; cbn [andb]; rewrite ?wrong_in; cbn [In]; try (destruct v); intuition congruence).
  Qed.
End graph.
