(* Written guides connect the pins through covered gcells; pin shapes and their gcells. *)
From Verif Require Import Base Stl GeomModel GCellModel MazeModel TreeModel TreeSpec ConnModel GuideModel GuideSpec GuideProofs1 GuideProofs2 GuideProofs3 GuideProofs5.

Section Back.
Variable horz : Z -> bool.
Variable va : Z.
Variable v : intvs.
Variable gs : list (Z * box).
Hypothesis runs : forall g, In g gs -> covered_run horz v g.
Notation covc := (fun k => covered horz v k).
Notation step := (any_step horz).
Lemma run_x l y a c : (forall x, a <= x <= c -> covered horz v (mkPt x y, l)) -> horz l = true -> forall x x', a <= x <= c -> a <= x' <= c -> connected covc step (mkPt x y, l) (mkPt x' y, l).
Proof.
  intros H Hh x x' Hx Hx'.
  assert (U : forall n, x + Z.of_nat n <= c -> connected covc step (mkPt x y, l) (mkPt (x + Z.of_nat n) y, l)).
  { induction n as [|n IH]; intros Hn; [replace (x + Z.of_nat 0) with x by lia; constructor; apply H; lia|]. econstructor; [apply IH; lia|apply H; lia|]. left. split; [reflexivity|]. cbn [fst snd px py]. rewrite Hh. lia. }
  assert (D : forall n, a <= x - Z.of_nat n -> connected covc step (mkPt x y, l) (mkPt (x - Z.of_nat n) y, l)).
  { induction n as [|n IH]; intros Hn; [replace (x - Z.of_nat 0) with x by lia; constructor; apply H; lia|]. econstructor; [apply IH; lia|apply H; lia|]. left. split; [reflexivity|]. cbn [fst snd px py]. rewrite Hh. lia. }
  destruct (Z_le_gt_dec x x'); [replace x' with (x + Z.of_nat (Z.to_nat (x' - x))) by lia; apply U; lia|replace x' with (x - Z.of_nat (Z.to_nat (x - x'))) by lia; apply D; lia].
Qed.
Lemma run_y l x a c : (forall y, a <= y <= c -> covered horz v (mkPt x y, l)) -> horz l = false -> forall y y', a <= y <= c -> a <= y' <= c -> connected covc step (mkPt x y, l) (mkPt x y', l).
Proof.
  intros H Hh y y' Hy Hy'.
  assert (U : forall n, y + Z.of_nat n <= c -> connected covc step (mkPt x y, l) (mkPt x (y + Z.of_nat n), l)).
  { induction n as [|n IH]; intros Hn; [replace (y + Z.of_nat 0) with y by lia; constructor; apply H; lia|]. econstructor; [apply IH; lia|apply H; lia|]. left. split; [reflexivity|]. cbn [fst snd px py]. rewrite Hh. lia. }
  assert (D : forall n, a <= y - Z.of_nat n -> connected covc step (mkPt x y, l) (mkPt x (y - Z.of_nat n), l)).
  { induction n as [|n IH]; intros Hn; [replace (y - Z.of_nat 0) with y by lia; constructor; apply H; lia|]. econstructor; [apply IH; lia|apply H; lia|]. left. split; [reflexivity|]. cbn [fst snd px py]. rewrite Hh. lia. }
  destruct (Z_le_gt_dec y y'); [replace y' with (y + Z.of_nat (Z.to_nat (y' - y))) by lia; apply U; lia|replace y' with (y - Z.of_nat (Z.to_nat (y - y'))) by lia; apply D; lia].
Qed.
Lemma run_con g k k' : In g gs -> g_end g k -> g_end g k' -> connected covc step k k'.
Proof.
  intros Hg Hk Hk'. pose proof (runs g Hg) as R. destruct g as [l [[x0 y0] [x1 y1]]], k as [[x y] kl], k' as [[x' y'] kl'].
  unfold covered_run, bleft, bright, bbottom, btop in R. cbn [ll ur px py] in R. destruct Hk as [E1 E], Hk' as [E2 E']. cbn [fst snd ll ur] in E1, E2, E, E'. subst kl kl'.
  destruct R as (Rx & Ry & Rh & Rc). destruct (horz l) eqn:Eh.
  - subst y1. assert (Cv : forall z, x0 <= z <= x1 -> covered horz v (mkPt z y0, l)) by (intros z Hz; apply Rc; cbn [px py]; lia).
    assert (y = y0 /\ x0 <= x <= x1) as [-> Hx] by (destruct E as [E|E]; injection E as -> ->; lia).
    assert (y' = y0 /\ x0 <= x' <= x1) as [-> Hx'] by (destruct E' as [E'|E']; injection E' as -> ->; lia).
    exact (run_x l y0 x0 x1 Cv Eh x x' Hx Hx').
  - subst x1. assert (Cv : forall z, y0 <= z <= y1 -> covered horz v (mkPt x0 z, l)) by (intros z Hz; apply Rc; cbn [px py]; lia).
    assert (x = x0 /\ y0 <= y <= y1) as [-> Hy] by (destruct E as [E|E]; injection E as -> ->; lia).
    assert (x' = x0 /\ y0 <= y' <= y1) as [-> Hy'] by (destruct E' as [E'|E']; injection E' as -> ->; lia).
    exact (run_y l x0 y0 y1 Cv Eh y y' Hy Hy').
Qed.
Lemma leads_con npins tie : forall a, leads va gs npins tie false a -> match a with
  | Gd g => exists k0 k, tie 0%nat k0 /\ g_end g k /\ connected covc step k0 k
  | Pn O => True
  | Pn q => exists k0 k, tie 0%nat k0 /\ tie q k /\ connected covc step k0 k end.
Proof.
  assert (Cov : forall g k, In g gs -> g_end g k -> covered horz v k) by (intros g k Hg H; pose proof (run_con g k k Hg H H) as C; inversion C; assumption).
  assert (Pre : forall a, leads va gs npins tie false a -> present gs npins a) by (intros a H; destruct H; [exact H|assumption]).
  induction 1 as [|a b Ha IH Hb J F]; [exact I|]. pose proof (Pre _ Ha) as Pa. destruct a as [g|q], b as [h|q']; cbn [joined present] in *.
  - destruct J as (k & k' & Hk & Hk' & P & L). destruct IH as (k0 & k1 & T & E & C).
    assert (C1 : connected covc step k0 k) by (eapply con_trans; [exact C|]; eapply run_con; eauto).
    exists k0, k'. split; [assumption|]. split; [assumption|]. destruct k as [p l], k' as [p' l']. cbn [fst snd] in P, L. subst p'. destruct L as [[-> _]|L]; [assumption|].
    eapply con_step; [exact C1|exact (Cov h _ Hb Hk')|]. right. split; [reflexivity|]. cbn [snd]. assumption.
  - destruct q' as [|q']; [exact I|]. destruct J as (k & Hk & T'). destruct IH as (k0 & k1 & T & E & C). exists k0, k. split; [assumption|]. split; [assumption|]. eapply con_trans; [exact C|]. eapply run_con; eauto.
  - destruct q as [|q]; [|discriminate]. destruct J as (k & Hk & T). exists k, k. split; [assumption|]. split; [assumption|]. constructor. eapply Cov; eauto.
  - destruct J.
Qed.
End Back.

(* ---- pin shapes *)
Section PinCells.
Variables xg yg : gpat.
Variable horz : Z -> bool.
Variable die : box.
Variable nonpref : bool.
Lemma pin_cells_in l b k : In k (pin_rect_cells xg yg horz die nonpref l b) ->
  snd k = l /\ gcell_idx1 xg (bleft b - 1) <= px (fst k) <= gcell_idx1 xg (bright b) /\ gcell_idx1 yg (bbottom b - 1) <= py (fst k) <= gcell_idx1 yg (btop b).
Proof.
  unfold pin_rect_cells. intros H. apply in_flat_map in H as (x & Hx & H). apply in_flat_map in H as (y & Hy & H). apply zrange_in in Hx, Hy.
  assert (k = (mkPt x y, l)) as ->.
  { destruct (pt_eq _ _ && _ && _); [destruct H|]. match type of H with In _ (if ?c then _ else _) => destruct c end; [destruct H|]. destruct H as [<-|[]]. reflexivity. }
  unfold gcell_idx in Hx, Hy. cbn [fst snd px py] in *. unfold bright, btop. auto.
Qed.
Lemma in_pin_cells l b p : 0 < gspacing xg -> 0 < gspacing yg -> bleft b <= px p <= bright b -> bbottom b <= py p <= btop b ->
  In (gcell_idx xg yg p, l) (pin_rect_cells xg yg horz die nonpref l b).
Proof.
  intros Hsx Hsy Hx Hy. unfold pin_rect_cells. set (t := gcell_idx xg yg (ll b)).
  assert (Px : px t <= gcell_idx1 xg (px p)) by (apply idx1_mono; assumption || apply Hx).
  assert (Py : py t <= gcell_idx1 yg (py p)) by (apply idx1_mono; assumption || apply Hy).
  apply in_flat_map. exists (gcell_idx1 xg (px p)). split; [apply zrange_in; unfold gcell_idx; cbn [px py]; split; apply idx1_mono; unfold bright in *; cbn [px py]; try assumption; try lia|].
  apply in_flat_map. exists (gcell_idx1 yg (py p)). split; [apply zrange_in; unfold gcell_idx; cbn [px py]; split; apply idx1_mono; unfold btop in *; cbn [px py]; try assumption; try lia|].
  replace (gcell_idx1 xg (px p) =? px t - 1) with false by lia. rewrite andb_false_r. cbn [andb].
  replace (gcell_idx1 yg (py p) =? py t - 1) with false by lia. cbn [andb orb]. rewrite andb_false_r. left. reflexivity.
Qed.
Lemma pin_cells_not l b k : 0 < gspacing xg -> 0 < gspacing yg -> In k (pin_rect_cells xg yg horz die nonpref l b) ->
  let gb := gcell_box die xg yg (gcell_idx xg yg (ll b)) in
  (ll b = ll gb -> gcell_idx1 xg (bleft b) <= px (fst k) \/ gcell_idx1 yg (bbottom b) <= py (fst k)) /\
  (nonpref = false -> horz l = false -> bleft b = bleft gb -> gcell_idx1 xg (bleft b) <= px (fst k)) /\
  (nonpref = false -> horz l = true -> bbottom b = bbottom gb -> gcell_idx1 yg (bbottom b) <= py (fst k)).
Proof.
  intros Hsx Hsy H gb. pose proof (pin_cells_in l b k H) as (_ & Bx & By).
  pose proof (idx1_step horz xg (bleft b - 1) Hsx) as Sx. pose proof (idx1_step horz yg (bbottom b - 1) Hsy) as Sy. replace (bleft b - 1 + 1) with (bleft b) in Sx by lia. replace (bbottom b - 1 + 1) with (bbottom b) in Sy by lia.
  unfold pin_rect_cells in H. apply in_flat_map in H as (x & Hx & H). apply in_flat_map in H as (y & Hy & H).
  set (t := gcell_idx xg yg (ll b)) in *. fold gb in H. set (c2 := pt_eq (ll b) (ll gb)) in *.
  assert (Tx : px t = gcell_idx1 xg (bleft b)) by reflexivity. assert (Ty : py t = gcell_idx1 yg (bbottom b)) by reflexivity.
  destruct (c2 && (x =? px t - 1) && (y =? py t - 1)) eqn:E1; [destruct H|]. match type of H with In _ (if ?c then _ else _) => destruct c eqn:E2 end; [destruct H|].
  destruct H as [<-|[]]. cbn [fst px py] in *. rewrite <- Tx, <- Ty in *. split; [|split].
  - intros E. assert (C : c2 = true) by (unfold c2; rewrite E; unfold pt_eq; rewrite !Z.eqb_refl; reflexivity). rewrite C in E1. cbn [andb] in E1. lia.
  - intros -> Hh E. rewrite Hh in E2. replace (bleft b =? bleft gb) with true in E2 by lia. cbn [negb andb orb] in E2. rewrite !andb_true_r, andb_false_r, orb_false_r in E2. lia.
  - intros -> Hh E. rewrite Hh in E2. replace (bbottom b =? bbottom gb) with true in E2 by lia. cbn [negb andb orb] in E2. rewrite ?andb_true_r, ?andb_false_r in E2. cbn [orb] in E2. lia.
Qed.
End PinCells.
