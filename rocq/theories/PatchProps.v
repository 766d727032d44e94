(* Properties C118-C120: minimum-area patches of a routed connection. *)
From Verif Require Import Base Stl GeomModel GridModel PatchModel PatchSpec PatchProofs PatchProofs2 PatchProofs3 PatchProofs4 PatchProofs5 PatchProofs6 PatchProofs7.
From Verif Require GcModel GcProofs2.

(* ---- an example: three layers, tracks 10 apart, one pair of tracks 1 apart ---- *)
Definition ex_layer (a : Z) (z : Z) : player := mkPL 4 (z =? 1) (if z =? 1 then Some a else None).
Definition ex_env (a : Z) (b : box) : penv := mkPE (ex_layer a) (fun _ => (cbox 2 2, cbox 3 2)) 5 b 8 8 32.
Definition ex_lines : list Z := [0; 10; 20; 21; 30; 40; 50; 60].
Definition ex_grid : gg := mkGG ex_lines ex_lines [2; 4; 6] [false; true; false] (fun _ => 0) (fun _ => false) (fun _ => false) (fun _ => false) (fun _ => false).
Definition ex_box : box := mkBox (mkPt 0 0) (mkPt 60 60).
Definition ex_path : list midx := [mkMI 2 2 0; mkMI 2 2 1; mkMI 4 2 1; mkMI 4 2 2].
Lemma ex_good a b : good_penv (ex_env a b).
Proof. split; [reflexivity|]. intros z. cbn. repeat split; vm_compute; congruence. Qed.
Lemma ex_lines_sorted : sorted_lt ex_lines.
Proof. unfold ex_lines. repeat (apply sorted_lt_cons; [intros x H; cbn in H; intuition lia|]). apply sorted_lt_nil. Qed.
Lemma ex_grid_ok : grid_ok ex_grid.
Proof. split; exact ex_lines_sorted. Qed.
Lemma ex_fit a b : costs_fit (ex_env a b) ex_grid.
Proof.
  repeat split; [cbn; lia| cbn; lia|cbn; lia|]. intros l i j Hl Hi Hj.
  assert (B : forall k, (k < length l)%nat -> 0 <= nth k l 0 <= 60).
  { intros k Hk. assert (I : In (nth k l 0) l) by (apply nth_In; exact Hk).
    revert I. generalize (nth k l 0). intros v I. destruct Hl as [-> | ->]; cbn in I; intuition lia. }
  pose proof (B i Hi). pose proof (B j Hj). cbn [pe_drc pe_shape pe_marker ex_env]. unfold int_max. lia.
Qed.

(* C118 *)
Theorem C118_minimum_area E g aps path pre st post p st' : good_penv E -> grid_ok g ->
  (forall q, In q path -> on_grid g q) -> (forall q a, In (q, a) aps -> 0 <= a) ->
  stretch (expand path) pre st post -> pre <> [] -> straight_stretch g st ->
  (post = [] -> forall b q a, st = b ++ [q] -> ~ In (q, a) aps) -> st = p :: st' ->
  covers (req_area E (mz p)) (fun x y => stretch_metal E g pre st post x y \/
     patch_metal (min_area_patches E g aps path) (getLayerNum g (mz p)) x y).
Proof. intros G GG OP NA HS Hpre SS Hp. apply stretch_min_area; assumption. Qed.
Print Assumptions C118_minimum_area.

(* the middle stretch of the example is a straight stretch between two vias and needs a patch of length 15 *)
Example C118_example :
  stretch (expand ex_path) [mkMI 2 2 0] [mkMI 2 2 1; mkMI 4 2 1] [mkMI 4 2 2] /\
  straight_stretch ex_grid [mkMI 2 2 1; mkMI 4 2 1] /\ (forall q, In q ex_path -> on_grid ex_grid q) /\
  good_penv (ex_env 100 ex_box) /\ grid_ok ex_grid /\
  min_area_patches (ex_env 100 ex_box) ex_grid [] ex_path = [mkPa 4 (mkPt 20 20) (mkBox (mkPt (-15) (-2)) (mkPt 0 2))].
Proof.
  split; [|split; [|split; [|split; [apply ex_good|split; [apply ex_grid_ok|reflexivity]]]]].
  - split; [reflexivity|]. split; [discriminate|]. exists 1. split; [intros q [<-|[<-|[]]]; reflexivity|]. split.
    + intros q pre' H. destruct pre' as [|? pre']; [inversion H; cbn; lia|inversion H; destruct pre'; discriminate].
    + intros q post' H. inversion H. cbn. lia.
  - intros p q a b H1 H2. inversion H1; subst p. destruct b as [|? [|? b]]; inversion H2; [|destruct b; discriminate].
    split; [reflexivity|]. left. intros r [<-|[<-|[]]]; reflexivity.
  - intros q [<-|[<-|[<-|[<-|[]]]]]; vm_compute; intuition congruence.
Qed.

(* a stretch that turns back on itself can fall short: overlapping metal is counted twice *)
Lemma next_to_pairs st p q : next_to st p q -> In (p, q) (combine st (tl st)).
Proof.
  intros (a & b & ->). induction a as [|x a IH]; [left; reflexivity|]. cbn [app tl].
  destruct (a ++ p :: q :: b) as [|y t] eqn:Ey; [destruct a; discriminate|]. cbn [combine]. right. exact IH.
Qed.
Lemma not_covers n a b c d (S : Z -> Z -> Prop) : a <= b -> c <= d -> (forall x y, S x y -> R a b c d x y) -> (b - a) * (d - c) < n -> ~ covers n S.
Proof.
  intros H1 H2 H L (l & N & I & C).
  assert (B : (length l <= length (GcModel.cells (mkBox (mkPt a c) (mkPt b d))))%nat).
  { apply NoDup_incl_length; [exact N|]. intros (x & y) J. apply GcProofs2.cells_In. apply H, I, J. }
  assert (Q : Z.of_nat (length (GcModel.cells (mkBox (mkPt a c) (mkPt b d)))) = (b - a) * (d - c)).
  { unfold GcModel.cells, bleft, bright, bbottom, btop. cbn [ll ur px py].
    assert (LL : forall k, length (flat_map (fun x : Z => map (fun y : Z => (x, y)) (GcModel.zrange c d)) k) = (length k * length (GcModel.zrange c d))%nat).
    { induction k as [|x k IH]; [reflexivity|]. cbn [flat_map length]. rewrite app_length, map_length, IH. lia. }
    rewrite LL. unfold GcModel.zrange. rewrite !map_length, !seq_length. nia. }
  lia.
Qed.
Ltac sqc H := match type of H with sq_in ?b _ _ => let b' := eval vm_compute in b in change b with b' in H end;
  unfold sq_in, bleft, bright, bbottom, btop in H; cbn [ll ur px py] in H; unfold R.
Theorem C118_folded_refuted : exists E g path pre st post, good_penv E /\ grid_ok g /\ (forall q, In q path -> on_grid g q) /\
  stretch (expand path) pre st post /\ pre <> [] /\ post <> [] /\
  (forall p q, next_to st p q -> mx p = mx q \/ my p = my q) /\
  exists p st', st = p :: st' /\
  ~ covers (req_area E (mz p)) (fun x y => stretch_metal E g pre st post x y \/
     patch_metal (min_area_patches E g [] path) (getLayerNum g (mz p)) x y).
Proof.
  exists (ex_env 160 ex_box), ex_grid, [mkMI 2 2 0; mkMI 2 2 1; mkMI 5 2 1; mkMI 5 3 1; mkMI 2 3 1; mkMI 2 3 2],
    [mkMI 2 2 0], [mkMI 2 2 1; mkMI 5 2 1; mkMI 5 3 1; mkMI 2 3 1], [mkMI 2 3 2].
  split; [apply ex_good|]. split; [apply ex_grid_ok|].
  split; [intros q H; cbn in H; repeat destruct H as [<-|H]; try (vm_compute; intuition congruence); destruct H|].
  split.
  { split; [reflexivity|]. split; [discriminate|]. exists 1.
    split; [intros q H; cbn in H; repeat destruct H as [<-|H]; try reflexivity; destruct H|]. split.
    - intros q pre' H. destruct pre' as [|? pre']; [inversion H; cbn; lia|inversion H; destruct pre'; discriminate].
    - intros q post' H. inversion H. cbn. lia. }
  split; [discriminate|]. split; [discriminate|].
  split; [intros p q H; apply next_to_pairs in H; cbn in H; repeat destruct H as [H|H]; try (inversion H; cbn; auto); destruct H|].
  exists (mkMI 2 2 1), [mkMI 5 2 1; mkMI 5 3 1; mkMI 2 3 1]. split; [reflexivity|].
  apply (not_covers _ 17 42 18 23); [lia|lia| |vm_compute; reflexivity].
  intros x y [[H|[H|H]]|H].
  - destruct H as (p & q & N & H). apply next_to_pairs in N. cbn in N.
    repeat destruct N as [N|N]; try (inversion N; subst p q; sqc H; lia); destruct N.
  - destruct H as (pre' & q & p & s & E1 & E2 & H). inversion E2; subst p s.
    destruct pre' as [|? pre']; inversion E1; [|destruct pre'; discriminate]. subst q.
    unfold sq_at in H. change (px (getPoint ex_grid (mkMI 2 2 1))) with 20 in H. change (py (getPoint ex_grid (mkMI 2 2 1))) with 20 in H.
    change (px (getPoint ex_grid (mkMI 2 3 1))) with 20 in H. change (py (getPoint ex_grid (mkMI 2 3 1))) with 21 in H. sqc H. lia.
  - destruct H as (q & post' & p & s & E1 & E2 & H). inversion E1; subst q post'.
    change [mkMI 2 2 1; mkMI 5 2 1; mkMI 5 3 1; mkMI 2 3 1] with ([mkMI 2 2 1; mkMI 5 2 1; mkMI 5 3 1] ++ [mkMI 2 3 1]) in E2.
    apply app_inj_tail in E2. destruct E2 as (_ & <-).
    unfold sq_at in H. change (px (getPoint ex_grid (mkMI 2 2 1))) with 20 in H. change (py (getPoint ex_grid (mkMI 2 2 1))) with 20 in H.
    change (px (getPoint ex_grid (mkMI 2 3 1))) with 20 in H. change (py (getPoint ex_grid (mkMI 2 3 1))) with 21 in H. sqc H. lia.
  - destruct H as (P & I & _). exfalso.
    assert (Q : min_area_patches (ex_env 160 ex_box) ex_grid [] [mkMI 2 2 0; mkMI 2 2 1; mkMI 5 2 1; mkMI 5 3 1; mkMI 2 3 1; mkMI 2 3 2] = []) by (vm_compute; reflexivity).
    rewrite Q in I. destruct I.
Qed.
Print Assumptions C118_folded_refuted.

(* C119 *)
Theorem C119_one_patch_per_short_stretch E g aps am path : good_penv E -> records aps am -> (forall p a, In (p, a) aps -> 0 <= a) ->
  exists sts, NoDup sts /\
    (forall pre st post, In (pre, st, post) sts <-> stretch (expand path) pre st post /\ short E g am (pre, st, post)) /\
    Forall2 (fun s P => match s with (pre, st, post) => patch_for E g st (missing E g am pre st post) P end)
            sts (min_area_patches E g aps path).
Proof. apply patches_of_stretches. Qed.
Print Assumptions C119_one_patch_per_short_stretch.
Example C119_example : short (ex_env 100 ex_box) ex_grid (fun _ => None) ([mkMI 2 2 0], [mkMI 2 2 1; mkMI 4 2 1], [mkMI 4 2 2]) /\
  records [] (fun _ => None) /\
  missing (ex_env 100 ex_box) ex_grid (fun _ => None) [mkMI 2 2 0] [mkMI 2 2 1; mkMI 4 2 1] [mkMI 4 2 2] = 52 /\
  patch_for (ex_env 100 ex_box) ex_grid [mkMI 2 2 1; mkMI 4 2 1] 52 (mkPa 4 (mkPt 20 20) (mkBox (mkPt (-15) (-2)) (mkPt 0 2))).
Proof.
  split; [exists (mkMI 2 2 1), [mkMI 4 2 1]; split; [reflexivity|vm_compute; reflexivity]|]. split; [intros p b []|].
  split; [reflexivity|].
  exists (mkMI 2 2 1), true. split.
  - left. right. exists (mkMI 4 2 1), [], (mkMI 4 2 1). split; [reflexivity|]. split; [reflexivity|]. split; [intros _; left; vm_compute; reflexivity|reflexivity].
  - exists 15. split; [reflexivity|]. split; [reflexivity|]. split; [exists 3; reflexivity|]. split; [vm_compute; congruence|]. split; [vm_compute; congruence|reflexivity].
Qed.

(* C120 *)
Theorem C120_better_place_taken E g aps am path P : good_penv E -> grid_ok g -> costs_fit E g -> records aps am ->
  (forall p a, In (p, a) aps -> 0 <= a) -> In P (min_area_patches E g aps path) ->
  exists pre st post p1 l1 P1 p2 l2 P2 p l, stretch (expand path) pre st post /\ short E g am (pre, st, post) /\
    first_place E st p1 l1 /\ patch_at E g (missing E g am pre st post) p1 l1 P1 /\
    last_place E st p2 l2 /\ patch_at E g (missing E g am pre st post) p2 l2 P2 /\
    ((p = p1 /\ l = l1 /\ P = P1) \/ (p = p2 /\ l = l2 /\ P = P2)) /\
    (tip_inside E P1 p1 l1 \/ tip_inside E P2 p2 l2 -> tip_inside E P p l) /\
    ((tip_inside E P1 p1 l1 /\ clean_under E g P1 p1 l1) \/ (tip_inside E P2 p2 l2 /\ clean_under E g P2 p2 l2) ->
     clean_under E g P p l).
Proof. apply patch_choice. Qed.
Print Assumptions C120_better_place_taken.
(* the patch moves to the other end when the first place leaves the route box *)
Example C120_example : costs_fit (ex_env 100 (mkBox (mkPt 10 0) (mkPt 60 60))) ex_grid /\
  min_area_patches (ex_env 100 (mkBox (mkPt 10 0) (mkPt 60 60))) ex_grid [] ex_path = [mkPa 4 (mkPt 30 20) (mkBox (mkPt 0 (-2)) (mkPt 15 2))].
Proof. split; [apply ex_fit|vm_compute; reflexivity]. Qed.
(* when both places leave the route box, the patch leaves it *)
Theorem C120_outside_refuted : exists E g path P, good_penv E /\ grid_ok g /\ costs_fit E g /\ (forall q, In q path -> on_grid g q) /\
  (forall q, In q path -> bleft (pe_box E) <= px (getPoint g q) <= bright (pe_box E) /\ bbottom (pe_box E) <= py (getPoint g q) <= btop (pe_box E)) /\
  In P (min_area_patches E g [] path) /\ px (pa_origin P) + bleft (pa_off P) < bleft (pe_box E).
Proof.
  exists (ex_env 100 (mkBox (mkPt 10 0) (mkPt 40 60))), ex_grid, ex_path, (mkPa 4 (mkPt 20 20) (mkBox (mkPt (-15) (-2)) (mkPt 0 2))).
  split; [apply ex_good|]. split; [apply ex_grid_ok|]. split; [apply ex_fit|].
  split; [intros q H; cbn in H; repeat destruct H as [<-|H]; try (vm_compute; intuition congruence); destruct H|].
  split; [intros q H; cbn in H; repeat destruct H as [<-|H]; try (vm_compute; intuition congruence); destruct H|].
  split; [left; vm_compute; reflexivity|vm_compute; reflexivity].
Qed.
Print Assumptions C120_outside_refuted.
