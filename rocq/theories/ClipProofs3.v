From Coq Require Import Permutation.
From Verif Require Import Base GeomModel GeomSpec ClipModel ClipSpec ClipProofs ClipProofs2.

Lemma partition_perm {A} (f : A -> bool) l : Permutation l (filter f l ++ filter (fun x => negb (f x)) l).
Proof.
  induction l as [|a r IH]; [reflexivity|]. cbn. destruct (f a); cbn.
  - now apply perm_skip.
  - etransitivity; [apply perm_skip, IH|]. apply Permutation_middle.
Qed.
Lemma filter_perm {A} (f : A -> bool) l l' : Permutation l l' -> Permutation (filter f l) (filter f l').
Proof.
  induction 1; cbn; [reflexivity| | |etransitivity; eauto].
  - destruct (f x); [now apply perm_skip|assumption].
  - destruct (f x), (f y); try reflexivity. apply perm_swap.
Qed.
Lemma filter_all {A} (f : A -> bool) l : (forall x, In x l -> f x = true) -> filter f l = l.
Proof. induction l as [|a r IH]; intros H; [reflexivity|]. cbn. rewrite H by now left. f_equal. apply IH. intros; apply H; now right. Qed.
Lemma filter_none {A} (f : A -> bool) l : (forall x, In x l -> f x = false) -> filter f l = [].
Proof. induction l as [|a r IH]; intros H; [reflexivity|]. cbn. rewrite H by now left. apply IH. intros; apply H; now right. Qed.
Lemma existsb_perm {A} (f : A -> bool) l l' : Permutation l l' -> existsb f l = existsb f l'.
Proof.
  intros P. destruct (existsb f l) eqn:E; symmetry.
  - apply existsb_exists in E as (x & Hx & Fx). apply existsb_exists. exists x. split; [apply (Permutation_in _ P Hx)|exact Fx].
  - destruct (existsb f l') eqn:E'; [|reflexivity]. apply existsb_exists in E' as (x & Hx & Fx). symmetry in P.
    assert (X : existsb f l = true) by (apply existsb_exists; exists x; split; [apply (Permutation_in _ P Hx)|exact Fx]). congruence.
Qed.
Lemma pt_eq_ok p q : pt_eq p q = true <-> p = q.
Proof. destruct p, q. unfold pt_eq. cbn. rewrite andb_true_iff, !Z.eqb_eq. split; [intros [-> ->]; reflexivity|intros E; injection E; auto]. Qed.

Lemma box_set_in x1 y1 x2 y2 p : (x1 <= px p <= x2 \/ x2 <= px p <= x1) -> (y1 <= py p <= y2 \/ y2 <= py p <= y1) -> box_contains_pt (box_set x1 y1 x2 y2) p true = true.
Proof. unfold box_contains_pt, box_set, bleft, bright, bbottom, btop. cbn [ll ur px py]. intros. zcases; lia. Qed.
Lemma box_of_end w p : straight w -> style_ok w -> p = wb w \/ p = we w -> box_contains_pt (seg_box w) p true = true.
Proof.
  intros P (S1 & S2 & S3) E. assert (Q := Z.quot_pos (sWid (ws w)) 2 S3 ltac:(lia)). unfold seg_box. cbv zeta.
  unfold straight in P. destruct (negb (px (wb w) =? px (we w))) eqn:N; apply box_set_in; destruct E as [-> | ->]; destruct P as [[P1 P2]|[P1 P2]]; lia.
Qed.
Lemma ends_at_ok w p l : straight w -> style_ok w -> ends_at p l (FSeg w) = true <-> wl w = l /\ (wb w = p \/ we w = p).
Proof.
  intros P S. unfold ends_at. rewrite !andb_true_iff, orb_true_iff, !pt_eq_ok, Z.eqb_eq. split.
  - intros [[A B] C]. auto.
  - intros [A C]. split; [split; [exact A|]|exact C]. apply box_of_end; try assumption. destruct C; [left|right]; congruence.
Qed.
Lemma ends_at_only w p l : ends_at p l (FSeg w) = true -> wl w = l /\ (wb w = p \/ we w = p).
Proof. unfold ends_at. rewrite !andb_true_iff, orb_true_iff, !pt_eq_ok, Z.eqb_eq. intros [[A B] C]. auto. Qed.

Section M.
Variable pin_at : Z -> point -> Z -> bool.
Variable manuGrid : Z.
Variable swap : point -> Z -> bool.
Notation mpt := (merge_pt pin_at manuGrid swap).

Lemma merge_pt_cases n figs p l : mpt n figs (p, l) = figs \/
  exists w0 w1 j rest, Permutation figs (FSeg w0 :: FSeg w1 :: rest) /\ mpt n figs (p, l) = rest ++ [FSeg j] /\
    rest = filter (fun f => negb (ends_at p l f)) figs /\
    ends_at p l (FSeg w0) = true /\ ends_at p l (FSeg w1) = true /\
    skip_pt pin_at manuGrid n p l = false /\ existsb (patch_at p l) figs = false /\
    ((is_vert (FSeg w0) = false /\ is_vert (FSeg w1) = false /\ j = join_h w0 w1) \/
     (is_vert (FSeg w0) = true /\ is_vert (FSeg w1) = true /\ j = join_v w0 w1)).
Proof.
  unfold merge_pt. destruct (skip_pt pin_at manuGrid n p l) eqn:Sk; [now left|]. cbv zeta.
  destruct (existsb (patch_at p l) figs) eqn:Pa; [now left|].
  set (here := filter (ends_at p l) figs). set (rest := filter (fun f => negb (ends_at p l f)) figs).
  assert (Pf : Permutation figs (here ++ rest)) by apply partition_perm.
  assert (Ph : Permutation here (filter is_vert here ++ filter (fun f => negb (is_vert f)) here)) by apply partition_perm.
  assert (He : forall f, In f here -> ends_at p l f = true) by (intros f Hf; apply filter_In in Hf; tauto).
  destruct (filter (fun f => negb (is_vert f)) here) as [|[w0| |] [|[w1| |] [|]]] eqn:Eh; destruct (filter is_vert here) as [|[v0| |] [|[v1| |] [|]]] eqn:Ev; try (now left); right.
  - exists (if swap p l then v1 else v0), (if swap p l then v0 else v1), (if swap p l then join_v v1 v0 else join_v v0 v1), rest.
    assert (I : forall f, In f [FSeg v0; FSeg v1] -> ends_at p l f = true /\ is_vert f = true).
    { intros f Hf. rewrite <- Ev in Hf. apply filter_In in Hf as [Hf Hv]. auto. }
    destruct (I (FSeg v0) ltac:(now left)) as [I1 I2]. destruct (I (FSeg v1) ltac:(right; now left)) as [I3 I4].
    split; [rewrite Pf, Ph; cbn; destruct (swap p l); [apply perm_swap|reflexivity]|]. split; [reflexivity|]. split; [reflexivity|]. destruct (swap p l); repeat (split; [assumption || reflexivity|]); right; auto.
  - exists (if swap p l then w1 else w0), (if swap p l then w0 else w1), (if swap p l then join_h w1 w0 else join_h w0 w1), rest.
    assert (I : forall f, In f [FSeg w0; FSeg w1] -> ends_at p l f = true /\ is_vert f = false).
    { intros f Hf. rewrite <- Eh in Hf. apply filter_In in Hf as [Hf Hv]. split; [auto|]. destruct (is_vert f); [discriminate|reflexivity]. }
    destruct (I (FSeg w0) ltac:(now left)) as [I1 I2]. destruct (I (FSeg w1) ltac:(right; now left)) as [I3 I4].
    split; [rewrite Pf, Ph; cbn; destruct (swap p l); [apply perm_swap|reflexivity]|]. split; [reflexivity|]. split; [reflexivity|]. destruct (swap p l); repeat (split; [assumption || reflexivity|]); left; auto.
Qed.

Lemma join_h_ok w0 w1 p : straight w0 -> straight w1 -> is_vert (FSeg w0) = false -> is_vert (FSeg w1) = false ->
  (wb w0 = p \/ we w0 = p) -> (wb w1 = p \/ we w1 = p) ->
  proper (join_h w0 w1) /\ forall x y, on_line (join_h w0 w1) x y <-> on_line w0 x y \/ on_line w1 x y.
Proof.
  intros P0 P1 V0 V1 E0 E1. unfold straight, is_vert, on_line, join_h, proper in *. cbn [wl wb we ws px py].
  assert (F0 : (px (wb w0) = px p /\ py (wb w0) = py p) \/ (px (we w0) = px p /\ py (we w0) = py p)) by (destruct E0 as [<-|<-]; auto).
  assert (F1 : (px (wb w1) = px p /\ py (wb w1) = py p) \/ (px (we w1) = px p /\ py (we w1) = py p)) by (destruct E1 as [<-|<-]; auto).
  clear E0 E1. split; [lia|]. intros x y. lia.
Qed.
Lemma join_v_ok w0 w1 p : straight w0 -> straight w1 -> is_vert (FSeg w0) = true -> is_vert (FSeg w1) = true ->
  (wb w0 = p \/ we w0 = p) -> (wb w1 = p \/ we w1 = p) ->
  straight (join_v w0 w1) /\ forall x y, on_line (join_v w0 w1) x y <-> on_line w0 x y \/ on_line w1 x y.
Proof.
  intros P0 P1 V0 V1 E0 E1. unfold straight, is_vert, on_line, join_v in *. cbn [wl wb we ws px py].
  assert (F0 : (px (wb w0) = px p /\ py (wb w0) = py p) \/ (px (we w0) = px p /\ py (we w0) = py p)) by (destruct E0 as [<-|<-]; auto).
  assert (F1 : (px (wb w1) = px p /\ py (wb w1) = py p) \/ (px (we w1) = px p /\ py (we w1) = py p)) by (destruct E1 as [<-|<-]; auto).
  clear E0 E1. split; [lia|]. intros x y. lia.
Qed.
Lemma proper_straight w : proper w -> straight w.
Proof. intros [[? ?]|[? ?]]; [left|right]; lia. Qed.

Lemma merge_pt_ok n figs q : Forall fig_straight figs ->
  Forall fig_straight (mpt n figs q) /\ (forall l x y, lines (mpt n figs q) l x y <-> lines figs l x y) /\
  filter not_wire (mpt n figs q) = filter not_wire figs.
Proof.
  destruct q as [p l]. intros F. destruct (merge_pt_cases n figs p l) as [-> |(w0 & w1 & j & rest & Pm & -> & Hr & E0 & E1 & _ & _ & K)]; [split; [exact F|]; split; [intros; reflexivity|reflexivity]|].
  assert (Ff : forall f, In f figs -> fig_straight f) by (apply Forall_forall; exact F).
  assert (S0 : straight w0) by (apply (Ff (FSeg w0)); symmetry in Pm; apply (Permutation_in _ Pm); now left).
  assert (S1 : straight w1) by (apply (Ff (FSeg w1)); symmetry in Pm; apply (Permutation_in _ Pm); right; now left).
  apply ends_at_only in E0 as [L0 E0]. apply ends_at_only in E1 as [L1 E1].
  assert (J : straight j /\ (forall x y, on_line j x y <-> on_line w0 x y \/ on_line w1 x y) /\ wl j = l).
  { destruct K as [(V0 & V1 & ->)|(V0 & V1 & ->)].
    - destruct (join_h_ok w0 w1 p S0 S1 V0 V1 E0 E1) as [A B]. split; [apply proper_straight, A|]. split; [exact B|exact L0].
    - destruct (join_v_ok w0 w1 p S0 S1 V0 V1 E0 E1) as [A B]. split; [exact A|]. split; [exact B|exact L0]. }
  destruct J as (J1 & J2 & J3).
  assert (Ir : forall f, In f rest -> In f figs) by (intros f Hf; symmetry in Pm; apply (Permutation_in _ Pm); right; right; exact Hf).
  split; [|split].
  - apply Forall_app. split; [apply Forall_forall; auto|]. constructor; [exact J1|constructor].
  - intros l' x y. unfold lines. split.
    + intros (w & Hw & Lw & O). apply in_app_or in Hw as [Hw|[Hw|[]]].
      * exists w. auto.
      * injection Hw as <-. apply J2 in O as [O|O].
        -- exists w0. split; [symmetry in Pm; apply (Permutation_in _ Pm); now left|]. split; [congruence|exact O].
        -- exists w1. split; [symmetry in Pm; apply (Permutation_in _ Pm); right; now left|]. split; [congruence|exact O].
    + intros (w & Hw & Lw & O). apply (Permutation_in _ Pm) in Hw as [Hw|[Hw|Hw]].
      * injection Hw as <-. exists j. split; [apply in_or_app; right; now left|]. split; [congruence|]. apply J2. auto.
      * injection Hw as <-. exists j. split; [apply in_or_app; right; now left|]. split; [congruence|]. apply J2. auto.
      * exists w. split; [apply in_or_app; now left|auto].
  - rewrite filter_app. cbn. rewrite app_nil_r. subst rest. clear. induction figs as [|f r IH]; [reflexivity|]. cbn [filter].
    destruct f as [w|o l1 l2 d|o l' off]; cbn [ends_at negb]; [|cbn; now rewrite IH|cbn; now rewrite IH].
    destruct (negb ((wl w =? l) && box_contains_pt (seg_box w) p true && (pt_eq (wb w) p || pt_eq (we w) p))); cbn; exact IH.
Qed.
Lemma merge_net_ok n pts : forall figs, Forall fig_straight figs ->
  Forall fig_straight (merge_net pin_at manuGrid swap n figs pts) /\
  (forall l x y, lines (merge_net pin_at manuGrid swap n figs pts) l x y <-> lines figs l x y) /\
  filter not_wire (merge_net pin_at manuGrid swap n figs pts) = filter not_wire figs.
Proof.
  unfold merge_net. induction pts as [|q r IH]; intros figs F; cbn [fold_left]; [split; [exact F|]; split; [intros; reflexivity|reflexivity]|].
  destruct (merge_pt_ok n figs q F) as (F1 & L1 & V1). destruct (IH _ F1) as (F2 & L2 & V2).
  split; [exact F2|]. split; [intros; rewrite L2; apply L1|congruence].
Qed.

(* two wires meeting end to end, alone at the point *)
Lemma joins a c p : end_to_end a c p -> sWid (ws a) = sWid (ws c) ->
  if px (wb a) =? px (we a) then join_v a c = joined a c /\ join_v c a = joined a c
  else join_h a c = joined a c /\ join_h c a = joined a c.
Proof.
  intros (E1 & E2 & El & Pa & Pc & D) W. destruct a as [l [ax ay] [ax' ay'] [sa xa ta ya wa]], c as [l' [cx cy] [cx' cy'] [sc xc tc yc wc]].
  unfold proper in *. cbn in *. subst l' wc. subst p. injection E2 as -> ->. unfold join_v, join_h, joined, set_begin, set_end. cbn.
  destruct (ax =? ax') eqn:Ex.
  - assert (ax = ax') by lia. assert (cx' = ax') by lia. subst ax cx'.
    destruct (ay <? ay') eqn:A; [|exfalso; lia]. destruct (ay' <? ay) eqn:B; [exfalso; lia|].
    rewrite (Z.min_l ay ay'), (Z.max_r ay' cy'), (Z.min_r ay' ay), (Z.max_l cy' ay') by lia. auto.
  - assert (ay = ay') by lia. assert (cy' = ay') by lia. subst ay cy'.
    destruct (ax <? ax') eqn:A; [|exfalso; lia]. destruct (ax' <? ax) eqn:B; [exfalso; lia|].
    rewrite (Z.min_l ax ax'), (Z.max_r ax' cx'), (Z.min_r ax' ax), (Z.max_l cx' ax') by lia. auto.
Qed.
Lemma e2e_same_dir a c p : end_to_end a c p -> is_vert (FSeg c) = is_vert (FSeg a).
Proof. intros (E1 & E2 & El & Pa & Pc & D). unfold proper in *. cbn. destruct D as [[D1 D2]|[D1 D2]]; lia. Qed.
Lemma merge_two n figs a c p l rest : Permutation figs (FSeg a :: FSeg c :: rest) ->
  end_to_end a c p -> wl a = l -> sWid (ws a) = sWid (ws c) -> style_ok a -> style_ok c ->
  (forall f, In f rest -> ends_at p l f = false) -> (forall f, In f rest -> patch_at p l f = false) ->
  skip_pt pin_at manuGrid n p l = false ->
  Permutation (mpt n figs (p, l)) (FSeg (joined a c) :: rest).
Proof.
  intros Pm E L W Sa Sc Nr Np Sk.
  assert (Ea : ends_at p l (FSeg a) = true) by (apply ends_at_ok; [apply proper_straight; apply E|exact Sa|]; split; [exact L|right; apply E]).
  assert (Ec : ends_at p l (FSeg c) = true) by (apply ends_at_ok; [apply proper_straight; apply E|exact Sc|]; split; [destruct E as (_ & _ & El & _); congruence|left; apply E]).
  assert (Ph : Permutation [FSeg a; FSeg c] (filter (ends_at p l) figs)).
  { rewrite (filter_perm _ _ _ Pm). cbn [filter]. rewrite Ea, Ec, (filter_none _ rest Nr). reflexivity. }
  assert (Pr : Permutation (filter (fun f => negb (ends_at p l f)) figs) rest).
  { rewrite (filter_perm _ _ _ Pm). cbn [filter]. rewrite Ea, Ec. cbn [negb]. rewrite filter_all; [reflexivity|]. intros f Hf. rewrite Nr by exact Hf. reflexivity. }
  assert (Pp : existsb (patch_at p l) figs = false).
  { rewrite (existsb_perm _ _ _ Pm). cbn. destruct (existsb (patch_at p l) rest) eqn:X; [|reflexivity]. apply existsb_exists in X as (f & Hf & Ff). rewrite Np in Ff by exact Hf. discriminate. }
  unfold merge_pt. rewrite Sk, Pp. cbv zeta.
  assert (J := joins a c p E W). assert (V := e2e_same_dir a c p E).
  assert (G : forall j, Permutation (filter (fun f => negb (ends_at p l f)) figs ++ [FSeg j]) (FSeg j :: rest)).
  { intros j. rewrite Pr. symmetry. apply Permutation_cons_append. }
  apply Permutation_length_2_inv in Ph as [-> | ->]; cbn [filter]; rewrite V; cbn [is_vert] in *;
    destruct (px (wb a) =? px (we a)); cbn [negb]; destruct J as [J1 J2]; destruct (swap p l); rewrite ?J1, ?J2; apply G.
Qed.
End M.
