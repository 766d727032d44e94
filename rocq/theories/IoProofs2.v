(* Loading a clip and writing it back keeps wires of default width and standard ends; vias defined in DEF. *)
From Verif Require Import Base GeomModel GeomSpec ClipModel ClipSpec IoModel IoSpec.
From Coq Require Import Permutation String.
From Coq Require Import List.
Open Scope list_scope.

Ltac fc := repeat (apply Forall_cons || apply Forall_nil).

Section S.
Variable lw : Z -> Z.

Lemma std_set_end l p q s : standard lw (mkW l p q s) -> forall p' q', standard lw (mkW l p' q' (set_end s StExtend (Z.quot (lw l) 2))).
Proof. intros (A & B & C) p' q'. split; [exact A|]. split; [exact B|]. reflexivity. Qed.
Lemma std_set_begin l p q s : standard lw (mkW l p q s) -> forall p' q', standard lw (mkW l p' q' (set_begin s StExtend (Z.quot (lw l) 2))).
Proof. intros (A & B & C) p' q'. split; [exact A|]. split; [reflexivity|]. exact C. Qed.
Lemma std_move l p q s : standard lw (mkW l p q s) -> forall p' q', standard lw (mkW l p' q' s).
Proof. intros (A & B & C) p' q'. split; [exact A|]. split; assumption. Qed.

Lemma load_std isInit b w : standard lw w -> Forall (fun x => standard lw (snd x)) (load_seg isInit b lw w).
Proof.
  destruct w as [l p q s]. intros S. unfold load_seg, half. cbn [wl wb we ws].
  pose proof (std_set_end _ _ _ _ S) as SE. pose proof (std_set_begin _ _ _ _ S) as SB. pose proof (std_move _ _ _ _ S) as SM.
  assert (SBE : forall p' q', standard lw (mkW l p' q' (set_end (set_begin s StExtend (Z.quot (lw l) 2)) StExtend (Z.quot (lw l) 2)))) by (intros; exact (std_set_end _ _ _ _ (SB p q) p' q')).
  destruct (px p =? px q); [|destruct (py p =? py q); [|constructor]].
  - destruct ((bleft b <=? px p) && _); [|fc; exact S].
    repeat (apply Forall_app; split); repeat match goal with |- context [if ?c then _ else _] => destruct c end; fc; cbn [snd]; auto.
  - destruct ((bbottom b <=? py p) && _); [|fc; exact S].
    repeat (apply Forall_app; split); repeat match goal with |- context [if ?c then _ else _] => destruct c end; fc; cbn [snd]; auto.
Qed.
Lemma load_fig_std isInit b f : fig_std lw f -> forall s g, In (s, g) (load_fig isInit b lw f) -> fig_std lw g.
Proof.
  destruct f as [w|o l1 l2 d|o l off]; cbn [load_fig]; intros S s g.
  - rewrite in_map_iff. intros (x & E & I). inversion E; subst. cbn.
    pose proof (load_std isInit b w S) as F. rewrite Forall_forall in F. specialize (F x I).
    unfold final_side. destruct (fst x); [|exact F]. destruct (_ && _); exact F.
  - intros [E|[]]. inversion E; subst. exact I.
  - intros [E|[]]. inversion E; subst. exact I.
Qed.
Lemma remove_std isInit b w : standard lw w -> Forall (standard lw) (fst (remove_seg isInit b lw w)).
Proof.
  destruct w as [l p q s]. intros S. unfold remove_seg, half. cbn [wl wb we ws].
  pose proof (std_set_end _ _ _ _ S) as SE. pose proof (std_set_begin _ _ _ _ S) as SB. pose proof (std_move _ _ _ _ S) as SM.
  destruct (px p =? px q); [|destruct (py p =? py q); [|fc; exact S]].
  - destruct ((bleft b <=? px p) && _ && _); [|fc; exact S]. cbv zeta. cbn [fst].
    apply Forall_app; split; repeat match goal with |- context [if ?c then _ else _] => destruct c end; cbn [fst]; fc; auto.
  - destruct ((bbottom b <=? py p) && _ && _); [|fc; exact S]. cbv zeta. cbn [fst].
    apply Forall_app; split; repeat match goal with |- context [if ?c then _ else _] => destruct c end; cbn [fst]; fc; auto.
Qed.
Lemma remove_fig_std isInit b f : fig_std lw f -> Forall (fig_std lw) (fst (remove_fig isInit b lw f)).
Proof.
  destruct f as [w|o l1 l2 d|o l off]; cbn [remove_fig fst]; intros S.
  - pose proof (remove_std isInit b w S) as F. induction F; cbn; constructor; assumption.
  - destruct (origin_in isInit b o); repeat constructor.
  - destruct (origin_in isInit b o); repeat constructor.
Qed.
Lemma join_std w0 w1 : standard lw w0 -> standard lw w1 -> wl w0 = wl w1 -> standard lw (join_h w0 w1) /\ standard lw (join_v w0 w1).
Proof.
  intros (A & B & C) (A1 & B1 & C1) E. rewrite <- E in *. unfold join_h, join_v, standard.
  split; cbn [wl ws]; destruct (_ <? _); cbn [set_end set_begin sWid bSty bExt eSty eExt]; tauto.
Qed.
Lemma ends_at_layer p l f : ends_at p l f = true -> exists w, f = FSeg w /\ wl w = l.
Proof. destruct f as [w| |]; cbn; try discriminate. intros H. exists w. split; [reflexivity|lia]. Qed.
Lemma Forall_filter {A} (P : A -> Prop) g l : Forall P l -> Forall P (filter g l).
Proof. induction 1; cbn; [constructor|]. destruct (g x); [constructor|]; assumption. Qed.

Lemma merge_pt_std pin_at manuGrid swap n figs pl : Forall (fig_std lw) figs -> Forall (fig_std lw) (merge_pt pin_at manuGrid swap n figs pl).
Proof.
  intros F. destruct pl as [p l]. unfold merge_pt. destruct (skip_pt _ _ _ _ _); [exact F|].
  set (here := filter (ends_at p l) figs). set (rest := filter _ figs).
  assert (Fr : Forall (fig_std lw) rest) by (apply Forall_filter; exact F).
  assert (Hh : forall g, In g here -> fig_std lw g /\ exists w, g = FSeg w /\ wl w = l).
  { intros g I. unfold here in I. apply filter_In in I. destruct I as (I & E). rewrite Forall_forall in F. split; [apply F; exact I|]. apply (ends_at_layer _ _ _ E). }
  assert (J : forall w0 w1, In (FSeg w0) here -> In (FSeg w1) here -> standard lw w0 /\ standard lw w1 /\ wl w0 = wl w1).
  { intros w0 w1 I0 I1. destruct (Hh _ I0) as (S0 & v0 & E0 & L0). destruct (Hh _ I1) as (S1 & v1 & E1 & L1). inversion E0; inversion E1; subst v0 v1. repeat split; try apply S0; try apply S1. congruence. }
  assert (Q : forall k w0 w1, [FSeg w0; FSeg w1] = filter k here -> standard lw w0 /\ standard lw w1 /\ wl w0 = wl w1).
  { intros k w0 w1 E. apply J; eapply proj1; apply (filter_In k); rewrite <- E; cbn; tauto. }
  destruct (existsb _ figs); [exact F|].
  destruct (filter (fun f => negb (is_vert f)) here) as [|h0 [|h1 [|h2 hs]]] eqn:EH;
    destruct (filter is_vert here) as [|v0 [|v1 [|v2 vs]]] eqn:EV; try exact F;
    try (destruct h0; exact F); try (destruct h0; try exact F; destruct h1; exact F);
    try (destruct v0; exact F); try (destruct v0; try exact F; destruct v1; exact F).
  - destruct v0 as [v0| |]; try exact F. destruct v1 as [v1| |]; try exact F.
    destruct (Q _ _ _ (eq_sym EV)) as (A & B & C). apply Forall_app. split; [exact Fr|]. fc; cbn; destruct (swap p l); apply join_std; auto.
  - destruct h0 as [h0| |]; try exact F. destruct h1 as [h1| |]; try exact F.
    destruct (Q _ _ _ (eq_sym EH)) as (A & B & C). apply Forall_app. split; [exact Fr|]. fc; cbn; destruct (swap p l); apply join_std; auto.
Qed.
Lemma merge_net_std pin_at manuGrid swap n pts : forall figs, Forall (fig_std lw) figs -> Forall (fig_std lw) (merge_net pin_at manuGrid swap n figs pts).
Proof. unfold merge_net. induction pts as [|a r IH]; intros figs F; [exact F|]. cbn. apply IH, merge_pt_std, F. Qed.

Definition db_std (d : db) : Prop := Forall (fun x => fig_std lw (snd x)) d.
Lemma figs_of_std n d : db_std d -> Forall (fig_std lw) (figs_of n d).
Proof. intros F. unfold figs_of. apply Forall_map. apply Forall_filter. exact F. Qed.
Lemma merge_db_std pin_at manuGrid swap pts n d : db_std d -> db_std (merge_db pin_at manuGrid swap pts d n).
Proof.
  intros F. unfold merge_db. apply Forall_app. split; [apply Forall_filter; exact F|].
  apply Forall_map. cbn [snd]. apply merge_net_std, figs_of_std, F.
Qed.
Lemma write_back_std isInit b pin_at manuGrid swap found subs d : db_std d -> (forall s, In s subs -> Forall (fig_std lw) (sn_best s)) ->
  db_std (write_back isInit b lw pin_at manuGrid swap found subs d).
Proof.
  intros F B. unfold write_back.
  assert (G : db_std (removed_from isInit b lw found subs d ++ added subs)).
  { apply Forall_app. split.
    - unfold removed_from. apply Forall_flat_map. eapply Forall_impl; [|exact F]. intros [n f] S. cbn [fst snd] in *.
      destruct (found f && mod_net subs n); [|fc; exact S]. apply Forall_map. cbn [snd]. apply remove_fig_std, S.
    - unfold added. apply Forall_flat_map. rewrite Forall_forall. intros s I. destruct (mod_net subs (sn_net s)); [|constructor]. apply Forall_map. cbn [snd]. apply B, I. }
  revert G. generalize (removed_from isInit b lw found subs d ++ added subs). generalize (bound_pts isInit b lw found subs d) as pts.
  induction (nodup Z.eq_dec (map sn_net (filter sn_mod subs))) as [|n r IH]; intros pts d' G; [exact G|]. cbn. apply IH, merge_db_std, G.
Qed.
End S.

(* ---- vias made from a rule *)
Lemma nth_flat {A} (f : nat -> nat -> A) cols : forall rows r0 i j, (i < rows)%nat -> (j < cols)%nat ->
  nth_error (flat_map (fun i => map (f i) (seq 0 cols)) (seq r0 rows)) (i * cols + j) = Some (f (r0 + i)%nat j).
Proof.
  induction rows as [|rows IH]; intros r0 i j Hi Hj; [lia|]. cbn [seq flat_map].
  destruct i as [|i].
  - rewrite nth_error_app1 by (rewrite map_length, seq_length; lia). cbn [Nat.mul Nat.add].
    rewrite Nat.add_0_r. apply map_nth_error. rewrite <- (Nat.add_0_l j) at 2. 
    rewrite (nth_error_nth' _ 0%nat) by (rewrite seq_length; lia). rewrite seq_nth by lia. reflexivity.
  - rewrite nth_error_app2 by (rewrite map_length, seq_length; lia). rewrite map_length, seq_length.
    replace (S i * cols + j - cols)%nat with (i * cols + j)%nat by lia. rewrite IH by lia. f_equal. f_equal. lia.
Qed.
Lemma len_flat {A} (f : nat -> nat -> A) cols rows : forall r0,
  List.length (flat_map (fun i => map (f i) (seq 0 cols)) (seq r0 rows)) = (rows * cols)%nat.
Proof. induction rows as [|rows IH]; intros r0; [reflexivity|]. cbn [seq flat_map]. rewrite app_length, map_length, seq_length, IH. reflexivity. Qed.

Lemma shift_box x1 y1 x2 y2 dx dy : x1 <= x2 -> y1 <= y2 ->
  let c := shift (box_set x1 y1 x2 y2) dx dy in bleft c = x1 + dx /\ bright c = x2 + dx /\ bbottom c = y1 + dy /\ btop c = y2 + dy.
Proof.
  intros X Y. cbv zeta. unfold shift, box_transform, box_of_pts, box_set, pt_transform, bleft, bright, bbottom, btop.
  cbn [ori xo yo px py ll ur]. repeat (destruct (_ >? _) eqn:? at 1; cbn [px py ll ur]; try lia). 
  all: zcases; lia.
Qed.
Lemma quot2 w : -1 <= 2 * Z.quot (- w) 2 + w <= 1.
Proof. rewrite Z.quot_opp_l by lia. pose proof (Z.quot_rem' w 2). pose proof (Z.rem_bound_abs w 2). lia. Qed.

Lemma rule_ok r : (1 <= r_rows r)%nat -> (1 <= r_cols r)%nat -> 0 <= r_xs r -> 0 <= r_ys r -> 0 <= r_xc r -> 0 <= r_yc r ->
  0 <= r_bx r -> 0 <= r_by r -> 0 <= r_tx r -> 0 <= r_ty r ->
  let w := Z.of_nat (r_cols r) * r_xs r + (Z.of_nat (r_cols r) - 1) * r_xc r in
  let h := Z.of_nat (r_rows r) * r_ys r + (Z.of_nat (r_rows r) - 1) * r_yc r in
  let '(bot, cuts, top) := rule_via r in
  exists x0 y0, centred x0 w (r_ox r) /\ centred y0 h (r_oy r) /\
    cut_grid (r_rows r) (r_cols r) (r_xs r) (r_ys r) (r_xc r) (r_yc r) x0 y0 cuts /\
    encloses bot x0 y0 w h (r_bx r) (r_by r) (r_box r) (r_boy r) /\
    encloses top x0 y0 w h (r_tx r) (r_ty r) (r_tox r) (r_toy r).
Proof.
  intros R C X Y XC YC BX BY TX TY w h. unfold rule_via.
  assert (Ew : rule_w r = w) by (unfold rule_w, w; destruct (Nat.eqb_spec (r_rows r) 0); lia).
  assert (Eh : rule_h r = h) by (unfold rule_h, h; lia).
  assert (W0 : 0 <= w) by (unfold w; nia). assert (H0 : 0 <= h) by (unfold h; nia).
  rewrite Ew, Eh. cbv zeta.
  exists (Z.quot (- w) 2 + r_ox r), (Z.quot (- h) 2 + r_oy r).
  split; [unfold centred; pose proof (quot2 w); lia|]. split; [unfold centred; pose proof (quot2 h); lia|].
  split; [|split].
  - split; [rewrite map_length; unfold rule_cuts; apply len_flat|].
    intros i j Hi Hj. eexists. split.
    + apply map_nth_error. unfold rule_cuts.
      apply (nth_flat (fun i j => let x := Z.of_nat j * (r_xs r + r_xc r) in let y := Z.of_nat i * (r_ys r + r_yc r) in box_set x y (x + r_xs r) (y + r_ys r))); assumption.
    + cbv zeta. cbn [Nat.add].
      pose proof (shift_box (Z.of_nat j * (r_xs r + r_xc r)) (Z.of_nat i * (r_ys r + r_yc r)) (Z.of_nat j * (r_xs r + r_xc r) + r_xs r) (Z.of_nat i * (r_ys r + r_yc r) + r_ys r) (Z.quot (- w) 2 + r_ox r) (Z.quot (- h) 2 + r_oy r)) as P.
      cbv zeta in P. destruct P as (P1 & P2 & P3 & P4); [lia|lia|]. rewrite P1, P2, P3, P4. repeat split; ring.
  - pose proof (shift_box (0 - r_bx r) (0 - r_by r) (w + r_bx r) (h + r_by r) (Z.quot (- w) 2 + r_ox r + r_box r) (Z.quot (- h) 2 + r_oy r + r_boy r)) as P.
    cbv zeta in P. destruct P as (P1 & P2 & P3 & P4); [lia|lia|]. unfold encloses. rewrite P1, P2, P3, P4. repeat split; ring.
  - pose proof (shift_box (0 - r_tx r) (0 - r_ty r) (w + r_tx r) (h + r_ty r) (Z.quot (- w) 2 + r_ox r + r_tox r) (Z.quot (- h) 2 + r_oy r + r_toy r)) as P.
    cbv zeta in P. destruct P as (P1 & P2 & P3 & P4); [lia|lia|]. unfold encloses. rewrite P1, P2, P3, P4. repeat split; ring.
Qed.

(* ---- vias given by rectangles *)
Fixpoint increasing (s : list Z) : Prop := match s with [] => True | a :: r => (forall x, In x r -> a < x) /\ increasing r end.
Lemma zins_in a s x : In x (zins a s) <-> x = a \/ In x s.
Proof.
  induction s as [|c r IH]; cbn [zins In]; [intuition congruence|].
  destruct (a <? c) eqn:A; [cbn; intuition congruence|]. destruct (c <? a) eqn:B; cbn; [rewrite IH; tauto|].
  assert (a = c) by lia. subst. intuition congruence.
Qed.
Lemma zins_inc a s : increasing s -> increasing (zins a s).
Proof.
  induction s as [|c r IH]; cbn [zins increasing]; [cbn [In]; tauto|]. intros (Hc & I).
  destruct (a <? c) eqn:A; [cbn [increasing In]; split; [|split; assumption]; intros x [<-|J]; [lia|]; specialize (Hc _ J); lia|].
  destruct (c <? a) eqn:B; cbn [increasing]; [|split; assumption]. split; [|apply IH, I].
  intros x J. apply zins_in in J. destruct J as [-> | J]; [lia|apply Hc, J].
Qed.
Lemma layers_of rs : forall s, increasing s ->
  increasing (fold_left (fun s (x : Z * box) => zins (fst x) s) rs s) /\
  forall x, In x (fold_left (fun s (x : Z * box) => zins (fst x) s) rs s) <-> In x s \/ In x (map fst rs).
Proof.
  induction rs as [|a r IH]; intros s Hs; cbn [fold_left map In]; [split; [exact Hs|tauto]|].
  destruct (IH (zins (fst a) s) (zins_inc _ _ Hs)) as (A & B). split; [exact A|]. intros x. rewrite B, zins_in. intuition congruence.
Qed.
Definition known (lnum : string -> option Z) (x : string * box) (y : Z * box) : Prop := lnum (fst x) = Some (fst y) /\ snd x = snd y.
Lemma known_ok lnum rs : match known_rects lnum rs with
  | Some t => Forall2 (known lnum) rs t
  | None => exists s b, In (s, b) rs /\ lnum s = None end.
Proof.
  induction rs as [|[s b] r IH]; cbn; [constructor|]. destruct (lnum s) as [l|] eqn:E; [|exists s, b; tauto].
  destruct (known_rects lnum r); [constructor; [split; [exact E|reflexivity]|exact IH]|].
  destruct IH as (s' & b' & I & N). exists s', b'. tauto.
Qed.
Lemma three_in (x a c e : Z) : In x [a; c; e] <-> x = a \/ x = c \/ x = e.
Proof. cbn. intuition congruence. Qed.
Lemma inc3 s l : increasing s -> (forall x, In x s <-> l <= x <= l + 2) -> s = [l; l + 1; l + 2].
Proof.
  intros I H. destruct s as [|a s]; [exfalso; apply (H l); lia|]. destruct I as (Ia & I).
  assert (a = l). { assert (l <= a <= l + 2) by (apply H; left; reflexivity). assert (In l (a :: s)) as [-> | J] by (apply H; lia); [reflexivity|]. specialize (Ia _ J). lia. } subst a.
  destruct s as [|a s]; [assert (In (l + 1) [l]) as [J|[]] by (apply H; lia); lia|]. destruct I as (Ib & I).
  assert (a = l + 1).
  { assert (l < a) by (apply Ia; left; reflexivity). assert (In (l + 1) (l :: a :: s)) as [J|[J|J]] by (apply H; lia); [lia|lia|]. specialize (Ib _ J). lia. } subst a.
  destruct s as [|a s]; [assert (In (l + 2) [l; l + 1]) as [J|[J|[]]] by (apply H; lia); lia|]. destruct I as (Ic & I).
  assert (a = l + 2).
  { assert (l + 1 < a) by (apply Ib; left; reflexivity). assert (l <= a <= l + 2) by (apply H; cbn; tauto). lia. } subst a.
  destruct s as [|a s]; [reflexivity|]. assert (l + 2 < a) by (apply Ic; left; reflexivity). assert (l <= a <= l + 2) by (apply H; cbn; tauto). lia.
Qed.

Lemma rect_via_ok lnum rs l bot cut top :
  rect_via lnum rs = VOk l bot cut top <->
  exists ts, Forall2 (known lnum) rs ts /\ (forall x, In x (map fst ts) <-> l <= x <= l + 2) /\
    bot = map snd (filter (fun x => fst x =? l) ts) /\ cut = map snd (filter (fun x => fst x =? l + 1) ts) /\
    top = map snd (filter (fun x => fst x =? l + 2) ts).
Proof.
  unfold rect_via. pose proof (known_ok lnum rs) as K. destruct (known_rects lnum rs) as [t|].
  - destruct (layers_of t [] I) as (A & B).
    assert (U : forall ts, Forall2 (known lnum) rs ts -> ts = t).
    { clear - K. revert t K. induction rs as [|a r IH]; intros t K ts H; inversion K; inversion H; subst; [reflexivity|].
      f_equal; [|apply IH; assumption]. destruct a as [s b], y as [l1 b1], y0 as [l2 b2]. unfold known in *. cbn [fst snd] in *.
      repeat match goal with E : _ /\ _ |- _ => destruct E end. congruence. }
    set (f := fold_left _ t []) in *. split.
    + destruct f as [|a [|c [|e [|e' f]]]]; try discriminate. destruct (a + 2 =? e) eqn:E; cbn [negb]; [|discriminate].
      intros Q. inversion Q; subst. exists t. split; [exact K|]. cbn [increasing In] in A. destruct A as (A1 & A2 & A3).
      assert (l < c) by (apply A1; tauto). assert (c < e) by (apply A2; tauto).
      split; [|unfold on_layer; replace (l + 1) with c by lia; replace (l + 2) with e by lia; tauto].
      intros x. specialize (B x). rewrite three_in in B. cbn [In] in B. split; [intros J; assert (x = l \/ x = c \/ x = e) by tauto; lia|].
      intros J. assert (x = l \/ x = c \/ x = e) by lia. tauto.
    + intros (ts & F & L & -> & -> & ->). rewrite (U _ F) in *.
      rewrite (inc3 f l A). { replace (l + 2 =? l + 2) with true by lia. reflexivity. }
      intros x. rewrite B, L. cbn. tauto.
  - split; [discriminate|]. intros (ts & F & _). exfalso. destruct K as (s & b & J & N). clear -F J N.
    induction F as [|a c r t (E & _) F IH]; [exact J|]. destruct J as [-> | J]; [cbn in E; congruence|apply IH, J].
Qed.
Lemma rect_via_skip lnum rs : rect_via lnum rs = VSkip <-> exists s b, In (s, b) rs /\ lnum s = None.
Proof.
  unfold rect_via. pose proof (known_ok lnum rs) as K. destruct (known_rects lnum rs) as [t|]; [|tauto].
  split.
  - destruct (fold_left _ t []) as [|a [|c [|e [|e' f]]]]; try discriminate. destruct (negb _); discriminate.
  - intros (s & b & J & N). exfalso. induction K as [|a c r t (E & _) F IH]; [exact J|]. destruct J as [-> | J]; [cbn in E; congruence|apply IH, J].
Qed.
