(* genGuides_split: the pieces lie on the covered gcells, and connected gcells give connected pieces. *)
From Verif Require Import Base Stl GeomModel GCellModel MazeModel TreeModel ConnModel ConnProofs3 ConnProofs4 ConnProofs5 GuideModel GuideSpec GuideProofs1 GuideProofs2 GuideProofs3.

Lemma zs_ins_in x s : forall y, In y (zs_ins x s) <-> y = x \/ In y s.
Proof.
  induction s as [|a s IH]; intros y; cbn [zs_ins In]; [intuition|].
  destruct (x <? a); [cbn [In]; intuition|]. destruct (x =? a) eqn:E; [|cbn [In]; rewrite IH; intuition]. assert (x = a) by lia. subst. cbn [In]. intuition.
Qed.
Lemma zs_ins_sorted x s : sorted_lt s -> sorted_lt (zs_ins x s).
Proof.
  induction s as [|a s IH]; intros H; cbn [zs_ins].
  - apply sorted_lt_cons; [intros y []|apply sorted_lt_nil].
  - destruct (x <? a) eqn:E1.
    + apply sorted_lt_cons; [|assumption]. intros y [<-|Hy]; [lia|]. pose proof (sorted_lt_head _ _ y H Hy). lia.
    + destruct (x =? a) eqn:E2; [assumption|]. apply sorted_lt_cons; [|apply IH; eapply sorted_lt_tail; eauto]. intros y Hy. apply zs_ins_in in Hy as [->|Hy]; [lia|]. apply (sorted_lt_head _ _ y H Hy).
Qed.

Section Split.
Variable nlay : Z.
Variable horz : Z -> bool.
Variable va : Z.
Hypothesis alt : alternating horz.
Variable v : intvs.
Hypothesis vok : iv_ok v.
Variable pins : list (list loc).
Notation nbr := (nbr nlay).
Notation piece := (piece horz).
Definition cell (l t c : Z) : loc := (cell_at horz l t c, l).

Lemma track_cell l t c : track_of horz l (cell_at horz l t c) = t.
Proof. unfold track_of, cell_at. destruct (horz l); reflexivity. Qed.
Lemma pos_cell l t c : pos_of horz l (cell_at horz l t c) = c.
Proof. unfold pos_of, cell_at. destruct (horz l); reflexivity. Qed.
Lemma cell_back k : cell (snd k) (track_of horz (snd k) (fst k)) (pos_of horz (snd k) (fst k)) = k.
Proof. destruct k as [[x y] l]. unfold cell, cell_at, track_of, pos_of. cbn [fst snd px py]. destruct (horz l); reflexivity. Qed.
Lemma cell_inj l t c l' t' c' : cell l t c = cell l' t' c' -> l = l' /\ t = t' /\ c = c'.
Proof.
  unfold cell. intros E. injection E as E <-. split; [reflexivity|].
  pose proof (f_equal (track_of horz l) E) as E1. pose proof (f_equal (pos_of horz l) E) as E2. rewrite !track_cell in E1. rewrite !pos_cell in E2. auto.
Qed.
Lemma covered_cell l t c : covered horz v (cell l t c) <-> iv_has v l t c.
Proof. rewrite covered_has. unfold cell. cbn [fst snd]. rewrite track_cell, pos_cell. reflexivity. Qed.
Lemma cell_nbr l l' t c : nbr l l' -> cell_at horz l' c t = cell_at horz l t c.
Proof.
  intros [[-> | ->] _]; unfold cell_at.
  - rewrite alt. destruct (horz l); reflexivity.
  - pose proof (alt (l - 2)) as E. replace (l - 2 + 2) with l in E by lia. rewrite E. destruct (horz (l - 2)); reflexivity.
Qed.

(* positions at which a track is cut *)
Definition key (l t c : Z) : Prop := (exists l', nbr l l' /\ iv_has v l' c t) \/ (exists q, pin_cells pins q (cell l t c)).
Lemma crossings_in l' t b e c : In c (crossings v l' t b e) <-> b <= c <= e /\ iv_has v l' c t.
Proof.
  unfold crossings, iv_has, tm_has. rewrite in_map_iff. split.
  - intros ([c' s] & <- & H). apply filter_In in H as [H E]. cbn [fst snd] in *. apply andb_prop in E as [E1 E2]. apply is_has_iff in E2. split; [lia|eauto].
  - intros (Hc & s & Hi & Hh). exists (c, s). split; [reflexivity|]. apply filter_In. split; [assumption|]. cbn [fst snd]. apply is_has_iff in Hh. rewrite Hh. lia.
Qed.
Lemma pin_pos_in l t b e c : In c (pin_pos horz pins l t b e) <-> b <= c <= e /\ exists q, pin_cells pins q (cell l t c).
Proof.
  unfold pin_pos. rewrite in_map_iff. split.
  - intros (k & <- & H). apply filter_In in H as [H E]. apply in_concat in H as (s & Hs & Hk). apply In_nth_error in Hs as (q & Hq).
    split; [lia|]. exists q, s. split; [assumption|]. replace t with (track_of horz l (fst k)) by lia. replace l with (snd k) by lia. rewrite cell_back. assumption.
  - intros (Hc & q & s & Hs & Hk). exists (cell l t c). unfold cell at 1. cbn [fst]. rewrite pos_cell. split; [reflexivity|]. apply filter_In. split; [apply in_concat; exists s; split; [eapply nth_error_In; eauto|assumption]|].
    unfold cell. cbn [fst snd]. rewrite track_cell, pos_cell. lia.
Qed.
Lemma line_idx_in l t b e c : 0 <= l < nlay -> In c (line_idx nlay horz v pins l t b e) <-> b <= c <= e /\ key l t c.
Proof.
  intros Hl. unfold line_idx.
  assert (F : forall L s, In c (fold_left (fun s x => zs_ins x s) L s) <-> In c L \/ In c s).
  { induction L as [|a L IH]; intros s; cbn [fold_left In]; [tauto|]. rewrite IH, zs_ins_in. intuition. }
  rewrite F, !in_app_iff, pin_pos_in. unfold key, GuideProofs2.nbr. split.
  - intros [[H|[H|H]]|[]].
    + destruct (0 <=? l - 2) eqn:E; [|destruct H]. apply crossings_in in H as [Hc H]. split; [assumption|]. left. exists (l - 2). split; [lia|assumption].
    + destruct (l + 2 <? nlay) eqn:E; [|destruct H]. apply crossings_in in H as [Hc H]. split; [assumption|]. left. exists (l + 2). split; [lia|assumption].
    + tauto.
  - intros (Hc & [(l' & [[-> | ->] Hr] & H)|H]).
    + left. right. left. replace (l + 2 <? nlay) with true by lia. apply crossings_in. auto.
    + left. left. replace (0 <=? l - 2) with true by lia. apply crossings_in. auto.
    + left. right. right. auto.
Qed.
Lemma line_idx_sorted l t b e : sorted_lt (line_idx nlay horz v pins l t b e).
Proof.
  unfold line_idx. generalize ((if 0 <=? l - 2 then crossings v (l - 2) t b e else []) ++ (if l + 2 <? nlay then crossings v (l + 2) t b e else []) ++ pin_pos horz pins l t b e).
  intros L. assert (F : forall L s, sorted_lt s -> sorted_lt (fold_left (fun s x => zs_ins x s) L s)) by (clear; induction L as [|a L IH]; intros s Hs; cbn [fold_left]; [assumption|apply IH, zs_ins_sorted, Hs]).
  apply F, sorted_lt_nil.
Qed.

Definition line_pieces (l t : Z) (L : list Z) : list (Z * box) :=
  match L with [] => [] | [x] => [piece l t x x] | x :: r => pieces_of horz l t x r end.
Lemma pieces_of_in l t : forall r x g, sorted_lt (x :: r) -> In g (pieces_of horz l t x r) ->
  exists a c, g = piece l t a c /\ In a (x :: r) /\ In c (x :: r) /\ a < c.
Proof.
  induction r as [|y r IH]; intros x g Hs H; cbn [pieces_of] in H; [destruct H|]. destruct H as [<-|H].
  - exists x, y. repeat split; cbn; auto. apply (sorted_lt_head _ _ _ Hs). cbn; auto.
  - destruct (IH y g (sorted_lt_tail _ _ Hs) H) as (a & c & -> & Ha & Hc & Hl). exists a, c. repeat split; auto; right; assumption.
Qed.
Lemma line_pieces_in l t L g : sorted_lt L -> In g (line_pieces l t L) -> exists a c, g = piece l t a c /\ In a L /\ In c L /\ a <= c.
Proof.
  intros Hs H. destruct L as [|x [|y r]]; cbn [line_pieces] in H; [destruct H|destruct H as [<-|[]]; exists x, x; cbn; auto using Z.le_refl|].
  destruct (pieces_of_in l t (y :: r) x g Hs H) as (a & c & -> & Ha & Hc & Hl). exists a, c. repeat split; auto. lia.
Qed.
Lemma piece_ends l t a c k : g_end (piece l t a c) k <-> k = cell l t a \/ k = cell l t c.
Proof.
  unfold g_end, GuideModel.piece, cell. cbn [fst snd ll ur]. destruct k as [p l']. cbn [fst snd]. split.
  - intros [-> [-> | ->]]; auto.
  - intros [E|E]; injection E as -> ->; auto.
Qed.
Lemma line_pieces_end l t L x : In x L -> exists g, In g (line_pieces l t L) /\ g_end g (cell l t x).
Proof.
  intros H. destruct L as [|y [|z r]]; [destruct H|destruct H as [->|[]]; exists (piece l t x x); split; [left; reflexivity|apply piece_ends; auto]|].
  cbn [line_pieces]. revert y z H. induction r as [|w r IH]; intros y z H; cbn [pieces_of].
  - exists (piece l t y z). split; [left; reflexivity|]. apply piece_ends. destruct H as [->|[->|[]]]; auto.
  - destruct H as [->|H]; [exists (piece l t x z); split; [left; reflexivity|apply piece_ends; auto]|].
    destruct (IH z w H) as (g & Hg & He). exists g. split; [right; exact Hg|assumption].
Qed.
Lemma pieces_of_next l t : forall r x a, sorted_lt (x :: r) -> In a (x :: r) -> In (a + 1) (x :: r) -> In (piece l t a (a + 1)) (pieces_of horz l t x r).
Proof.
  induction r as [|y r IH]; intros x a Hs Ha Hb; [destruct Ha as [->|[]]; destruct Hb as [E|[]]; lia|]. cbn [pieces_of].
  destruct Ha as [->|Ha].
  - left. f_equal. assert (a < y) by (apply (sorted_lt_head _ _ _ Hs); cbn; auto). destruct Hb as [?|[?|Hb]]; [lia|assumption|]. pose proof (sorted_lt_head _ _ _ (sorted_lt_tail _ _ Hs) Hb). lia.
  - right. apply IH; [eapply sorted_lt_tail; eauto|assumption|]. destruct Hb as [E|Hb]; [|assumption]. pose proof (sorted_lt_head _ _ _ Hs Ha). lia.
Qed.
Lemma line_pieces_next l t L a : sorted_lt L -> In a L -> In (a + 1) L -> In (piece l t a (a + 1)) (line_pieces l t L).
Proof.
  intros Hs Ha Hb. destruct L as [|x [|y r]]; [destruct Ha|destruct Ha as [->|[]]; destruct Hb as [E|[]]; lia|]. apply (pieces_of_next l t (y :: r) x a Hs Ha Hb).
Qed.

Definition intv (l t b e : Z) : Prop := 0 <= l < nlay /\ exists s, In (t, s) (v l) /\ In (b, e) s.
Lemma intv_has l t b e x : intv l t b e -> b <= x <= e -> iv_has v l t x.
Proof. intros (_ & s & H1 & H2) Hx. exists s. split; [assumption|]. exists b, e. auto. Qed.
Lemma has_intv l t x : 0 <= l < nlay -> iv_has v l t x -> exists b e, intv l t b e /\ b <= x <= e.
Proof. intros Hl (s & H1 & b & e & H2 & Hx). exists b, e. split; [split; [assumption|eauto]|assumption]. Qed.
Lemma intv_run l t b e x y : intv l t b e -> b <= x <= e -> iv_has v l t y -> Z.abs (x - y) = 1 -> b <= y <= e.
Proof.
  intros (Hl & s & H1 & H2) Hx (s' & H1' & Hy) Ha. rewrite (key_unique v l t s' s vok H1' H1) in Hy.
  assert (S : separate s) by (destruct (vok l) as [_ F]; rewrite Forall_forall in F; apply (F _ H1)).
  destruct (sep_edge horz s b e S H2) as [N1 N2]. destruct (Z.eq_dec y (b - 1)) as [->|]; [tauto|]. destruct (Z.eq_dec y (e + 1)) as [->|]; [tauto|]. lia.
Qed.
Lemma intv_nonempty l t b e : intv l t b e -> b <= e.
Proof.
  intros (Hl & s & H1 & H2). destruct (vok l) as [_ F]. rewrite Forall_forall in F. destruct (F _ H1) as [N _]. cbn [snd] in N. rewrite Forall_forall in N. apply (N _ H2).
Qed.

Section Out.
Variable retry : bool.
Variable rs : list (Z * box).
Hypothesis split : genGuides_split nlay horz va v pins retry = Some rs.

Lemma split_piece_of l t b e : intv l t b e -> exists x, split_piece nlay horz va v pins retry l t (b, e) = Some x /\ forall g, In g x -> In g rs.
Proof.
  intros (Hl & s & H1 & H2). unfold genGuides_split in split.
  destruct (cat_opt_all _ _ _ split l ltac:(apply zrange_in; lia)) as (x1 & E1).
  destruct (cat_opt_all _ _ _ E1 _ H1) as (x2 & E2). unfold split_track in E2. cbn [fst snd] in E2.
  destruct (cat_opt_all _ _ _ E2 _ H2) as (x3 & E3). exists x3. split; [assumption|]. intros g Hg.
  apply (cat_opt_in _ _ _ split). exists l, x1. split; [apply zrange_in; lia|]. split; [assumption|].
  apply (cat_opt_in _ _ _ E1). exists (t, s), x2. split; [assumption|]. split; [assumption|].
  apply (cat_opt_in _ _ _ E2). eauto.
Qed.
Lemma split_from g : In g rs -> exists l t b e x, intv l t b e /\ split_piece nlay horz va v pins retry l t (b, e) = Some x /\ In g x.
Proof.
  intros Hg. unfold genGuides_split in split. apply (cat_opt_in _ _ _ split) in Hg as (l & x1 & Hl & E1 & Hg).
  apply (cat_opt_in _ _ _ E1) in Hg as ([t s] & x2 & H1 & E2 & Hg). unfold split_track in E2. cbn [fst snd] in E2.
  apply (cat_opt_in _ _ _ E2) in Hg as ([b e] & x3 & H2 & E3 & Hg). exists l, t, b, e, x3. apply zrange_in in Hl. split; [split; [lia|eauto]|auto].
Qed.
(* every piece lies on one interval *)
Lemma split_sound g : In g rs -> exists l t b e a c, intv l t b e /\ g = piece l t a c /\ b <= a <= c /\ c <= e.
Proof.
  intros Hg. destruct (split_from g Hg) as (l & t & b & e & x & Hi & E & Hx). exists l, t, b, e.
  unfold split_piece in E. destruct (negb retry && (l <=? va)).
  - injection E as <-. apply in_map_iff in Hx as (a & <- & Ha). apply zrange_in in Ha. exists a, a. repeat split; auto; try lia; apply Hi.
  - pose proof (line_idx_sorted l t b e) as Hs. destruct Hi as [Hl Hi].
    assert (H : In g (line_pieces l t (line_idx nlay horz v pins l t b e))).
    { destruct (line_idx nlay horz v pins l t b e) as [|a [|c r]]; [discriminate| |]; injection E as <-; exact Hx. }
    destruct (line_pieces_in l t _ g Hs H) as (a & c & -> & Ha & Hc & Hac). apply line_idx_in in Ha as [Ha _]; [|assumption]. apply line_idx_in in Hc as [Hc _]; [|assumption].
    exists a, c. split; [split; assumption|]. split; [reflexivity|]. lia.
Qed.
(* gcells of one interval are connected along the track *)
Notation covc := (fun k => covered horz v k).
Lemma con_trans cells step k1 k2 k3 : connected cells step k1 k2 -> connected cells step k2 k3 -> connected cells step k1 k3.
Proof. intros H1 H2. induction H2; [assumption|]. econstructor; eauto. Qed.
Lemma con_mono (cells : loc -> Prop) (step step' : loc -> loc -> Prop) k k' : (forall a b, step a b -> step' a b) -> connected cells step k k' -> connected cells step' k k'.
Proof. intros H. induction 1; [constructor; assumption|econstructor; eauto]. Qed.
Lemma along_cell l t x y : Z.abs (x - y) = 1 -> along horz (cell l t x) (cell l t y).
Proof. intros H. unfold along, cell, cell_at. cbn [fst snd]. destruct (horz l); cbn [px py]; auto. Qed.
Lemma intv_con l t b e x y : intv l t b e -> b <= x <= e -> b <= y <= e -> connected covc (along horz) (cell l t x) (cell l t y).
Proof.
  intros Hi Hx.
  assert (U : forall n, x + Z.of_nat n <= e -> connected covc (along horz) (cell l t x) (cell l t (x + Z.of_nat n))).
  { induction n as [|n IH]; intros Hn.
    - replace (x + Z.of_nat 0) with x by lia. constructor. apply covered_cell. eapply intv_has; eauto.
    - econstructor; [apply IH; lia| |]; [apply covered_cell; eapply intv_has; [eassumption|lia]|apply along_cell; lia]. }
  assert (D : forall n, b <= x - Z.of_nat n -> connected covc (along horz) (cell l t x) (cell l t (x - Z.of_nat n))).
  { induction n as [|n IH]; intros Hn.
    - replace (x - Z.of_nat 0) with x by lia. constructor. apply covered_cell. eapply intv_has; eauto.
    - econstructor; [apply IH; lia| |]; [apply covered_cell; eapply intv_has; [eassumption|lia]|apply along_cell; lia]. }
  intros Hy. destruct (Z_le_gt_dec x y) as [H|H].
  - replace y with (x + Z.of_nat (Z.to_nat (y - x))) by lia. apply U. lia.
  - replace y with (x - Z.of_nat (Z.to_nat (x - y))) by lia. apply D. lia.
Qed.
(* soundness: what pieces and pins connect is connected through covered gcells *)
Definition any_step (k k' : loc) : Prop := along horz k k' \/ stacked k k'.
Lemma ends_con g k k' : In g rs -> g_end g k -> g_end g k' -> connected covc any_step k k'.
Proof.
  intros Hg H H'. destruct (split_sound g Hg) as (l & t & b & e & a & c & Hi & -> & Ha & Hc). apply piece_ends in H, H'.
  assert (C : forall x y, b <= x <= e -> b <= y <= e -> connected covc any_step (cell l t x) (cell l t y)).
  { intros x y Hx Hy. apply (con_mono _ (along horz)); [intros ? ? ?; left; assumption|]. eapply intv_con; eauto. }
  destruct H as [-> | ->], H' as [-> | ->]; apply C; lia.
Qed.
Lemma leads_sound npins tie : forall a, leads va rs npins tie false a -> match a with
  | Gd g => exists k0 k, tie 0%nat k0 /\ g_end g k /\ connected covc any_step k0 k
  | Pn O => True
  | Pn q => exists k0 k, tie 0%nat k0 /\ tie q k /\ connected covc any_step k0 k end.
Proof.
  assert (Cov : forall g k, In g rs -> g_end g k -> covered horz v k) by (intros g k Hg H; pose proof (ends_con g k k Hg H H) as C; inversion C; assumption).
  assert (Pre : forall a, leads va rs npins tie false a -> present rs npins a) by (intros a H; destruct H; [exact H|assumption]).
  induction 1 as [|a b Ha IH Hb J F]; [exact I|]. pose proof (Pre _ Ha) as Pa. destruct a as [g|q], b as [h|q']; cbn [joined present] in *.
  - destruct J as (k & k' & Hk & Hk' & P & L). destruct IH as (k0 & k1 & T & E & C).
    assert (C1 : connected covc any_step k0 k) by (eapply con_trans; [exact C|]; eapply ends_con; eauto).
    exists k0, k'. split; [assumption|]. split; [assumption|]. destruct k as [p l], k' as [p' l']. cbn [fst snd] in P, L. subst p'. destruct L as [[-> _]|L]; [assumption|].
    eapply con_step; [exact C1|exact (Cov h _ Hb Hk')|]. right. split; [reflexivity|]. cbn [snd]. assumption.
  - destruct q' as [|q']; [exact I|]. destruct J as (k & Hk & T'). destruct IH as (k0 & k1 & T & E & C). exists k0, k. split; [assumption|]. split; [assumption|]. eapply con_trans; [exact C|]. eapply ends_con; eauto.
  - destruct q as [|q]; [|discriminate]. destruct J as (k & Hk & T). exists k, k. split; [assumption|]. split; [assumption|]. constructor. eapply Cov; eauto.
  - destruct J.
Qed.
End Out.

(* ---- completeness, on the second attempt *)
Section Second.
Variable rs : list (Z * box).
Hypothesis split : genGuides_split nlay horz va v pins true = Some rs.
Lemma line_nonempty l t b e : intv l t b e -> exists c, b <= c <= e /\ key l t c.
Proof.
  intros Hi. destruct (split_piece_of true rs split l t b e Hi) as (x & E & _). unfold split_piece in E. cbn [negb andb] in E. destruct Hi as [Hl _].
  destruct (line_idx nlay horz v pins l t b e) as [|c r] eqn:EL; [discriminate|]. exists c. apply line_idx_in; [assumption|]. rewrite EL. left; reflexivity.
Qed.
Lemma line_out l t b e : intv l t b e -> forall g, In g (line_pieces l t (line_idx nlay horz v pins l t b e)) -> In g rs.
Proof.
  intros Hi g Hg. destruct (split_piece_of true rs split l t b e Hi) as (x & E & Hx). unfold split_piece in E. cbn [negb andb] in E. apply Hx.
  destruct (line_idx nlay horz v pins l t b e) as [|a [|c r]]; [discriminate| |]; injection E as <-; exact Hg.
Qed.
Variable ft : bool.
Notation pins' := (pin2GCell nlay horz v pins).
Notation tie := (pin_cells pins').
Notation lead := (leads va rs (length pins') tie ft).
Definition reached (k : loc) : Prop := exists g, In g rs /\ g_end g k /\ lead (Gd g).

Lemma key_end l t c : 0 <= l < nlay -> iv_has v l t c -> key l t c -> exists g, In g rs /\ g_end g (cell l t c).
Proof.
  intros Hl Hc Hk. destruct (has_intv l t c Hl Hc) as (b & e & Hi & Hb).
  destruct (line_pieces_end l t (line_idx nlay horz v pins l t b e) c ltac:(apply line_idx_in; auto)) as (g & Hg & He). exists g. split; [eapply line_out; eauto|assumption].
Qed.
Lemma lead_same g h k : lead (Gd g) -> In h rs -> g_end g k -> g_end h k -> snd k <> va -> lead (Gd h).
Proof. intros Hg Hh Eg Eh Hv. eapply leads_s; [exact Hg|exact Hh| |exact I]. exists k, k. auto 10. Qed.
Lemma lead_stack g h k k' : lead (Gd g) -> In h rs -> g_end g k -> g_end h k' -> stacked k k' -> lead (Gd h).
Proof. intros Hg Hh Eg Eh [Hp Hs]. eapply leads_s; [exact Hg|exact Hh| |exact I]. exists k, k'. auto 10. Qed.
(* from one cut of an interval to another *)
Lemma pieces_chain l t : l <> va -> forall r x, (forall g, In g (pieces_of horz l t x r) -> In g rs) ->
  (reached (cell l t x) -> forall y, In y r -> reached (cell l t y)) /\ (forall y, In y r -> reached (cell l t y) -> reached (cell l t x)).
Proof.
  intros Hl. induction r as [|z r IH]; intros x H; [split; intros; contradiction|].
  cbn [pieces_of] in H. destruct (IH z (fun g Hg => H g (or_intror Hg))) as [A B].
  pose proof (H _ (or_introl eq_refl)) as Hp.
  assert (E1 : reached (cell l t x) -> reached (cell l t z)).
  { intros (g & Hg & Eg & Lg). exists (piece l t x z). split; [assumption|]. split; [apply piece_ends; auto|]. eapply lead_same; [exact Lg|assumption|exact Eg|apply piece_ends; auto|assumption]. }
  assert (E2 : reached (cell l t z) -> reached (cell l t x)).
  { intros (g & Hg & Eg & Lg). exists (piece l t x z). split; [assumption|]. split; [apply piece_ends; auto|]. eapply lead_same; [exact Lg|assumption|exact Eg|apply piece_ends; auto|assumption]. }
  split.
  - intros Hx y [<-|Hy]; auto.
  - intros y [<-|Hy] H1; auto. apply E2. eapply B; eauto.
Qed.
Lemma cut_to_cut l t b e c c' : l <> va -> intv l t b e -> b <= c <= e -> key l t c -> b <= c' <= e -> key l t c' -> reached (cell l t c) -> reached (cell l t c').
Proof.
  intros Hv Hi Hc Kc Hc' Kc' R. pose proof (line_out l t b e Hi) as Ho. destruct Hi as [Hl _].
  assert (I1 : In c (line_idx nlay horz v pins l t b e)) by (apply line_idx_in; auto).
  assert (I2 : In c' (line_idx nlay horz v pins l t b e)) by (apply line_idx_in; auto).
  destruct (line_idx nlay horz v pins l t b e) as [|x [|y r]]; [destruct I1|destruct I1 as [->|[]]; destruct I2 as [->|[]]; assumption|].
  cbn [line_pieces] in Ho. destruct (pieces_chain l t Hv (y :: r) x Ho) as [A B].
  assert (Rx : reached (cell l t x)) by (destruct I1 as [->|I1]; [assumption|eapply B; eauto]).
  destruct I2 as [->|I2]; [assumption|apply A; assumption].
Qed.
(* stepping between layers *)
Lemma stack_step l l' t c : 0 <= l < nlay -> nbr l l' -> iv_has v l t c -> iv_has v l' c t -> reached (cell l t c) ->
  key l t c /\ key l' c t /\ (forall h, In h rs -> g_end h (cell l' c t) -> lead (Gd h)) /\ reached (cell l' c t).
Proof.
  intros Hl Hn H H' (g & Hg & Eg & Lg).
  assert (K1 : key l t c) by (left; eauto).
  assert (Hn' : nbr l' l) by (destruct Hn as [[-> | ->] Hr]; split; [right; lia|lia|left; lia|lia]).
  assert (K2 : key l' c t) by (left; exists l; auto).
  assert (A : forall h, In h rs -> g_end h (cell l' c t) -> lead (Gd h)).
  { intros h Hh Eh. eapply lead_stack; [exact Lg|assumption|exact Eg|exact Eh|]. split; [unfold cell; cbn [fst]; rewrite (cell_nbr l l' t c Hn); reflexivity|]. cbn [cell snd]. destruct Hn as [[-> | ->] _]; [left|right]; lia. }
  split; [assumption|]. split; [assumption|]. split; [assumption|]. destruct Hn as [_ Hr].
  destruct (key_end l' c t Hr H' K2) as (h & Hh & Eh). exists h. auto.
Qed.
(* what is known while walking a path of gcells *)
Definition got (k : loc) : Prop :=
  exists l t c b e x, k = cell l t c /\ intv l t b e /\ b <= c <= e /\ b <= x <= e /\ key l t x /\ reached (cell l t x) /\ (l = va -> x = c).
Lemma got_key l t c : 0 <= l < nlay -> got (cell l t c) -> key l t c -> reached (cell l t c).
Proof.
  intros Hl (l' & t' & c' & b & e & x & E & Hi & Hc & Hx & Kx & R & Hv) K. apply cell_inj in E as (<- & <- & <-).
  destruct (Z.eq_dec l va) as [E|N]; [rewrite <- (Hv E); assumption|]. eapply cut_to_cut with (b := b) (e := e); eauto.
Qed.
Lemma reached_got l t c : 0 <= l < nlay -> iv_has v l t c -> key l t c -> reached (cell l t c) -> got (cell l t c).
Proof. intros Hl H K R. destruct (has_intv l t c Hl H) as (b & e & Hi & Hc). exists l, t, c, b, e, c. auto 10. Qed.
Lemma got_along l t c c' : got (cell l t c) -> iv_has v l t c' -> Z.abs (c - c') = 1 -> l <> va -> got (cell l t c').
Proof.
  intros (l1 & t1 & c1 & b & e & x & E & Hi & Hc & Hx & Kx & R & Hv) H' Ha Hn. apply cell_inj in E as (<- & <- & <-).
  exists l, t, c', b, e, x. split; [reflexivity|]. split; [assumption|]. split; [exact (intv_run l t b e c c' Hi Hc H' Ha)|]. split; [assumption|]. split; [assumption|]. split; [assumption|]. congruence.
Qed.
Lemma got_stack l l' t c : 0 <= l < nlay -> nbr l l' -> got (cell l t c) -> iv_has v l t c -> iv_has v l' c t -> got (cell l' c t).
Proof.
  intros Hl Hn G H H'. assert (K : key l t c) by (left; eauto). pose proof (got_key l t c Hl G K) as R.
  destruct (stack_step l l' t c Hl Hn H H' R) as (_ & K' & _ & R'). apply reached_got; auto. apply Hn.
Qed.
(* two tracks bridged by a guide of a neighbour layer *)
Lemma got_across l t t' c b e l' c' : 0 <= l < nlay -> l <> va -> got (cell l t c) -> Z.abs (t - t') = 1 -> b <= c <= e -> b <= c' <= e ->
  (forall x, b <= x <= e -> iv_has v l t x /\ iv_has v l t' x) -> nbr l l' -> iv_has v l' c' t -> iv_has v l' c' t' -> got (cell l t' c).
Proof.
  intros Hl Hv G Ht Hc Hc' Hrow Hn B1 B2.
  (* along the first track *)
  assert (W : forall tt, (forall x, b <= x <= e -> iv_has v l tt x) -> forall x y, b <= x <= e -> b <= y <= e -> got (cell l tt x) -> got (cell l tt y)).
  { intros tt Hr x y Hx Hy Gx.
    assert (U : forall n, x + Z.of_nat n <= e -> got (cell l tt (x + Z.of_nat n))).
    { induction n as [|n IH]; intros Hb; [replace (x + Z.of_nat 0) with x by lia; assumption|]. eapply got_along; [apply IH; lia|apply Hr; lia|lia|assumption]. }
    assert (D : forall n, b <= x - Z.of_nat n -> got (cell l tt (x - Z.of_nat n))).
    { induction n as [|n IH]; intros Hb; [replace (x - Z.of_nat 0) with x by lia; assumption|]. eapply got_along; [apply IH; lia|apply Hr; lia|lia|assumption]. }
    destruct (Z_le_gt_dec x y) as [H|H]; [replace y with (x + Z.of_nat (Z.to_nat (y - x))) by lia; apply U; lia|replace y with (x - Z.of_nat (Z.to_nat (x - y))) by lia; apply D; lia]. }
  pose proof (W t (fun x Hx => proj1 (Hrow x Hx)) c c' Hc Hc' G) as G1.
  assert (R1 : reached (cell l t c')) by (apply got_key; [assumption|assumption|left; eauto]).
  destruct (stack_step l l' t c' Hl Hn (proj1 (Hrow c' Hc')) B1 R1) as (_ & K1 & A1 & R2).
  assert (Hn' : nbr l' l) by (destruct Hn as [[-> | ->] Hr]; split; [right; lia|lia|left; lia|lia]).
  assert (Hl' : 0 <= l' < nlay) by apply Hn.
  assert (K2 : key l' c' t') by (left; exists l; split; [assumption|apply (proj2 (Hrow c' Hc'))]).
  (* across, on the bridge *)
  assert (R3 : reached (cell l' c' t')).
  { destruct (has_intv l' c' t Hl' B1) as (b1 & e1 & Hi & Hb1). pose proof (intv_run l' c' b1 e1 t t' Hi Hb1 B2 ltac:(lia)) as Hb2.
    set (m := Z.min t t').
    assert (Hp : In (piece l' c' m (m + 1)) rs).
    { apply (line_out l' c' b1 e1 Hi). apply line_pieces_next; [apply line_idx_sorted| |]; apply line_idx_in; try assumption.
      - unfold m. destruct (Z.min_spec t t') as [[_ ->]|[_ ->]]; auto.
      - assert (m + 1 = t \/ m + 1 = t') as [-> | ->] by (unfold m; lia); auto. }
    assert (Es : forall x, x = t \/ x = t' -> g_end (piece l' c' m (m + 1)) (cell l' c' x)).
    { intros x Hx. apply piece_ends. assert (x = m \/ x = m + 1) as [-> | ->] by (unfold m; lia); auto. }
    exists (piece l' c' m (m + 1)). split; [assumption|]. split; [apply Es; auto|]. apply A1; [assumption|]. apply Es. auto. }
  destruct (stack_step l' l c' t' Hl' Hn' B2 (proj2 (Hrow c' Hc')) R3) as (_ & K4 & _ & R4).
  apply (W t' (fun x Hx => proj2 (Hrow x Hx)) c' c Hc' Hc). apply reached_got; auto. apply Hrow. assumption.
Qed.
(* pins *)
Lemma tie_iff q k : tie q k <-> pin_cells pins q k /\ 0 <= snd k < nlay /\ covered horz v k.
Proof.
  unfold pin_cells, pin2GCell. split.
  - intros (s & Es & Hk). rewrite nth_error_map in Es. destruct (nth_error pins q) as [s0|] eqn:E0; [|discriminate]. injection Es as <-. apply filter_In in Hk as [Hk Ho].
    split; [eauto|]. unfold on_guide in Ho. apply andb_prop in Ho as [Ho1 Ho2]. split; [lia|]. apply covered_has. apply existsb_exists in Ho2 as ([t s] & Hs & E). cbn [fst snd] in E. apply andb_prop in E as [E1 E2]. apply is_has_iff in E2. exists s. split; [replace (track_of horz (snd k) (fst k)) with t by lia; assumption|assumption].
  - intros ((s & Es & Hk) & Hl & Hc). exists (filter (on_guide nlay horz v) s). split; [rewrite nth_error_map, Es; reflexivity|]. apply filter_In. split; [assumption|].
    apply covered_has in Hc as (s' & Hs & Hh). unfold on_guide. replace ((0 <=? snd k) && (snd k <? nlay)) with true by lia. cbn [andb]. apply existsb_exists. exists (track_of horz (snd k) (fst k), s'). split; [assumption|]. cbn [fst snd]. rewrite Z.eqb_refl. apply is_has_iff. assumption.
Qed.
Lemma pin_key q k : pin_cells pins q k -> key (snd k) (track_of horz (snd k) (fst k)) (pos_of horz (snd k) (fst k)).
Proof. intros H. right. exists q. rewrite cell_back. assumption. Qed.
Lemma got_pin0 k : tie 0%nat k -> got k.
Proof.
  intros T. pose proof T as T0. apply tie_iff in T as (Hp & Hl & Hc). apply covered_has in Hc. pose proof (pin_key _ _ Hp) as Kk. rewrite <- (cell_back k).
  apply reached_got; auto. destruct (key_end _ _ _ Hl Hc Kk) as (g & Hg & Eg). exists g. split; [assumption|]. split; [assumption|].
  rewrite cell_back in Eg. assert (Hn : (0 < length pins')%nat) by (destruct T0 as (s & Es & _); apply nth_error_Some; congruence). eapply leads_s; [apply leads_0, Hn|exact Hg| |exact I]. exists k. auto.
Qed.
Lemma got_pin q k : tie q k -> got k -> lead (Pn q).
Proof.
  intros T G. pose proof T as T0. apply tie_iff in T as (Hp & Hl & Hc). pose proof (pin_key _ _ Hp) as Kk. rewrite <- (cell_back k) in G. pose proof (got_key _ _ _ Hl G Kk) as R. rewrite cell_back in R. destruct R as (g & Hg & Eg & Lg).
  eapply leads_s; [exact Lg| | |exact I]; [destruct T0 as (s & Es & _); cbn; apply nth_error_Some; congruence|]. exists k. auto.
Qed.
End Second.
End Split.
