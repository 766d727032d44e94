(* Interval sets, track maps and the first phase of genGuides_merge. *)
From Verif Require Import Base Stl GeomModel GCellModel GCellProofs ConnModel GuideModel GuideSpec.

Lemma zrange_in a b x : In x (zrange a b) <-> a <= x <= b.
Proof.
  unfold zrange. rewrite in_map_iff. split.
  - intros (i & <- & Hi). apply in_seq in Hi. lia.
  - intros H. exists (Z.to_nat (x - a)). split; [lia|]. apply in_seq. lia.
Qed.
Definition has (s : iset) (x : Z) : Prop := exists b e, In (b, e) s /\ b <= x <= e.
Lemma is_has_iff s x : is_has s x = true <-> has s x.
Proof.
  unfold is_has, has. rewrite existsb_exists. split.
  - intros ([b e] & Hi & H). exists b, e. cbn in H. split; [assumption|lia].
  - intros (b & e & Hi & H). exists (b, e). cbn. split; [assumption|lia].
Qed.
Lemma has_cons b e s x : has ((b, e) :: s) x <-> b <= x <= e \/ has s x.
Proof.
  unfold has. split.
  - intros (b' & e' & [E|H] & Hx); [injection E as -> ->; auto|right; eauto].
  - intros [H|(b' & e' & H & Hx)]; [exists b, e; cbn; auto|exists b', e'; cbn; auto].
Qed.
Lemma has_nil x : ~ has [] x.
Proof. intros (b & e & [] & _). Qed.

Definition sep (s : iset) : Prop := ForallOrdPairs (fun i j => snd i + 1 < fst j) s.
Definition nonempty (s : iset) : Prop := Forall (fun i => fst i <= snd i) s.
Lemma is_ins_bound c : forall s lo hi, c < lo -> Forall (fun j => c < fst j) s -> Forall (fun j => c < fst j) (is_ins lo hi s).
Proof.
  induction s as [|[a d] s IH]; intros lo hi Hl Hs; cbn [is_ins]; [repeat constructor; assumption|].
  inversion Hs as [|? ? H1 H2]; subst. cbn in H1.
  destruct (hi + 1 <? a); [constructor; [cbn; lia|assumption]|]. destruct (d + 1 <? lo); [constructor; [cbn; lia|]; auto|]. apply IH; [lia|assumption].
Qed.
Lemma is_ins_has x : forall s lo hi, lo <= hi -> nonempty s -> has (is_ins lo hi s) x <-> lo <= x <= hi \/ has s x.
Proof.
  induction s as [|[a d] s IH]; intros lo hi Hl Hs; cbn [is_ins]; [apply has_cons|].
  inversion Hs as [|? ? H1 H2]; subst. cbn in H1.
  destruct (hi + 1 <? a) eqn:E1; [apply has_cons|]. destruct (d + 1 <? lo) eqn:E2.
  - rewrite !has_cons, IH by assumption. tauto.
  - rewrite IH by (try assumption; lia). rewrite has_cons. clear IH.
    assert (Z.min lo a <= x <= Z.max hi d <-> lo <= x <= hi \/ a <= x <= d) by lia. tauto.
Qed.
Lemma is_ins_sep : forall s lo hi, lo <= hi -> nonempty s -> sep s -> sep (is_ins lo hi s) /\ nonempty (is_ins lo hi s).
Proof.
  induction s as [|[a d] s IH]; intros lo hi Hl Hs Hp; cbn [is_ins]; [split; repeat constructor; assumption|].
  inversion Hs as [|? ? H1 H2]; subst. cbn in H1. inversion Hp as [|? ? P1 P2]; subst. cbn in P1.
  destruct (hi + 1 <? a) eqn:E1.
  - split; [|constructor; [cbn; lia|assumption]]. constructor; [|assumption]. constructor; [cbn; lia|].
    eapply Forall_impl; [|exact P1]. cbn. intros. lia.
  - destruct (d + 1 <? lo) eqn:E2.
    + destruct (IH lo hi Hl H2 P2) as [I1 I2]. split; [|constructor; [cbn; lia|assumption]]. constructor; [|assumption]. apply is_ins_bound; cbn; [lia|assumption].
    + apply IH; auto. lia.
Qed.
Lemma is_add_has s lo hi x : nonempty s -> has (is_add lo hi s) x <-> lo <= x <= hi \/ has s x.
Proof. intros H. unfold is_add. destruct (lo <=? hi) eqn:E; [apply is_ins_has; [lia|assumption]|]. split; [auto|]. intros [?|?]; [lia|assumption]. Qed.
Lemma is_add_sep s lo hi : separate s -> separate (is_add lo hi s).
Proof. intros [H1 H2]. unfold is_add. destruct (lo <=? hi) eqn:E; [|split; assumption]. destruct (is_ins_sep s lo hi ltac:(lia) H1 H2). split; assumption. Qed.
Lemma is_inter_in s t b e : In (b, e) (is_inter s t) <-> exists b1 e1 b2 e2, In (b1, e1) s /\ In (b2, e2) t /\ b = Z.max b1 b2 /\ e = Z.min e1 e2 /\ b <= e.
Proof.
  unfold is_inter. rewrite in_flat_map. setoid_rewrite in_flat_map. split.
  - intros ((b1 & e1) & H1 & (b2 & e2) & H2 & H). cbn in H. destruct (Z.max b1 b2 <=? Z.min e1 e2) eqn:E; [|destruct H]. destruct H as [H|[]]. injection H as <- <-. exists b1, e1, b2, e2. repeat split; auto. lia.
  - intros (b1 & e1 & b2 & e2 & H1 & H2 & -> & -> & H). exists (b1, e1). split; [assumption|]. exists (b2, e2). split; [assumption|]. cbn. destruct (Z.max b1 b2 <=? Z.min e1 e2) eqn:E; [left; reflexivity|lia].
Qed.

(* ---- track maps *)
Definition tm_ok (m : tmap) : Prop := sorted_lt (map fst m) /\ Forall (fun e => separate (snd e)) m.
Definition tm_has (m : tmap) (t x : Z) : Prop := exists s, In (t, s) m /\ has s x.
Lemma tm_add_keys t lo hi : forall m k, In k (map fst (tm_add t lo hi m)) <-> k = t \/ In k (map fst m).
Proof.
  induction m as [|[k0 s] m IH]; intros k; cbn [tm_add]; [cbn; intuition|].
  destruct (t <? k0) eqn:E1; [cbn; intuition|]. destruct (t =? k0) eqn:E2; cbn [map fst In]; [apply Z.eqb_eq in E2; subst; intuition|]. rewrite IH. intuition.
Qed.
Lemma sep_nil : separate [].
Proof. split; constructor. Qed.
Lemma tm_add_ok t lo hi : forall m, tm_ok m -> tm_ok (tm_add t lo hi m).
Proof.
  induction m as [|[k0 s] m IH]; intros [H1 H2]; cbn [tm_add].
  - split; [apply sorted_lt_cons; [easy|apply sorted_lt_nil]|constructor; [apply is_add_sep, sep_nil|constructor]].
  - inversion H2 as [|? ? S1 S2]; subst. cbn [map fst snd] in *.
    destruct (t <? k0) eqn:E1.
    + split; [|constructor; [apply is_add_sep, sep_nil|assumption]]. cbn [map fst]. apply sorted_lt_cons; [|assumption]. intros x [<-|Hx]; [lia|]. pose proof (sorted_lt_head _ _ _ H1 Hx). lia.
    + destruct (t =? k0) eqn:E2.
      * split; [exact H1|]. constructor; [apply is_add_sep; assumption|assumption].
      * destruct IH as [I1 I2]; [split; [eapply sorted_lt_tail; eauto|assumption]|]. split; [|constructor; assumption].
        cbn [map fst]. apply sorted_lt_cons; [|assumption]. intros x Hx. apply tm_add_keys in Hx as [->|Hx]; [lia|]. exact (sorted_lt_head _ _ _ H1 Hx).
Qed.
Lemma tm_has_cons k s m t x : tm_has ((k, s) :: m) t x <-> (t = k /\ has s x) \/ tm_has m t x.
Proof.
  unfold tm_has. split.
  - intros (s' & [E|H] & Hx); [injection E as <- <-; auto|right; eauto].
  - intros [[-> H]|(s' & H & Hx)]; [exists s; cbn; auto|exists s'; cbn; auto].
Qed.
Lemma is_add_nil lo hi x : has (is_add lo hi []) x <-> lo <= x <= hi.
Proof. rewrite is_add_has by constructor. split; [intros [?|?]; [assumption|exfalso; eapply has_nil; eauto]|auto]. Qed.
Lemma tm_add_has t lo hi t' x : forall m, tm_ok m -> tm_has (tm_add t lo hi m) t' x <-> (t' = t /\ lo <= x <= hi) \/ tm_has m t' x.
Proof.
  induction m as [|[k0 s] m IH]; intros [H1 H2]; cbn [tm_add].
  - rewrite tm_has_cons, is_add_nil. tauto.
  - inversion H2 as [|? ? S1 S2]; subst. cbn [map fst snd] in *.
    destruct (t <? k0) eqn:E1; [rewrite tm_has_cons, is_add_nil; tauto|].
    destruct (t =? k0) eqn:E2.
    + apply Z.eqb_eq in E2 as <-. rewrite !tm_has_cons, is_add_has by apply S1. tauto.
    + rewrite !tm_has_cons, IH by (split; [eapply sorted_lt_tail; eauto|assumption]). tauto.
Qed.

(* ---- all layers *)
Definition iv_ok (v : intvs) : Prop := forall l, tm_ok (v l).
Definition iv_has (v : intvs) (l t x : Z) : Prop := tm_has (v l) t x.
Lemma iv_add_ok l t lo hi v : iv_ok v -> iv_ok (iv_add l t lo hi v).
Proof. intros H l'. unfold iv_add. destruct (l' =? l); auto using tm_add_ok. Qed.
Lemma iv_add_has l t lo hi v l' t' x : iv_ok v -> iv_has (iv_add l t lo hi v) l' t' x <-> (l' = l /\ t' = t /\ lo <= x <= hi) \/ iv_has v l' t' x.
Proof.
  intros H. unfold iv_has, iv_add. destruct (Z.eqb_spec l' l) as [->|]; [rewrite tm_add_has by apply H; tauto|]. tauto.
Qed.
Lemma iv_fold_ok {A} (f : A -> Z * Z * Z * Z) L : forall v, iv_ok v ->
  iv_ok (fold_left (fun v a => let '(l, t, lo, hi) := f a in iv_add l t lo hi v) L v).
Proof. induction L as [|a L IH]; intros v H; cbn [fold_left]; [assumption|]. destruct (f a) as [[[l t] lo] hi]. apply IH, iv_add_ok, H. Qed.
Lemma iv_fold_has {A} (f : A -> Z * Z * Z * Z) L : forall v l' t' x, iv_ok v ->
  iv_has (fold_left (fun v a => let '(l, t, lo, hi) := f a in iv_add l t lo hi v) L v) l' t' x <->
  (exists a l t lo hi, In a L /\ f a = (l, t, lo, hi) /\ l' = l /\ t' = t /\ lo <= x <= hi) \/ iv_has v l' t' x.
Proof.
  induction L as [|a L IH]; intros v l' t' x H; cbn [fold_left].
  - split; [auto|]. intros [(a & l & t & lo & hi & [] & _)|?]; assumption.
  - destruct (f a) as [[[l t] lo] hi] eqn:E. rewrite IH by (apply iv_add_ok, H). rewrite iv_add_has by assumption. split.
    + intros [(a' & l0 & t0 & lo0 & hi0 & Hi & R)|[R|R]]; [|left; exists a, l, t, lo, hi; cbn; auto|auto]. left. exists a', l0, t0, lo0, hi0. cbn. auto.
    + intros [(a' & l0 & t0 & lo0 & hi0 & [<-|Hi] & R)|R]; [| |auto].
      * rewrite E in R. destruct R as (R1 & R2). injection R1 as <- <- <- <-. auto.
      * left. exists a', l0, t0, lo0, hi0. auto.
Qed.
Lemma iv_ok_nil : iv_ok (fun _ => []).
Proof. intros l. split; [apply sorted_lt_nil|constructor]. Qed.

Section Merge.
Variables xg yg : gpat.
Variable nlay : Z.
Variable horz : Z -> bool.

Lemma push_rect_ok v r : iv_ok v -> iv_ok (push_rect xg yg horz v r).
Proof.
  destruct r as [l b]. unfold push_rect. intros H.
  destruct (horz l); match goal with |- iv_ok (fold_left (fun v i => iv_add l i ?a ?c v) _ _) => apply (iv_fold_ok (fun i => (l, i, a, c))); assumption end.
Qed.
Definition rcell (r : Z * box) (k : loc) : Prop :=
  snd k = fst r /\ px (cell1 xg yg (snd r)) <= px (fst k) <= px (cell2 xg yg (snd r)) /\ py (cell1 xg yg (snd r)) <= py (fst k) <= py (cell2 xg yg (snd r)).
Lemma covered_has v k : covered horz v k <-> iv_has v (snd k) (track_of horz (snd k) (fst k)) (pos_of horz (snd k) (fst k)).
Proof.
  unfold covered, iv_has, tm_has, has, track_of, pos_of. split.
  - intros (t & s & b & e & H1 & H2 & -> & H3). exists s. split; [assumption|]. exists b, e. auto.
  - intros (s & H1 & b & e & H2 & H3). eexists _, s, b, e. split; [exact H1|]. auto.
Qed.
Lemma push_rect_covered v r k : iv_ok v -> covered horz (push_rect xg yg horz v r) k <-> rcell r k \/ covered horz v k.
Proof.
  intros H. rewrite !covered_has. destruct r as [l b], k as [p kl]. unfold push_rect, rcell, track_of, pos_of. cbn [fst snd].
  destruct (horz l) eqn:Hl.
  - rewrite (iv_fold_has (fun i => (l, i, px (cell1 xg yg b), px (cell2 xg yg b)))) by assumption. split.
    + intros [(a & l0 & t & lo & hi & Hi & E & E1 & E2 & Hx)|?]; [|auto]. injection E as <- <- <- <-. subst kl. rewrite Hl in *. subst a. apply zrange_in in Hi. left. repeat split; first [apply Hi|apply Hx].
    + intros [(-> & Hx & Hy)|?]; [|auto]. left. rewrite Hl. exists (py p), l, (py p), (px (cell1 xg yg b)), (px (cell2 xg yg b)). rewrite zrange_in. repeat split; first [apply Hy|apply Hx].
  - rewrite (iv_fold_has (fun i => (l, i, py (cell1 xg yg b), py (cell2 xg yg b)))) by assumption. split.
    + intros [(a & l0 & t & lo & hi & Hi & E & E1 & E2 & Hx)|?]; [|auto]. injection E as <- <- <- <-. subst kl. rewrite Hl in *. subst a. apply zrange_in in Hi. left. repeat split; first [apply Hi|apply Hx].
    + intros [(-> & Hx & Hy)|?]; [|auto]. left. rewrite Hl. exists (px p), l, (px p), (py (cell1 xg yg b)), (py (cell2 xg yg b)). rewrite zrange_in. repeat split; first [apply Hy|apply Hx].
Qed.
Lemma push_rects_gen rects : forall v, iv_ok v -> iv_ok (fold_left (push_rect xg yg horz) rects v) /\
  forall k, covered horz (fold_left (push_rect xg yg horz) rects v) k <-> (exists r, In r rects /\ rcell r k) \/ covered horz v k.
Proof.
  induction rects as [|r rects IH]; intros v H; cbn [fold_left].
  - split; [assumption|]. intros k. split; [auto|]. intros [(r & [] & _)|?]; assumption.
  - destruct (IH (push_rect xg yg horz v r) (push_rect_ok v r H)) as [I1 I2]. split; [assumption|]. intros k. rewrite I2, push_rect_covered by assumption. split.
    + intros [(r' & Hr & Hc)|[?|?]]; [left; exists r'; cbn; auto|left; exists r; cbn; auto|auto].
    + intros [(r' & [<-|Hr] & Hc)|?]; [auto|left; eauto|auto].
Qed.
Lemma push_rects_ok rects : iv_ok (push_rects xg yg horz rects).
Proof. apply push_rects_gen, iv_ok_nil. Qed.
Lemma push_rects_covered rects k : covered horz (push_rects xg yg horz rects) k <-> exists r, In r rects /\ rcell r k.
Proof.
  unfold push_rects. rewrite (proj2 (push_rects_gen rects _ iv_ok_nil)). split; [|auto]. intros [?|H]; [assumption|].
  destruct H as (t & s & b & e & [] & _).
Qed.
(* ---- gcells met by a rectangle *)
Lemma idx1_mono g a b : 0 < gspacing g -> a <= b -> gcell_idx1 g a <= gcell_idx1 g b.
Proof.
  intros Hs Hab. unfold gcell_idx1.
  assert (Z.quot (a - gstart g) (gspacing g) <= Z.quot (b - gstart g) (gspacing g)) by (apply Z.quot_le_mono; lia).
  destruct (Z.quot (a - gstart g) (gspacing g) <? 0) eqn:?, (Z.quot (b - gstart g) (gspacing g) <? 0) eqn:?;
  repeat match goal with |- context [if ?c then _ else _] => destruct c eqn:? end; lia.
Qed.
Lemma quot_step a s : 0 < s -> Z.quot (a + 1) s <= Z.quot a s + 1.
Proof.
  intros H. pose proof (Z.quot_rem a s ltac:(lia)) as Q1. pose proof (Z.quot_rem (a + 1) s ltac:(lia)) as Q2.
  set (q := Z.quot a s) in *. set (q' := Z.quot (a + 1) s) in *. destruct (Z_le_gt_dec 0 a) as [Ha|Ha].
  - pose proof (Z.rem_bound_pos a s ltac:(lia) H). pose proof (Z.rem_bound_pos (a + 1) s ltac:(lia) H). nia.
  - pose proof (Z.rem_bound_pos (- a) s ltac:(lia) H) as B1. pose proof (Z.rem_bound_pos (- (a + 1)) s ltac:(lia) H) as B2.
    rewrite Z.rem_opp_l in B1, B2 by lia. nia.
Qed.
Lemma idx1_step g a : 0 < gspacing g -> gcell_idx1 g (a + 1) <= gcell_idx1 g a + 1.
Proof.
  intros Hs. unfold gcell_idx1. pose proof (quot_step (a - gstart g) (gspacing g) Hs) as Q. replace (a + 1 - gstart g) with (a - gstart g + 1) by lia.
  destruct (Z.quot (a - gstart g) (gspacing g) <? 0) eqn:?, (Z.quot (a - gstart g + 1) (gspacing g) <? 0) eqn:?;
  repeat match goal with |- context [if ?c then _ else _] => destruct c eqn:? end; lia.
Qed.
Lemma idx1_between g a i : 0 < gspacing g -> forall n, gcell_idx1 g a <= i <= gcell_idx1 g (a + Z.of_nat n) -> exists c, a <= c <= a + Z.of_nat n /\ gcell_idx1 g c = i.
Proof.
  intros Hs. induction n as [|n IH]; intros H.
  - exists a. replace (a + Z.of_nat 0) with a in * by lia. split; lia.
  - destruct (Z_le_gt_dec i (gcell_idx1 g (a + Z.of_nat n))) as [Hi|Hi].
    + destruct (IH ltac:(lia)) as (c & Hc & E). exists c. split; [lia|assumption].
    + exists (a + Z.of_nat (S n)). split; [lia|]. pose proof (idx1_step g (a + Z.of_nat n) Hs). replace (a + Z.of_nat n + 1) with (a + Z.of_nat (S n)) in H0 by lia. lia.
Qed.
Lemma rcell_meets r k : grid_pos xg yg -> rect_ok nlay r -> rcell r k <-> meets_rect xg yg r k.
Proof.
  intros [Gx Gy] (_ & Hx & Hy). destruct r as [l b], k as [p kl]. unfold rcell, meets_rect, in_rect, cell1, cell2, gcell_idx. cbn [fst snd px py] in *. split.
  - intros (-> & X & Y). split; [reflexivity|].
    destruct (idx1_between xg (bleft b) (px p) Gx (Z.to_nat (bright b - 1 - bleft b))) as (cx & Cx & Ex).
    { replace (bleft b + Z.of_nat (Z.to_nat (bright b - 1 - bleft b))) with (bright b - 1) by lia. exact X. }
    destruct (idx1_between yg (bbottom b) (py p) Gy (Z.to_nat (btop b - 1 - bbottom b))) as (cy & Cy & Ey).
    { replace (bbottom b + Z.of_nat (Z.to_nat (btop b - 1 - bbottom b))) with (btop b - 1) by lia. exact Y. }
    exists (mkPt cx cy). cbn [px py]. split; [lia|]. rewrite Ex, Ey. destruct p; reflexivity.
  - intros (-> & q & (Qx & Qy) & <-). split; [reflexivity|]. cbn [px py].
    pose proof (idx1_mono xg (px (ll b)) (px q) Gx ltac:(exact (proj1 Qx))). pose proof (idx1_mono xg (px q) (bright b - 1) Gx ltac:(lia)).
    pose proof (idx1_mono yg (py (ll b)) (py q) Gy ltac:(exact (proj1 Qy))). pose proof (idx1_mono yg (py q) (btop b - 1) Gy ltac:(lia)). lia.
Qed.
Lemma push_rects_meets rects k : grid_pos xg yg -> Forall (rect_ok nlay) rects -> covered horz (push_rects xg yg horz rects) k <-> meets xg yg rects k.
Proof.
  intros G H. rewrite push_rects_covered. rewrite Forall_forall in H. unfold meets. split; intros (r & Hr & Hk); exists r; (split; [assumption|]); apply rcell_meets; auto.
Qed.
End Merge.
