(* genGuides: connected guides are accepted, and what is written connects the pins. *)
From Verif Require Import Base Stl GeomModel GCellModel MazeModel TreeModel TreeSpec TreeProofs2 ConnModel ConnProofs3 ConnProofs4 ConnProofs5 GuideModel GuideSpec GuideProofs1 GuideProofs2 GuideProofs3 GuideProofs4 GuideProofs5.

Section Top.
Variables xg yg : gpat.
Variable nlay : Z.
Variable horz : Z -> bool.
Variable va : Z.
Hypothesis gpos : grid_pos xg yg.
Hypothesis alt : alternating horz.
Variable rects : list (Z * box).
Hypothesis rok : Forall (rect_ok nlay) rects.
Variable v : intvs.
Hypothesis mer : genGuides_merge xg yg nlay horz rects = Some v.
Variable pins : list (list loc).
Notation v0 := (push_rects xg yg horz rects).
Notation nbr := (nbr nlay).
Notation cell := (cell horz).
Notation met := (meets xg yg rects).

Lemma vok : iv_ok v.
Proof. exact (merge_ok xg yg nlay horz rects v mer). Qed.
Lemma met_has l t c : met (cell l t c) <-> iv_has v0 l t c.
Proof. rewrite <- (push_rects_meets xg yg nlay horz) by assumption. apply (covered_cell horz v0). Qed.
Lemma met_layer k : met k -> 0 <= snd k < nlay.
Proof. intros (r & Hr & E & _). rewrite E. rewrite Forall_forall in rok. apply (rok r Hr). Qed.
Lemma met_v l t c : met (cell l t c) -> iv_has v l t c.
Proof. intros H. apply met_has in H. apply (merge_has xg yg nlay horz rects v mer). assumption. Qed.
Lemma met_cell k : met k -> exists l t c, k = cell l t c /\ 0 <= l < nlay /\ iv_has v0 l t c /\ iv_has v l t c.
Proof.
  intros H. exists (snd k), (track_of horz (snd k) (fst k)), (pos_of horz (snd k) (fst k)). rewrite (cell_back horz). split; [reflexivity|]. split; [apply met_layer; assumption|].
  rewrite <- (cell_back horz k) in H. split; [apply met_has; assumption|apply met_v; assumption].
Qed.
Lemma along_inv l t c l' t' c' : along horz (cell l t c) (cell l' t' c') -> l' = l /\ t' = t /\ Z.abs (c - c') = 1.
Proof. unfold along, GuideProofs5.cell, cell_at. cbn [fst snd]. intros [<- H]. split; [reflexivity|]. destruct (horz l); cbn [px py] in H; lia. Qed.
Lemma across_inv l t c l' t' c' : across horz (cell l t c) (cell l' t' c') -> l' = l /\ c' = c /\ Z.abs (t - t') = 1.
Proof. unfold across, GuideProofs5.cell, cell_at. cbn [fst snd]. intros [<- H]. split; [reflexivity|]. destruct (horz l); cbn [px py] in H; lia. Qed.
Lemma stacked_inv l t c l' t' c' : 0 <= l' < nlay -> stacked (cell l t c) (cell l' t' c') -> nbr l l' /\ t' = c /\ c' = t.
Proof.
  intros Hl [E H]. cbn [GuideProofs5.cell snd] in H. assert (Hn : nbr l l') by (split; [lia|assumption]). split; [assumption|].
  unfold GuideProofs5.cell in E. cbn [fst] in E. rewrite <- (cell_nbr nlay horz alt l l' t c Hn) in E.
  pose proof (f_equal (track_of horz l') E) as E1. pose proof (f_equal (pos_of horz l') E) as E2. rewrite !track_cell in E1. rewrite !pos_cell in E2. auto.
Qed.

Section Walk.
Variable rs : list (Z * box).
Hypothesis split : genGuides_split nlay horz va v pins true = Some rs.
Variable ft : bool.
Notation got := (got nlay horz va v pins rs ft).
Lemma met_step k k' : met k -> met k' -> rect_step horz va k k' -> got k -> got k'.
Proof.
  intros Hk Hk' S G. destruct (met_cell k Hk) as (l & t & c & -> & Hl & H0 & H). destruct (met_cell k' Hk') as (l' & t' & c' & -> & Hl' & H0' & H').
  destruct S as [[Hv [S|S]]|S].
  - apply along_inv in S as (-> & -> & Ha). apply (got_along nlay horz va v vok pins rs ft l t c c' G H' Ha Hv).
  - apply across_inv in S as (-> & -> & Ha). cbn [GuideProofs5.cell snd] in Hv.
    destruct (merge_has xg yg nlay horz rects v mer) as (M1 & _ & M3).
    assert (B : exists b e c' l', b <= c <= e /\ b <= c' <= e /\ (forall x, b <= x <= e -> iv_has v l t x /\ iv_has v l t' x) /\ nbr l l' /\ iv_has v l' c' t /\ iv_has v l' c' t').
    { assert (t' = t - 1 \/ t = t' - 1) as [-> | ->] by lia.
      - destruct (M3 l t c Hl H0 H0') as (b & e & c' & l' & Hb & Hb' & Hr & Hn & B1 & B2). exists b, e, c', l'. repeat split; try lia; try assumption; try apply Hn; destruct (Hr x ltac:(lia)); auto.
      - destruct (M3 l t' c Hl H0' H0) as (b & e & c' & l' & Hb & Hb' & Hr & Hn & B1 & B2). exists b, e, c', l'. repeat split; try lia; try assumption; try apply Hn; destruct (Hr x ltac:(lia)); auto. }
    destruct B as (b & e & c' & l' & Hb & Hb' & Hr & Hn & B1 & B2).
    exact (got_across nlay horz va alt v vok pins rs split ft l t t' c b e l' c' Hl Hv G Ha Hb Hb' Hr Hn B1 B2).
  - apply stacked_inv in S as (Hn & -> & ->); [|assumption]. apply (got_stack nlay horz va alt v pins rs split ft l l' t c Hl Hn G H H').
Qed.
Lemma met_path k k' : connected met (rect_step horz va) k k' -> got k -> got k' /\ met k'.
Proof. induction 1 as [H|k1 k2 C IH H2 S]; intros G; [auto|]. destruct (IH G) as [G1 M1]. split; [|assumption]. eapply met_step; eauto. Qed.
Lemma met_pins q k0 k : pin_cells pins 0 k0 -> pin_cells pins q k -> connected met (rect_step horz va) k0 k ->
  leads va rs (length (pin2GCell nlay horz v pins)) (pin_cells (pin2GCell nlay horz v pins)) ft (Pn q).
Proof.
  intros P0 Pq C. assert (M0 : met k0) by (clear -C; induction C; assumption).
  assert (T : forall q k, met k -> pin_cells pins q k -> pin_cells (pin2GCell nlay horz v pins) q k).
  { intros q' k' M P. apply (tie_iff nlay horz v pins). split; [assumption|]. split; [apply met_layer; assumption|]. destruct (met_cell k' M) as (l & t & c & -> & _ & _ & H). apply (covered_cell horz v). assumption. }
  pose proof (got_pin0 nlay horz va v pins rs split ft k0 (T 0%nat k0 M0 P0)) as G0. destruct (met_path k0 k C G0) as [G M].
  exact (got_pin nlay horz va v pins rs split ft q k (T q k M Pq) G).
Qed.
End Walk.

(* no stray guide: the split does not stop *)
Lemma split_some retry : no_stray horz met pins -> genGuides_split nlay horz va v pins retry <> None.
Proof.
  intros NS. unfold genGuides_split. apply cat_opt_some. intros l Hl. apply zrange_in in Hl. apply cat_opt_some. intros [t s] Hs. unfold split_track. cbn [fst snd]. apply cat_opt_some. intros [b e] Hb.
  assert (Hi : intv nlay v l t b e) by (split; [lia|eauto]).
  unfold split_piece. destruct (negb retry && (l <=? va)); [discriminate|].
  assert (K : exists c, b <= c <= e /\ key nlay horz v pins l t c).
  { pose proof (intv_nonempty nlay v vok l t b e Hi) as Hbe.
    destruct (merge_has xg yg nlay horz rects v mer) as (M1 & M2 & _).
    destruct (M2 l t b (intv_has nlay v l t b e b Hi ltac:(lia))) as [H|(l0 & t0 & Hl0 & Hn & (e0 & He0 & Hrow & _) & Ht & _)].
    - apply met_has in H. destruct (NS _ H) as (k' & C & Kk).
      assert (R : exists c, k' = cell l t c /\ b <= c <= e).
      { clear Kk. induction C as [H'|k1 k2 C IH H2 S]; [exists b; split; [reflexivity|lia]|]. destruct IH as (c & -> & Hc). destruct (met_cell k2 H2) as (l2 & t2 & c2 & -> & _ & _ & Hv2).
        apply along_inv in S as (-> & -> & Ha). exists c2. split; [reflexivity|]. exact (intv_run nlay horz v vok l t b e c c2 Hi Hc Hv2 Ha). }
      destruct R as (c & -> & Hc). exists c. split; [assumption|]. destruct Kk as [Kk|(k'' & M & S)]; [right; exact Kk|].
      left. destruct (met_cell k'' M) as (l' & t' & c' & -> & Hl' & _ & Hv'). apply stacked_inv in S as (Hn & -> & ->); [|assumption]. eauto.
    - exists b. split; [lia|]. left. exists l0. split; [destruct Hn as [[-> | ->] _]; split; [right; lia|lia|left; lia|lia]|]. apply M1. assert (b = t0 \/ b = t0 - 1) as [-> | ->] by lia; apply Hrow; lia. }
  destruct K as (c & Hc & K). assert (I : In c (line_idx nlay horz v pins l t b e)) by (apply line_idx_in; [lia|auto]).
  destruct (line_idx nlay horz v pins l t b e) as [|x [|y r]]; [destruct I|discriminate|discriminate].
Qed.

(* ---- one attempt *)
Variable walk : nmap -> nmap.
Hypothesis walk_in : forall m e, In e (walk m) <-> In e m.
Variable allowFT : bool.
Lemma piece_run retry rs g g' : genGuides_split nlay horz va v pins retry = Some rs -> In g rs -> shrunk g g' -> covered_run horz v g'.
Proof.
  intros E Hg [L S]. destruct (split_sound nlay horz va v pins retry rs E g Hg) as (l & t & b & e & a & c & Hi & -> & Ha & Hc).
  destruct g' as [l' b']. cbn [fst snd] in *. unfold GuideModel.piece in L, S. cbn [fst snd ll ur] in L, S. subst l'.
  assert (Cov : forall x, a <= x <= c -> covered horz v (cell l t x)) by (intros x Hx; apply (covered_cell horz v); eapply intv_has; [exact Hi|lia]).
  assert (Run : forall a' c', a <= a' -> a' <= c' -> c' <= c -> covered_run horz v (l, mkBox (cell_at horz l t a') (cell_at horz l t c'))).
  { intros a' c' H1 H2 H3. unfold covered_run, cell_at, bleft, bright, bbottom, btop. cbn [ll ur]. unfold GuideProofs5.cell, cell_at in Cov. destruct (horz l); cbn [px py]; (split; [lia|split; [lia|split; [reflexivity|]]]).
    - intros [x y] Hx Hy. cbn [px py] in *. replace y with t by lia. apply Cov. lia.
    - intros [x y] Hx Hy. cbn [px py] in *. replace x with t by lia. apply Cov. lia. }
  destruct S as [-> | [-> | ->]]; apply Run; lia.
Qed.
Lemma attempt_spec retry force : exists n0, forall pick fuel, (n0 <= fuel)%nat ->
  match attempt nlay horz va allowFT pick fuel walk v pins retry force with
  | None => genGuides_split nlay horz va v pins retry = None
  | Some (Some (out, recs)) => guides_ok horz va v pins (ft allowFT force) out recs
  | Some None => exists rs, genGuides_split nlay horz va v pins retry = Some rs /\
      ~ forall q, (q < length pins)%nat -> leads va rs (length (pin2GCell nlay horz v pins)) (pin_cells (pin2GCell nlay horz v pins)) (ft allowFT force) (Pn q)
  end.
Proof.
  unfold attempt. destruct (genGuides_split nlay horz va v pins retry) as [rs|] eqn:Es; [|exists 0%nat; reflexivity].
  set (pins' := pin2GCell nlay horz v pins). assert (Lp : length pins' = length pins) by (unfold pins', pin2GCell; apply map_length).
  destruct (astar_spec rs pins' va allowFT force) as (n0 & A). exists n0. intros pick fuel Hf. destruct (A pick fuel Hf) as (ok & K & prev & -> & A1 & A2 & A3 & _ & A5 & A6 & A7 & A8 & _).
  destruct ok; [|exists rs; split; [reflexivity|]; rewrite Lp in *; intros H; specialize (A8 H); discriminate].
  destruct (final_theorem rs pins' va allowFT force K prev A1 A2 A3 walk walk_in) as (out & -> & F1 & F2 & F3 & F4).
  rewrite Lp in *. split; [|split; [|split]].
  - intros g Hg. destruct (F1 g Hg) as (g0 & H0 & S & L). split; [eapply piece_run; eauto|assumption].
  - intros Hn q Hq. apply F2; [assumption|]. apply A7; auto.
  - intros q k H. destruct (F3 q k H) as [P E]. split; [|assumption]. apply (tie_iff nlay horz v pins) in P. tauto.
  - assumption.
Qed.

Notation pins_met := (pins_joined xg yg horz va rects pins).
Theorem genGuides_spec : exists n0, forall pick fuel, (n0 <= fuel)%nat ->
  match genGuides xg yg nlay horz va allowFT pick fuel walk rects pins with
  | Some (out, recs) => exists ft, guides_ok horz va v pins ft out recs /\ (ft = true -> allowFT = true \/ ~ pins_met)
  | None => ~ (no_stray horz met pins /\ pins_met)
  end.
Proof.
  destruct (attempt_spec false false) as (n1 & S1), (attempt_spec true false) as (n2 & S2), (attempt_spec true true) as (n3 & S3).
  exists (Nat.max n1 (Nat.max n2 n3)). intros pick fuel Hf. specialize (S1 pick fuel ltac:(lia)). specialize (S2 pick fuel ltac:(lia)). specialize (S3 pick fuel ltac:(lia)).
  unfold genGuides. rewrite mer.
  assert (F : ft allowFT false = allowFT) by (unfold ft; destruct allowFT; reflexivity). rewrite F in *.
  assert (P : forall rs, genGuides_split nlay horz va v pins true = Some rs -> pins_met -> forall q, (q < length pins)%nat -> forall f, leads va rs (length (pin2GCell nlay horz v pins)) (pin_cells (pin2GCell nlay horz v pins)) f (Pn q)).
  { intros rs E H q Hq f. destruct (H q Hq) as (k0 & k & P0 & Pq & C). exact (met_pins rs E f q k0 k P0 Pq C). }
  destruct (attempt nlay horz va allowFT pick fuel walk v pins false false) as [[[out recs]|]|].
  - exists allowFT. auto.
  - destruct (attempt nlay horz va allowFT pick fuel walk v pins true false) as [[[out recs]|]|].
    + exists allowFT. auto.
    + destruct S2 as (rs & Es & N). assert (NP : ~ pins_met) by (intros H; apply N; intros q Hq; eapply P; eauto).
      destruct allowFT; [tauto|]. destruct (attempt nlay horz va false pick fuel walk v pins true true) as [[[out recs]|]|]; [|tauto|tauto]. exists (ft false true). auto.
    + intros [NS _]. exact (split_some true NS S2).
  - intros [NS _]. exact (split_some false NS S1).
Qed.
End Top.
