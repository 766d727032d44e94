(* Proofs about minimum-area patches: one patch for each stretch with too little area. *)
From Verif Require Import Base Stl GeomModel GridModel PatchModel PatchSpec PatchProofs.

Lemma away_left horz p next other : away horz p next other (to_left horz p next other).
Proof.
  unfold away, to_left, along. cbv zeta.
  set (a := if horz then mx p else my p). set (b := if horz then mx next else my next). set (c := if horz then mx other else my other).
  destruct (Z.ltb_spec a b) as [H|H].
  - split; [intros _; left; exact H|reflexivity].
  - rewrite Z.gtb_ltb. destruct (Z.ltb_spec b a) as [H1|H1]; [split; [discriminate|intros; exfalso; lia]|].
    destruct (Z.ltb_spec a c); split; try discriminate; intros; try lia; reflexivity.
Qed.

Section P.
Variables (E : penv) (g : gg).

Lemma travelled_snoc st' prev p : travelled g ((st' ++ [prev]) ++ [p]) = travelled g (st' ++ [prev]) + seg_dist g prev p.
Proof.
  induction st' as [|a st' IH].
  - cbn [app travelled]. lia.
  - destruct st' as [|b st'].
    + cbn [app travelled] in *. lia.
    + change (travelled g (((a :: b :: st') ++ [prev]) ++ [p])) with (seg_dist g a b + travelled g (((b :: st') ++ [prev]) ++ [p])).
      change (travelled g ((a :: b :: st') ++ [prev])) with (seg_dist g a b + travelled g ((b :: st') ++ [prev])).
      rewrite IH. lia.
Qed.
Lemma seg_dist_nonneg p q : 0 <= seg_dist g p q.
Proof. unfold seg_dist. lia. Qed.
Lemma stretch_patch_places st gap z : st <> [] -> (forall r, In r st -> mz r = z) ->
  exists p lp q lq, first_place E st p lp /\ last_place E st q lq /\ mz p = z /\ mz q = z /\
    stretch_patch E g st gap = [add_patch E g p q gap (pl_width (pe_layer E z)) lp lq] /\
    (exists a, st = p :: a) /\ (exists b, st = b ++ [q]).
Proof.
  intros N Z. destruct st as [|p r]; [congruence|]. clear N.
  pose proof (Z p (or_introl eq_refl)) as Zp.
  destruct r as [|p1 r].
  - exists p, true, p, false. split; [left; auto|]. split; [left; auto|]. split; [exact Zp|]. split; [exact Zp|].
    split; [cbn; rewrite Zp; reflexivity|].
    split; [exists []; reflexivity|exists []; reflexivity].
  - destruct (exists_last (l := p1 :: r) ltac:(discriminate)) as (mid & q & Em).
    assert (Zq : mz q = z) by (apply Z; right; rewrite Em; apply in_or_app; right; left; reflexivity).
    unfold stretch_patch.
    assert (Er : rev (p :: p1 :: r) = q :: rev (p :: mid)) by (rewrite Em, app_comm_cons, rev_app_distr; reflexivity).
    rewrite Er.
    destruct (rev (p :: mid)) as [|q1 t] eqn:Et; [cbn [rev] in Et; symmetry in Et; apply app_cons_not_nil in Et; elim Et|].
    set (horz := pl_horz (pe_layer E (mz p))).
    exists p, (to_left horz p p1 q), q, (to_left horz q q1 p).
    split; [right; exists p1, mid, q; rewrite <- Em; split; [reflexivity|split; [reflexivity|apply away_left]]|].
    split; [|split; [exact Zp|split; [exact Zq|split; [rewrite Zp; reflexivity|split; [eexists; reflexivity|exists (p :: mid); rewrite Em; reflexivity]]]]].
    right. exists q1, mid, p. rewrite Em. split; [reflexivity|]. rewrite Et. split; [reflexivity|].
    unfold horz. rewrite Zp, <- Zq. apply away_left.
Qed.
Lemma patch_length_spec gap w : 0 < pe_mgrid E -> 0 < w ->
  (exists k, patch_length E gap w = k * pe_mgrid E) /\ gap <= patch_length E gap w * w /\ (patch_length E gap w - pe_mgrid E) * w < gap.
Proof.
  intros M W. unfold patch_length. set (m := pe_mgrid E) in *.
  pose proof (Z.mul_pos_pos w m W M) as WM.
  pose proof (Z.div_mod (- gap) (w * m) ltac:(lia)) as D. pose proof (Z.mod_pos_bound (- gap) (w * m) WM) as B.
  set (k := - gap / (w * m)) in *. split; [exists (- k); lia|]. split; nia.
Qed.
Lemma pwire_at gap p left : 0 < pe_mgrid E -> 0 < pl_width (pe_layer E (mz p)) ->
  patch_at E g gap p left (pwire g p (pl_horz (pe_layer E (mz p))) left (patch_length E gap (pl_width (pe_layer E (mz p)))) (pl_width (pe_layer E (mz p)))).
Proof.
  intros M W. destruct (patch_length_spec gap _ M W) as (K & L1 & L2).
  exists (patch_length E gap (pl_width (pe_layer E (mz p)))). cbv zeta. unfold pwire. cbn [pa_layer pa_origin pa_off].
  repeat (split; [first [reflexivity|assumption]|]).
  destruct (pl_horz (pe_layer E (mz p))), left; rewrite ?Z.sub_0_l, ?Z.add_0_l; reflexivity.
Qed.

Hypothesis (GE : good_penv E).
Lemma GM : 0 < pe_mgrid E. Proof. apply GE. Qed.
Lemma GW z : 0 < pl_width (pe_layer E z). Proof. apply GE. Qed.
Lemma stretch_patch_for st gap z : st <> [] -> (forall r, In r st -> mz r = z) ->
  exists P, stretch_patch E g st gap = [P] /\ patch_for E g st gap P.
Proof.
  intros N Z. destruct (stretch_patch_places st gap z N Z) as (p & lp & q & lq & F & L & Zp & Zq & Eq & _).
  rewrite Eq. unfold add_patch. eexists. split; [reflexivity|].
  destruct (_ <=? _).
  - exists p, lp. split; [left; exact F|]. rewrite <- Zp. apply pwire_at; [apply GM|apply GW].
  - exists q, lq. split; [right; exact L|]. rewrite Zp, <- Zq. apply pwire_at; [apply GM|apply GW].
Qed.

Lemma half_nonneg b : centred b -> 0 <= box_width b -> 0 <= half_area b.
Proof.
  intros _ W. unfold half_area. apply Z.quot_pos; [|lia].
  apply Z.mul_nonneg_nonneg; [exact W|]. unfold box_width, box_length in *. lia.
Qed.
Lemma via_half_nonneg z z' : 0 <= half_area (via_metal E z z').
Proof.
  unfold via_metal. destruct GE as (_ & G). destruct (z' <? z).
  - destruct (G (z - 1)) as (_ & _ & _ & C & _ & W). replace (z - 1 + 1) with z in W by lia.
    apply half_nonneg; [exact C|]. pose proof (GW z). lia.
  - destruct (G z) as (W0 & _ & C & _ & W & _). apply half_nonneg; [exact C|]. lia.
Qed.

Variable (am : midx -> option Z).
Hypothesis (AM : forall p a, am p = Some a -> 0 <= a).

Definition shortb (s : list midx * list midx * list midx) : bool :=
  match s with (pre, st, post) => match st with p :: _ => counted E g am pre st post <? req_area E (mz p) | [] => false end end.
Lemma shortb_iff s : shortb s = true <-> short E g am s.
Proof.
  destruct s as ((pre & st) & post). unfold shortb, short. destruct st as [|p st].
  - split; [discriminate|intros (p & s' & H & _); discriminate].
  - rewrite Z.ltb_lt. split; [intros H; exists p, st; auto|intros (p' & s' & H & H')].
    inversion H; subst. exact H'.
Qed.
Lemma start_area_snoc pre st p : st <> [] -> start_area E am pre (st ++ [p]) = start_area E am pre st /\ start_half E pre (st ++ [p]) = start_half E pre st.
Proof. destruct st; [congruence|]. intros _. split; reflexivity. Qed.
Definition loop_inv (pre st : list midx) (prev : midx) (cur sh : Z) : Prop :=
  sh = start_half E pre st /\
  cur <= start_area E am pre st + wire_area E g st /\
  (cur < req_area E (mz prev) -> cur = start_area E am pre st + wire_area E g st).

(* the counted area decides as the area of the loop does *)
Lemma loop_short pre st prev cur sh post e : at_stretch pre st prev -> loop_inv pre st prev cur sh ->
  e = end_area E am st post -> 0 <= e ->
  (cur + e <? req_area E (mz prev)) = shortb (pre, st, post) /\
  (cur + e < req_area E (mz prev) -> cur + e = counted E g am pre st post).
Proof.
  intros A (_ & I2 & I3) He H0. pose proof (at_nonempty _ _ _ A) as N. destruct A as [_ Z _].
  unfold shortb. destruct st as [|p st]; [congruence|]. rewrite (Z p (or_introl eq_refl)).
  unfold counted. rewrite <- He. split; [|intros H; rewrite I3 by lia; lia].
  set (full := start_area E am pre (p :: st) + wire_area E g (p :: st)) in *.
  destruct (Z.ltb_spec (cur + e) (req_area E (mz prev))), (Z.ltb_spec (full + e) (req_area E (mz prev))); try reflexivity.
  - rewrite I3 in H by lia. lia.
  - lia.
Qed.
Lemma end_area_last st' prev post : end_area E am (st' ++ [prev]) post =
  match post with [] => match am prev with Some a => a | None => 0 end | q :: _ => half_area (via_metal E (mz prev) (mz q)) end.
Proof. unfold end_area. rewrite rev_app_distr. reflexivity. Qed.
Lemma end_half_last st' prev post : end_half E (st' ++ [prev]) post =
  match post with [] => 0 | q :: _ => half_area (via_metal E (mz prev) (mz q)) end.
Proof. unfold end_half. rewrite rev_app_distr. reflexivity. Qed.

Definition pfor (s : list midx * list midx * list midx) (P : patch) : Prop :=
  match s with (pre, st, post) => stretch_patch E g st (missing E g am pre st post) = [P] end.
Lemma one_stretch pre st prev cur sh post e eh : at_stretch pre st prev -> loop_inv pre st prev cur sh ->
  e = end_area E am st post -> eh = end_half E st post -> 0 <= e ->
  Forall2 pfor (filter shortb [(pre, st, post)])
    (if cur + e <? req_area E (mz prev) then stretch_patch E g st (gap_area (req_area E (mz prev)) (cur + e) sh eh) else []).
Proof.
  intros A I He Heh H0. destruct (loop_short _ _ _ _ _ _ _ A I He H0) as (S1 & S2).
  cbn [filter]. rewrite <- S1. destruct (Z.ltb_spec (cur + e) (req_area E (mz prev))) as [L|L]; [|constructor].
  rewrite (S2 L). pose proof (at_nonempty _ _ _ A) as N. destruct A as [_ Z _]. destruct I as (I1 & _).
  set (gap := gap_area _ _ _ _). destruct (stretch_patch_for st gap (mz prev) N Z) as (P & Hp & _). rewrite Hp.
  constructor; [|constructor]. cbn [pfor].
  replace (missing E g am pre st post) with gap; [exact Hp|].
  unfold gap, gap_area, missing. destruct st as [|p st]; [congruence|]. rewrite (Z p (or_introl eq_refl)), Heh, I1. reflexivity.
Qed.

Lemma patch_loop_segs rest : forall pre st prev cur sh, at_stretch pre st prev -> loop_inv pre st prev cur sh ->
  unit_steps (prev :: rest) ->
  Forall2 pfor (filter shortb (segs pre st prev rest)) (patch_loop E g am st prev cur sh rest).
Proof.
  induction rest as [|p rest IH]; intros pre st prev cur sh A I U.
  - cbn [segs patch_loop]. cbv zeta. pose proof A as [(st' & Est) _ _].
    apply one_stretch; auto.
    + subst st. rewrite end_area_last. reflexivity.
    + subst st. rewrite end_half_last. reflexivity.
    + destruct (am prev) as [a|] eqn:Ea; [eapply AM; eauto|lia].
  - cbn [segs patch_loop]. apply unit_steps_cons in U. destruct U as (U1 & U2). cbv zeta.
    destruct (Z.eqb_spec (mz p) (mz prev)) as [Ez|Nz]; cbn [negb].
    + apply IH; [eapply at_same; eauto| |exact U2].
      pose proof (at_nonempty _ _ _ A) as N. destruct I as (I1 & I2 & I3).
      destruct (start_area_snoc pre st p N) as (SA & SH). unfold loop_inv. rewrite SA, SH, Ez.
      assert (WA : wire_area E g (st ++ [p]) = wire_area E g st + seg_dist g prev p * pl_width (pe_layer E (mz prev))).
      { destruct A as [(st' & ->) Z _]. unfold wire_area. rewrite travelled_snoc.
        destruct (st' ++ [prev]) as [|x t] eqn:Ex; [congruence|]. cbn [app]. rewrite (Z x (or_introl eq_refl)). lia. }
      rewrite WA. pose proof (seg_dist_nonneg prev p). pose proof (GW (mz prev)) as W.
      pose proof (Z.mul_nonneg_nonneg _ _ H (Z.lt_le_incl _ _ W)) as MN.
      split; [exact I1|]. destruct (Z.ltb_spec cur (req_area E (mz prev))) as [L|L].
      * rewrite (I3 L). split; [lia|intros _; lia].
      * split; [lia|intros; lia].
    + cbn [filter]. pose proof A as [(st' & Est) _ _].
      set (eh := if mz p <? mz prev then _ else _). set (nh := if mz p <? mz prev then _ else _).
      assert (Eeh : eh = half_area (via_metal E (mz prev) (mz p))).
      { unfold eh, via_metal, pe_half. destruct (mz p <? mz prev); reflexivity. }
      assert (Enh : nh = half_area (via_metal E (mz p) (mz prev))).
      { unfold nh, via_metal, pe_half. destruct (Z.ltb_spec (mz p) (mz prev)), (Z.ltb_spec (mz prev) (mz p)); try lia; cbn [fst snd].
        - replace (mz prev - 1) with (mz p) by lia. reflexivity.
        - replace (mz p - 1) with (mz prev) by lia. reflexivity. }
      change (filter shortb (?a :: ?b)) with (filter shortb ([a] ++ b)).
      replace (if shortb (pre, st, p :: rest) then (pre, st, p :: rest) :: filter shortb (segs (pre ++ st) [p] p rest) else filter shortb (segs (pre ++ st) [p] p rest))
        with (filter shortb [(pre, st, p :: rest)] ++ filter shortb (segs (pre ++ st) [p] p rest))
        by (cbn [filter]; destruct (shortb _); reflexivity).
      apply Forall2_app.
      * apply one_stretch; auto.
        { subst st. rewrite end_area_last. exact Eeh. }
        { subst st. rewrite end_half_last. exact Eeh. }
        { rewrite Eeh. apply via_half_nonneg. }
      * apply IH; [eapply at_next; eauto| |exact U2].
        assert (Rv : rev (pre ++ st) = prev :: rev (pre ++ st')) by (subst st; rewrite app_assoc, rev_app_distr; reflexivity).
        unfold loop_inv, start_half, start_area, wire_area. rewrite Rv. cbn [travelled].
        rewrite Enh. split; [reflexivity|]. split; [lia|intros; lia].
Qed.
End P.

Lemma patches_of_stretches_eq E g aps am path : good_penv E -> records aps am -> (forall p a, In (p, a) aps -> 0 <= a) ->
  exists sts, NoDup sts /\
    (forall pre st post, In (pre, st, post) sts <-> stretch (expand path) pre st post /\ short E g am (pre, st, post)) /\
    Forall2 (fun s P => match s with (pre, st, post) => stretch_patch E g st (missing E g am pre st post) = [P] end)
            sts (min_area_patches E g aps path).
Proof.
  intros G R NN. unfold min_area_patches.
  destruct (expand path) as [|p rest] eqn:Ex.
  - exists []. split; [constructor|]. split; [|constructor].
    intros pre st post. split; [intros []|intros ((H & N & _) & _)].
    destruct pre, st; try discriminate; congruence.
  - exists (filter (shortb E g am) (segs [] [p] p rest)).
    pose proof (at_start p) as A.
    split; [apply NoDup_filter, segs_NoDup, A|]. split.
    + intros pre st post. rewrite filter_In, shortb_iff. split; intros (I & S); split; auto.
      * eapply (segs_sound (p :: rest) rest [] [p] p A eq_refl); exact I.
      * eapply (segs_complete (p :: rest) rest [] [p] p A eq_refl); [exact I|cbn; lia].
    + assert (X : forall q, am q = area_map aps q) by (intros q; eapply records_unique; [exact R|apply records_area_map]).
      assert (AMr : forall q a, area_map aps q = Some a -> 0 <= a).
      { intros q a Hq. pose proof (records_area_map aps q) as Rq. rewrite Hq in Rq. eapply NN, Rq. }
      assert (U : unit_steps (p :: rest)) by (rewrite <- Ex; apply expand_unit).
      assert (I : loop_inv E g (area_map aps) [] [p] p (match area_map aps p with Some a => a | None => req_area E (mz p) end) 0).
      { split; [reflexivity|]. unfold start_area, wire_area. cbn [rev travelled]. split; [lia|intros; lia]. }
      pose proof (patch_loop_segs E g G (area_map aps) AMr rest [] [p] p _ 0 A I U) as F.
      assert (Q : forall s, shortb E g am s = shortb E g (area_map aps) s /\ forall P, pfor E g am s P <-> pfor E g (area_map aps) s P).
      { intros ((a & b) & c).
        assert (C : counted E g am a b c = counted E g (area_map aps) a b c).
        { unfold counted, start_area, end_area. destruct b as [|x b]; [reflexivity|].
          f_equal; [f_equal; destruct (rev a); [rewrite X|]; reflexivity|].
          destruct (rev (x :: b)); [reflexivity|]. destruct c; [rewrite X|]; reflexivity. }
        split; [unfold shortb; rewrite C; reflexivity|]. intros P. unfold pfor, missing. rewrite C. reflexivity. }
      replace (filter (shortb E g am) (segs [] [p] p rest)) with (filter (shortb E g (area_map aps)) (segs [] [p] p rest))
        by (apply filter_ext; intros s; symmetry; apply Q).
      clear - F Q. induction F as [|s P l l' H F IH]; constructor; [|exact IH].
      apply (proj2 (Q s) P) in H. exact H.
Qed.

Theorem patches_of_stretches E g aps am path : good_penv E -> records aps am -> (forall p a, In (p, a) aps -> 0 <= a) ->
  exists sts, NoDup sts /\
    (forall pre st post, In (pre, st, post) sts <-> stretch (expand path) pre st post /\ short E g am (pre, st, post)) /\
    Forall2 (fun s P => match s with (pre, st, post) => patch_for E g st (missing E g am pre st post) P end)
            sts (min_area_patches E g aps path).
Proof.
  intros G R NN. destruct (patches_of_stretches_eq E g aps am path G R NN) as (sts & N & I & F).
  exists sts. split; [exact N|]. split; [exact I|].
  assert (K : forall s, In s sts -> match s with (pre, st, post) => stretch (expand path) pre st post end).
  { intros ((pre & st) & post) H. apply I in H. apply H. }
  clear - F K G. induction F as [|s P l l' H F IH]; constructor; [|apply IH; intros t T; apply K; right; exact T].
  specialize (K s (or_introl eq_refl)). destruct s as ((pre & st) & post). destruct K as (_ & Ns & z & Hz & _).
  destruct (stretch_patch_for E g G st (missing E g am pre st post) z Ns Hz) as (P' & E' & F'). rewrite H in E'. inversion E'; subst. exact F'.
Qed.
