(* Proofs about minimum-area patches: straight stretches have the minimum area. *)
From Verif Require Import Base Stl GeomModel GridModel PatchModel PatchSpec PatchProofs PatchProofs2 PatchProofs3 PatchProofs4 PatchProofs5.

Lemma next_to_cons p l r s : next_to l r s -> next_to (p :: l) r s.
Proof. intros (a & b & ->). exists (p :: a), b. reflexivity. Qed.
Lemma between_up (f : midx -> Z) mid : forall p q v, f p <= v < f q ->
  exists r s, next_to (p :: mid ++ [q]) r s /\ f r <= v < f s.
Proof.
  induction mid as [|m mid IH]; intros p q v H.
  - exists p, q. split; [exists [], []; reflexivity|exact H].
  - destruct (Z_lt_le_dec v (f m)) as [L|L].
    + exists p, m. split; [exists [], (mid ++ [q]); reflexivity|lia].
    + destruct (IH m q v ltac:(lia)) as (r & s & N & B). exists r, s. split; [apply next_to_cons, N|exact B].
Qed.
Lemma between_down (f : midx -> Z) mid p q v : f q <= v < f p -> exists r s, next_to (p :: mid ++ [q]) r s /\ f s <= v < f r.
Proof.
  intros H. destruct (between_up (fun m => - f m) mid p q (- v - 1) ltac:(cbv beta; lia)) as (r & s & N & B).
  exists r, s. split; [exact N|lia].
Qed.
Lemma next_to_in l r s : next_to l r s -> In r l /\ In s l.
Proof. intros (a & b & ->). split; apply in_or_app; right; [left|right; left]; reflexivity. Qed.

Section W.
Variables (g : gg) (st : list midx) (first last : midx) (w : Z).
Hypotheses (Ef : exists a, st = first :: a) (El : exists b, st = b ++ [last]).
Let X (p : midx) := px (getPoint g p).
Let Y (p : midx) := py (getPoint g p).
Lemma ends_cases : (st = [first] /\ last = first) \/ exists mid, st = first :: mid ++ [last].
Proof.
  destruct Ef as (a & Ea), El as (b & Eb). destruct b as [|x b].
  - left. assert (Q : first :: a = [last]) by (rewrite <- Ea; exact Eb). inversion Q. split; [rewrite Eb; reflexivity|reflexivity].
  - right. exists b. assert (Q : first :: a = x :: b ++ [last]) by (rewrite <- Ea; exact Eb). inversion Q. rewrite Eb. reflexivity.
Qed.
Lemma wire_cover x y : ((forall r, In r st -> Y r = Y first) \/ (forall r, In r st -> X r = X first)) ->
  sq_in (wire_box w (getPoint g first) (getPoint g last)) x y ->
  exists r s, next_to st r s /\ sq_in (wire_box w (getPoint g r) (getPoint g s)) x y.
Proof.
  intros St H. unfold wire_box in H. fold (Y first) (Y last) (X first) (X last) in H.
  destruct ends_cases as [(E1 & E2)|(mid & Em)].
  { exfalso. subst last. rewrite Z.eqb_refl in H. unfold sq_in, bleft, bright, bbottom, btop in H. cbn [ll ur px py] in H. lia. }
  assert (IL : In last st) by (rewrite Em; right; apply in_or_app; right; left; reflexivity).
  destruct St as [St|St].
  - pose proof (St last IL) as EY.
    assert (K : exists r s, next_to st r s /\ Z.min (X r) (X s) <= x < Z.max (X r) (X s)).
    { rewrite EY, Z.eqb_refl in H. unfold sq_in, bleft, bright, bbottom, btop in H. cbn [ll ur px py] in H.
      rewrite Em. destruct (Z_lt_le_dec (X first) (X last)).
      - destruct (between_up X mid first last x ltac:(lia)) as (r & s & N & B). exists r, s. split; [exact N|lia].
      - destruct (between_down X mid first last x ltac:(lia)) as (r & s & N & B). exists r, s. split; [exact N|lia]. }
    destruct K as (r & s & N & B). exists r, s. split; [exact N|].
    destruct (next_to_in _ _ _ N) as (Ir & Is). unfold wire_box. fold (Y r) (Y s) (X r) (X s).
    rewrite (St r Ir), (St s Is), Z.eqb_refl. rewrite EY, Z.eqb_refl in H.
    unfold sq_in, bleft, bright, bbottom, btop in *. cbn [ll ur px py] in *. lia.
  - destruct (Z.eqb_spec (Y first) (Y last)) as [Ey|Ny].
    { exfalso. rewrite (St last IL) in H. unfold sq_in, bleft, bright, bbottom, btop in H. cbn [ll ur px py] in H. lia. }
    assert (K : exists r s, next_to st r s /\ Z.min (Y r) (Y s) <= y < Z.max (Y r) (Y s)).
    { unfold sq_in, bleft, bright, bbottom, btop in H. cbn [ll ur px py] in H.
      rewrite Em. destruct (Z_lt_le_dec (Y first) (Y last)).
      - destruct (between_up Y mid first last y ltac:(lia)) as (r & s & N & B). exists r, s. split; [exact N|lia].
      - destruct (between_down Y mid first last y ltac:(lia)) as (r & s & N & B). exists r, s. split; [exact N|lia]. }
    destruct K as (r & s & N & B). exists r, s. split; [exact N|].
    destruct (next_to_in _ _ _ N) as (Ir & Is). unfold wire_box. fold (Y r) (Y s) (X r) (X s).
    destruct (Z.eqb_spec (Y r) (Y s)); [lia|]. rewrite (St r Ir).
    unfold sq_in, bleft, bright, bbottom, btop in *. cbn [ll ur px py] in *. lia.
Qed.
End W.
Lemma wire_box_sym w a b x y : (py a = py b \/ px a = px b) -> sq_in (wire_box w a b) x y -> sq_in (wire_box w b a) x y.
Proof.
  intros St. unfold wire_box. rewrite (Z.eqb_sym (py b)). destruct (Z.eqb_spec (py a) (py b)) as [Ey|Ny];
    unfold sq_in, bleft, bright, bbottom, btop; cbn [ll ur px py]; [lia|]. destruct St as [St|St]; [lia|]. lia.
Qed.

Lemma half_cbox ax ay : 0 <= ax -> 0 <= ay -> half_area (cbox ax ay) = 2 * ax * ay.
Proof.
  intros Hx Hy. unfold half_area, box_width, box_length, cbox, bleft, bright, bbottom, btop. cbn [ll ur px py].
  replace (Z.min (ax - - ax) (ay - - ay) * Z.max (ax - - ax) (ay - - ay)) with (2 * ax * ay * 2).
  - apply Z.quot_mul. lia.
  - destruct (Z.min_spec (ax - - ax) (ay - - ay)) as [(M & ->)|(M & ->)]; [rewrite Z.max_r by lia|rewrite Z.max_l by lia]; nia.
Qed.
Lemma centred_cbox b : centred b -> b = cbox (bright b) (btop b).
Proof.
  destruct b as [[lx ly] [rx ry]]. unfold centred, cbox, bleft, bright, bbottom, btop. cbn [ll ur px py].
  intros (-> & ->). reflexivity.
Qed.
Lemma via_cbox E z z' : good_penv E -> -1 <= z' - z <= 1 -> z' <> z -> exists ax ay,
  via_metal E z z' = cbox ax ay /\ Z.quot (pl_width (pe_layer E z)) 2 <= ax /\ Z.quot (pl_width (pe_layer E z)) 2 <= ay.
Proof.
  intros G D N. destruct G as (_ & G). unfold via_metal.
  assert (K : forall b w, centred b -> 0 < w -> Z.even w = true -> w <= box_width b ->
     exists ax ay, b = cbox ax ay /\ Z.quot w 2 <= ax /\ Z.quot w 2 <= ay).
  { intros b w C W Ev Hw. exists (bright b), (btop b). split; [apply centred_cbox, C|].
    destruct C as (C1 & C2). unfold box_width in Hw. rewrite C1, C2 in Hw.
    rewrite Z.quot_div_nonneg by lia. apply Z.even_spec in Ev. destruct Ev as (k & ->).
    rewrite Z.mul_comm, Z.div_mul by lia. lia. }
  destruct (Z.ltb_spec z' z).
  - destruct (G (z - 1)) as (_ & _ & _ & C & _ & W). replace (z - 1 + 1) with z in W by lia.
    apply K; [exact C|apply (G z)|apply (G z)|exact W].
  - destruct (G z) as (W0 & Ev & C & _ & W & _). apply K; assumption.
Qed.

Lemma expand_on_grid g path : (forall p, In p path -> on_grid g p) -> forall p, In p (expand path) -> on_grid g p.
Proof.
  induction path as [|a [|b r] IH]; intros H p I; [destruct I|apply H, I|].
  change (expand (a :: b :: r)) with (step_points a b ++ expand (b :: r)) in I.
  apply in_app_or in I. destruct I as [I|I].
  - assert (Q : mx p = mx a /\ my p = my a).
    { unfold step_points in I. destruct (mz a =? mz b); [destruct I as [->|[]]; auto|].
      destruct (mz a <? mz b); apply in_map_iff in I; destruct I as (k & <- & _); auto. }
    destruct (H a (or_introl eq_refl)) as (Ox & Oy). destruct Q as (Q1 & Q2). unfold on_grid. rewrite Q1, Q2. auto.
  - apply IH; [|exact I]. intros q J. apply H. right; exact J.
Qed.
Lemma unit_steps_app a : forall p q b, unit_steps (a ++ p :: q :: b) -> -1 <= mz q - mz p <= 1.
Proof.
  induction a as [|x a IH]; intros p q b U.
  - apply unit_steps_cons in U. apply U.
  - cbn [app] in U. destruct a as [|y a]; cbn [app] in *; apply unit_steps_cons in U; eapply IH, U.
Qed.

Section Main.
Variables (E : penv) (g : gg) (aps : list (midx * Z)) (path pre st post : list midx).
Hypotheses (GE : good_penv E) (GG : grid_ok g) (OP : forall p, In p path -> on_grid g p) (NA : forall p a, In (p, a) aps -> 0 <= a).
Hypotheses (HS : stretch (expand path) pre st post) (Hpre : pre <> []) (SS : straight_stretch g st).
Hypothesis (Hpost : post = [] -> forall st' p a, st = st' ++ [p] -> ~ In (p, a) aps).

Lemma stretch_min_area p0 st0 : st = p0 :: st0 ->
  covers (req_area E (mz p0)) (fun x y => stretch_metal E g pre st post x y \/
     patch_metal (min_area_patches E g aps path) (getLayerNum g (mz p0)) x y).
Proof.
  intros Est. set (S := fun x y => _). set (z := mz p0).
  pose proof HS as (Epts & Nst & z' & Hz & Zpre & Zpost).
  assert (Ez : z' = z) by (symmetry; apply Hz; rewrite Est; left; reflexivity). subst z'.
  pose proof (expand_unit path) as U. rewrite Epts in U.
  destruct (exists_last Hpre) as (pre' & q0 & Epre).
  destruct (exists_last Nst) as (b0 & l0 & Elast).
  assert (Ef : exists a, st = p0 :: a) by (exists st0; exact Est).
  assert (El : exists b, st = b ++ [l0]) by (exists b0; exact Elast).
  assert (Zl : mz l0 = z) by (apply Hz; rewrite Elast; apply in_or_app; right; left; reflexivity).
  assert (Og : forall r, In r st -> on_grid g r).
  { intros r Ir. apply (expand_on_grid g path OP). rewrite Epts. apply in_or_app. right. apply in_or_app. left. exact Ir. }
  destruct (straight_facts g st p0 l0 Ef El SS) as (T & St).
  set (w := pl_width (pe_layer E z)).
  assert (Wh : exists h, w = 2 * h /\ 0 < h).
  { destruct GE as (_ & G1). destruct (G1 z) as (W & Ev & _). apply Z.even_spec in Ev. destruct Ev as (h & Eh).
    exists h. fold w in W, Eh. lia. }
  destruct Wh as (h & Ew & Hh).
  assert (Hq : Z.quot w 2 = h) by (rewrite Ew; apply half2).
  (* the start via *)
  assert (D0 : -1 <= mz q0 - z <= 1).
  { rewrite Epre, Est, <- app_assoc in U. cbn [app] in U. apply unit_steps_app in U. unfold z. lia. }
  destruct (via_cbox E z (mz q0) GE D0 (Zpre q0 pre' Epre)) as (ax & ay & EA & A1 & A2). fold w in A1, A2. rewrite Hq in A1, A2.
  assert (HA : vend h ax ay) by (left; auto).
  assert (SA : forall x y, sq_at (cbox ax ay) (getPoint g p0) x y -> S x y).
  { intros x y H. left. right. left. exists pre', q0, p0, st0. split; [exact Epre|]. split; [exact Est|]. fold z. rewrite EA. exact H. }
  (* the end via *)
  assert (B : exists bx by_, vend h bx by_ /\ (forall x y, sq_at (cbox bx by_) (getPoint g l0) x y -> S x y) /\
     end_area E (area_map aps) st post = 2 * bx * by_ /\ end_half E st post = 2 * bx * by_).
  { rewrite Elast, end_area_last, end_half_last. destruct post as [|q1 post'] eqn:Epost.
    - exists 0, 0. split; [right; auto|]. split.
      + intros x y H. unfold sq_at, sq_in, cbox, bleft, bright in H. cbn [ll ur px py] in H. lia.
      + split; [|lia]. pose proof (records_area_map aps l0) as R. destruct (area_map aps l0) as [a|]; [|lia].
        destruct R as (R & _). exfalso. eapply (Hpost eq_refl); eauto.
    - assert (D1 : -1 <= mz q1 - z <= 1).
      { rewrite Elast in U. rewrite <- app_assoc in U. cbn [app] in U. rewrite app_assoc in U. apply unit_steps_app in U. lia. }
      destruct (via_cbox E z (mz q1) GE D1 (Zpost q1 post' eq_refl)) as (bx & by_ & EB & B1 & B2). fold w in B1, B2. rewrite Hq in B1, B2.
      exists bx, by_. split; [left; auto|]. split.
      + intros x y H. left. right. right. exists q1, post', l0, b0. split; [reflexivity|]. split; [exact Elast|]. rewrite Zl, EB. exact H.
      + rewrite Zl, EB, half_cbox by lia. auto. }
  destruct B as (bx & by_ & HB & SB & EE & EH).
  assert (Hw : forall x y, sq_in (wire_box (2 * h) (getPoint g p0) (getPoint g l0)) x y -> S x y).
  { intros x y H. destruct (wire_cover g st p0 l0 (2 * h) Ef El x y St H) as (r & s & N & Hr).
    left. left. exists r, s. split; [exact N|]. destruct (next_to_in _ _ _ N) as (Ir & _). rewrite (Hz r Ir). fold w. rewrite Ew. exact Hr. }
  assert (Hs : py (getPoint g p0) = py (getPoint g l0) \/ px (getPoint g p0) = px (getPoint g l0)).
  { assert (Il : In l0 st) by (rewrite Elast; apply in_or_app; right; left; reflexivity).
    destruct St as [St|St]; [left|right]; symmetry; apply St, Il. }
  assert (EC : counted E g (area_map aps) pre st post = 2 * ax * ay + 2 * h * dist (getPoint g p0) (getPoint g l0) + 2 * bx * by_).
  { unfold counted. rewrite EE. unfold start_area, wire_area. rewrite T. rewrite Est. rewrite Epre, rev_app_distr. cbn [rev app].
    fold z. fold w. rewrite EA, half_cbox by lia. rewrite Ew, seg_dist_dist. lia. }
  assert (EM : missing E g (area_map aps) pre st post = req_area E z - 2 * h * dist (getPoint g p0) (getPoint g l0) - Z.min (2 * ax * ay) (2 * bx * by_)).
  { unfold missing. rewrite EC, EH. rewrite Est. unfold start_half. rewrite Epre, rev_app_distr. cbn [rev app].
    fold z. rewrite EA, half_cbox by lia. lia. }
  destruct (Z_lt_le_dec (counted E g (area_map aps) pre st post) (req_area E z)) as [Sh|NS].
  - destruct (patches_of_stretches E g aps (area_map aps) path GE (records_area_map aps) NA) as (sts & _ & HI & F).
    assert (I : In (pre, st, post) sts).
    { apply HI. split; [exact HS|]. exists p0, st0. split; [exact Est|exact Sh]. }
    destruct (in_split _ _ I) as (l1 & l2 & Es). rewrite Es in F.
    apply Forall2_app_inv_l in F. destruct F as (k1 & k2 & _ & F & Ek). inversion F as [|? P ? k3 FP _ EP E3]. subst k2.
    assert (IP : In P (min_area_patches E g aps path)) by (rewrite Ek; apply in_or_app; right; left; reflexivity).
    destruct FP as (p & left & Pl & len & PA). cbv zeta in PA.
    assert (K : exists o, (exists c d, (p = p0 /\ o = l0 /\ c = ax /\ d = ay) \/ (p = l0 /\ o = p0 /\ c = bx /\ d = by_)) /\
              mz p = z /\ side_of g (pl_horz (pe_layer E (mz p))) left p o).
    { destruct Pl as [Pl|Pl].
      - assert (p = p0) as -> by (destruct Pl as [(E1 & _)|(n & mid & o & E1 & _)]; rewrite Est in E1; inversion E1; reflexivity).
        exists l0. split; [exists ax, ay; auto|]. split; [reflexivity|]. eapply side_first_place; eauto.
      - assert (p = l0) as ->.
        { destruct Pl as [(E1 & _)|(n & mid & o & E1 & _)]; rewrite Elast in E1.
          - change [p] with ([] ++ [p]) in E1. apply app_inj_tail in E1. symmetry. apply E1.
          - rewrite app_comm_cons in E1. apply app_inj_tail in E1. symmetry. apply E1. }
        exists p0. split; [exists bx, by_; right; auto|]. split; [exact Zl|]. eapply side_last_place; eauto. }
    destruct K as (o & (c & d & K) & Zp & Side).
    rewrite Zp in PA, Side. fold w in PA. rewrite Hq in PA. destruct PA as (P1 & P2 & _ & P4 & _ & P6).
    assert (HPt : forall x y, sq_at (pbox (pl_horz (pe_layer E z)) left len h) (getPoint g p) x y -> S x y).
    { intros u v Hu. right. exists P. split; [exact IP|]. split; [exact P1|]. rewrite P2, P6. exact Hu. }
    rewrite EM, Ew in P4.
    assert (HL : 0 <= len) by nia.
    destruct K as [(-> & -> & -> & ->)|(-> & -> & -> & ->)].
    + eapply covers_le; [eapply (area_patch S h len ax ay bx by_ (getPoint g p0) (getPoint g l0) (pl_horz (pe_layer E z)) left); eauto| |auto].
      lia.
    + eapply covers_le; [eapply (area_patch S h len bx by_ ax ay (getPoint g l0) (getPoint g p0) (pl_horz (pe_layer E z)) left); eauto| |auto].
      * intros u v Hu. apply Hw. apply wire_box_sym; [|exact Hu]. destruct Hs; [left|right]; congruence.
      * destruct Hs; [left|right]; congruence.
      * replace (dist (getPoint g l0) (getPoint g p0)) with (dist (getPoint g p0) (getPoint g l0)) by (unfold dist; lia). lia.
  - eapply covers_le; [eapply (area_none S h ax ay bx by_ (getPoint g p0) (getPoint g l0)); eauto| |auto]. lia.
Qed.
End Main.
