(* The search with costs as an abstract transition system on walks (start point, directions taken,
   last one first).  A priority queue delivers the walk of least cost plus estimate. *)
From Verif Require Import Base GeomModel GeomSpec GridModel GridSpec GridProofs GridProofs2 MazeAbs.

Definition walk : Type := midx * list dir.
Definition wpos (W : walk) : midx := fold_right (fun d p => step p d) (fst W) (snd W).
Definition wlast (W : walk) : dir := match snd W with [] => DUnk | d :: _ => d end.
Definition wlast2 (W : walk) : dir := match snd W with _ :: d :: _ => d | _ => DUnk end.
Definition wadd (W : walk) (d : dir) : walk := (fst W, d :: snd W).
Definition wkey (W : walk) : key := (wpos W, wlast2 W, wlast W).
Fixpoint wpts_aux (s : midx) (ds : list dir) : list midx :=
  match ds with [] => [s] | d :: r => wpos (s, ds) :: wpts_aux s r end.
(* the points of a walk, last one first *)
Definition wpts (W : walk) : list midx := wpts_aux (fst W) (snd W).
Lemma wpos_add W d : wpos (wadd W d) = step (wpos W) d.
Proof. reflexivity. Qed.
Lemma wlast_add W d : wlast (wadd W d) = d.
Proof. reflexivity. Qed.
Lemma wlast2_add W d : wlast2 (wadd W d) = wlast W.
Proof. reflexivity. Qed.
Lemma wkey_add W d : wkey (wadd W d) = (step (wpos W) d, wlast W, d).
Proof. reflexivity. Qed.
Lemma walk_eq_dec (a b : walk) : {a = b} + {a <> b}.
Proof. decide equality; [apply (list_eq_dec dir_eq_dec) | apply midx_eq_dec]. Defined.
Lemma walk_cases W : (exists s, W = (s, [])) \/ (exists W' d, W = wadd W' d).
Proof. destruct W as [s [|d ds]]; [left; eauto|]. right. exists (s, ds), d. reflexivity. Qed.

Section Fare.
Variable edge : midx -> dir -> bool.
Variables src dst : midx -> bool.
Variable cc : list midx.
Hypothesis cc_src : forall s, In s cc -> src s = true.
(* cost of an edge, surcharge of a step (at most K), estimate = distance part + bend part *)
Variable w : midx -> dir -> Z.
Variable sur : walk -> dir -> Z.
Variable h0 : midx -> Z.
Variable hb : midx -> dir -> Z.
Variable K : Z.
Hypothesis w_nn : forall p d, edge p d = true -> 0 <= w p d.
Hypothesis h0_lip : forall p d, d <> DUnk -> edge p d = true -> h0 p <= w p d + h0 (step p d) /\ h0 (step p d) <= w p d + h0 p.
Hypothesis h0_nn : forall p, 0 <= h0 p.
Hypothesis hb_range : forall p d, 0 <= hb p d <= 2.
Hypothesis hb_start : forall p, hb p DUnk = 0.

Fixpoint gc_aux (s : midx) (ds : list dir) : Z :=
  match ds with [] => 0 | d :: r => gc_aux s r + w (wpos (s, r)) d + sur (s, r) d end.
Definition gc (W : walk) : Z := gc_aux (fst W) (snd W).
Definition hh (W : walk) : Z := h0 (wpos W) + hb (wpos W) (wlast W).
Definition ff (W : walk) : Z := gc W + hh W.
Lemma gc_add W d : gc (wadd W d) = gc W + w (wpos W) d + sur W d.
Proof. destruct W as [s ds]. reflexivity. Qed.
Definition wgood (W : walk) := forall d, edge (wpos W) d = true -> d <> DUnk -> wlast W <> opp d ->
  0 <= sur W d <= K /\ hb (wpos W) (wlast W) + h0 (wpos W) <= w (wpos W) d + sur W d + h0 (step (wpos W) d) + hb (step (wpos W) d) d.
Hypothesis all_wgood : forall W, wgood W.

Record ws := mkWS { wcm : midx -> dir; wwf : list walk; wP : list walk; wG : list walk; wT : Z }.
Definition wcands cm W := cands edge src cm (wpos W) (wlast W).
Definition wok cm W := tail_ok cm (wpos W) (wlast2 W) (wlast W).
Definition wpush cm W : list walk := if wok cm W then map (wadd W) (wcands cm W) else [].
Definition wset cm W := fst (aexpand edge src cm (wkey W)).
Inductive wstep : ws -> ws -> Prop :=
| wstep_skip cm w1 W w2 P G T : cm (wpos W) <> DUnk -> (forall W', In W' (w1 ++ w2) -> ff W <= ff W') ->
    wstep (mkWS cm (w1 ++ W :: w2) P G T) (mkWS cm (w1 ++ w2) P G (ff W))
| wstep_expand cm w1 W w2 P G T : cm (wpos W) = DUnk -> dst (wpos W) = false ->
    (forall W', In W' (w1 ++ w2) -> ff W <= ff W') ->
    wstep (mkWS cm (w1 ++ W :: w2) P G T)
          (mkWS (wset cm W) ((w1 ++ w2) ++ wpush cm W) (P ++ wpush cm W) (if wok cm W then W :: G else G) (ff W)).

Definition okd (W : walk) (d : dir) := d <> DUnk /\ edge (wpos W) d = true /\ src (step (wpos W) d) = false /\ wlast W <> opp d.
Record Inv (a : ws) : Prop := mkInv {
  iA : forall W, In W (wwf a) -> In W (wP a);
  iB1 : forall W, In W (wwf a) -> wT a <= ff W;
  iB2 : forall W, In W (wG a) -> ff W <= wT a;
  iC : forall W d, In (wadd W d) (wP a) -> In W (wG a) /\ okd W d;
  iC0 : forall s, In (s, []) (wP a) -> In s cc;
  iD : forall u, wcm a u <> DUnk -> src u = false /\
         exists y, In y (wG a) /\ wpos y = u /\ wlast y = wcm a u /\
           forall x d, In x (wG a) -> wpos x = u -> In (wadd x d) (wP a) -> gc y <= gc x + K;
  iE : forall x d, In x (wG a) -> okd x d ->
         (exists z, In z (wG a) /\ wpos z = step (wpos x) d /\ gc z <= gc x + w (wpos x) d + K + 2) \/
         In (wadd x d) (wwf a) \/
         (wcm a (wpos x) <> DUnk /\ wcm a (wpos x) <> wlast x /\ In (wadd x d) (wP a));
  iF : forall x d, In x (wG a) -> okd x d -> wcm a (wpos x) = DUnk -> src (wpos x) = false ->
         wcm a (step (wpos x) d) = DUnk ->
         In (wadd x d) (wwf a) \/ cands edge src (wcm a) (step (wpos x) d) d = [];
  iH : forall x d x' d2, In x (wG a) -> In (wadd x d) (wP a) -> x = wadd x' d2 -> wlast x' <> DUnk ->
         wcm a (wpos x') <> DUnk;
  iG : forall x, In x (wG a) -> dst (wpos x) = false /\ In x (wP a);
  iS : forall s, In s cc -> In (s, []) (wwf a) \/ In (s, []) (wG a) }.

Lemma last_unk_start a W : Inv a -> In W (wP a) -> wlast W = DUnk -> exists s, W = (s, []) /\ In s cc.
Proof.
  intros I HW HL. destruct (walk_cases W) as [(s & ->)|(W' & d & ->)].
  - exists s. split; [reflexivity | apply (iC0 a I), HW].
  - destruct (iC a I _ _ HW) as [_ (D & _)]. rewrite wlast_add in HL. contradiction.
Qed.
Lemma cands_mono cm cm' v d : ext cm cm' -> cands edge src cm v d = [] -> cands edge src cm' v d = [].
Proof.
  intros X H. destruct (cands edge src cm' v d) as [|e l] eqn:E; [reflexivity|]. exfalso.
  assert (In e (cands edge src cm' v d)) as Hi by (rewrite E; left; reflexivity).
  apply (cands_iff edge src src) in Hi as (A & B & C & D & F).
  assert (In e (cands edge src cm v d)) as Hi'.
  { apply (proj2 (cands_iff edge src src cm v d e)). split; [assumption|]. split; [assumption|]. split; [assumption|]. split; [|assumption].
    destruct (dir_eq_dec (cm (step v e)) DUnk) as [Z|Z]; [assumption|]. rewrite X in D by assumption. contradiction. }
  rewrite H in Hi'. destruct Hi'.
Qed.
Lemma split_in {A} (w1 : list A) W w2 x : In x (w1 ++ W :: w2) -> x = W \/ In x (w1 ++ w2).
Proof. rewrite !in_app_iff. cbn. intuition. Qed.
Lemma in_split' {A} (w1 : list A) W w2 x : In x (w1 ++ w2) -> In x (w1 ++ W :: w2).
Proof. rewrite !in_app_iff. cbn. intuition. Qed.
Lemma in_mid {A} (w1 : list A) W w2 : In W (w1 ++ W :: w2).
Proof. rewrite in_app_iff. cbn. intuition. Qed.

(* the commit of the predecessor *)
Lemma wset_pred cm x d : wok cm (wadd x d) = true -> wlast x <> DUnk -> wcands cm (wadd x d) <> [] ->
  wset cm (wadd x d) (wpos x) = wlast x.
Proof.
  unfold wset, aexpand, wkey, wok, wcands. rewrite !wpos_add, !wlast_add, !wlast2_add. intros T L C. rewrite T. cbn [fst].
  unfold commit. replace (dir_eqb (wlast x) DUnk) with false by (symmetry; apply dir_eqb_neq; assumption).
  rewrite kpred_step. destruct (cands _ _ _ _ _); [congruence|]. unfold aset. destruct (midx_eq_dec (wpos x) (wpos x)); congruence.
Qed.
Lemma wset_cases cm W p : wset cm W p = cm p \/
  (exists x d, W = wadd x d /\ p = wpos x /\ wlast x <> DUnk /\ wset cm W p = wlast x /\ wok cm W = true /\ wcands cm W <> []) \/
  (wlast2 W <> DUnk /\ wlast W = DUnk).
Proof.
  unfold wset, aexpand, wkey. fold (wok cm W). destruct (wok cm W) eqn:T; cbn [fst]; [|left; reflexivity].
  destruct (commit_cases edge src cm (wpos W) (wlast2 W) (wlast W) p) as [A|(A & B & C & D)]; [left; assumption|].
  right. destruct (walk_cases W) as [(s & ->)|(x & d & ->)]; [exfalso; apply B; reflexivity|].
  left. exists x, d. rewrite wlast2_add in *. rewrite wpos_add, wlast_add, kpred_step in A. auto 10.
Qed.
Lemma wset_ext cm W : ext cm (wset cm W).
Proof. apply aexpand_ext. Qed.
Lemma wpush_in cm W X : In X (wpush cm W) <-> wok cm W = true /\ exists d, In d (wcands cm W) /\ X = wadd W d.
Proof.
  unfold wpush. destruct (wok cm W); [|split; [intros [] | intros [A _]; discriminate]].
  rewrite in_map_iff. split; [intros (d & <- & H); eauto | intros (_ & d & H & ->); eauto].
Qed.
Lemma wcands_iff cm W d : In d (wcands cm W) <-> okd W d /\ cm (step (wpos W) d) = DUnk.
Proof. unfold wcands. rewrite (cands_iff edge src src). unfold okd. tauto. Qed.
Lemma wadd_inj W d W' d' : wadd W d = wadd W' d' -> W = W' /\ d = d'.
Proof. destruct W, W'. unfold wadd. cbn. intros H. inversion H. auto. Qed.
Lemma wadd_neq W d : wadd W d <> W.
Proof. destruct W as [s ds]. unfold wadd. cbn. intros H. inversion H as [H1]. apply (f_equal (@length dir)) in H1. cbn in H1. lia. Qed.

Lemma sur_ok W d : okd W d -> 0 <= sur W d <= K.
Proof. intros (A & B & _ & C). apply (all_wgood W d B A C). Qed.
Lemma ff_mono W d : okd W d -> ff W <= ff (wadd W d).
Proof.
  intros (A & B & _ & C). unfold ff, hh. rewrite gc_add, wpos_add, wlast_add.
  destruct (all_wgood W d B A C) as [_ H]. lia.
Qed.
Lemma gc_mono W d : okd W d -> gc W <= gc (wadd W d).
Proof. intros O. rewrite gc_add. pose proof (sur_ok W d O). pose proof (w_nn _ _ (proj1 (proj2 O))). lia. Qed.

Lemma step_inv a b : wstep a b -> Inv a -> Inv b.
Proof.
  intros S I. destruct S as [cm w1 W w2 P G T Hc HM | cm w1 W w2 P G T Hc Hd HM].
  - (* skipped: the point is settled *)
    pose proof (iB1 _ I W (in_mid _ _ _)) as TW. cbn [wT] in TW. cbn [wcm wwf wP wG wT] in *.
    constructor; cbn [wcm wwf wP wG wT].
    + intros X HX. apply (iA _ I), in_split', HX.
    + exact HM.
    + intros X HX. pose proof (iB2 _ I X HX). cbn in *. lia.
    + apply (iC _ I).
    + apply (iC0 _ I).
    + apply (iD _ I).
    + intros x d Hx O. destruct (iE _ I x d Hx O) as [A | [A | A]]; auto.
      apply split_in in A as [A | A]; [|auto]. left.
      destruct (iD _ I _ Hc) as (_ & y & Y1 & Y2 & _). cbn [wG] in Y1. exists y. subst W. rewrite wpos_add in Y2.
      split; [assumption|]. split; [assumption|].
      pose proof (iB2 _ I y Y1) as Fy. cbn [wT] in Fy. unfold ff, hh in *. rewrite gc_add, wpos_add, wlast_add in *.
      rewrite Y2 in Fy. pose proof (sur_ok x d O). pose proof (hb_range (step (wpos x) d) d). pose proof (hb_range (step (wpos x) d) (wlast y)). lia.
    + intros x d Hx O C1 C2 C3. destruct (iF _ I x d Hx O C1 C2 C3) as [A | A]; auto.
      apply split_in in A as [A | A]; [|auto]. exfalso. subst W. apply Hc. rewrite wpos_add. exact C3.
    + apply (iH _ I).
    + apply (iG _ I).
    + intros s Hs. destruct (iS _ I s Hs) as [A | A]; auto. apply split_in in A as [A | A]; [|auto].
      exfalso. subst W. destruct (iD _ I _ Hc) as [X _]. cbn [wpos fst snd fold_right] in X. rewrite (cc_src s Hs) in X. discriminate.
  - pose proof (iB1 _ I W (in_mid _ _ _)) as TW. cbn [wT] in TW.
    assert (HWP : In W P) by (apply (iA _ I), in_mid).
    assert (X : ext cm (wset cm W)) by apply wset_ext.
    set (cm' := wset cm W) in *. set (N := wpush cm W). set (G' := if wok cm W then W :: G else G).
    assert (GG : forall x, In x G -> In x G') by (intros x Hx; unfold G'; destruct (wok cm W); [right|]; assumption).
    assert (GI : forall x, In x G' -> In x G \/ (x = W /\ wok cm W = true)).
    { intros x Hx. unfold G' in Hx. destruct (wok cm W); [destruct Hx as [<-|Hx]; auto | auto]. }
    assert (CU : forall p, cm' p = DUnk -> cm p = DUnk).
    { intros p Hp. destruct (dir_eq_dec (cm p) DUnk) as [Z|Z]; [assumption|]. rewrite (X p Z) in Hp. assumption. }
    (* facts on the popped walk *)
    assert (WL : wlast W = DUnk -> exists s, W = (s, []) /\ In s cc) by (apply (last_unk_start _ W I HWP)).
    assert (WS : forall x d, W = wadd x d -> In x G /\ okd x d) by (intros x d ->; apply (iC _ I _ _ HWP)).
    (* what an entry at a settled point says *)
    assert (SE : forall u, cm u <> DUnk -> exists y, In y G /\ wpos y = u /\ ff y <= ff W).
    { intros u Hu. destruct (iD _ I u Hu) as (_ & y & Y1 & Y2 & _). cbn [wG] in Y1. exists y. split; [assumption|]. split; [assumption|].
      pose proof (iB2 _ I y Y1) as Fy. cbn [wT] in Fy. lia. }
    constructor; cbn [wcm wwf wP wG wT].
    + intros Y HY. apply in_app_iff in HY as [HY | HY]; apply in_app_iff; [left | right; assumption]. apply (iA _ I), in_split', HY.
    + intros Y HY. apply in_app_iff in HY as [HY | HY]; [apply HM, HY|].
      apply wpush_in in HY as (_ & d & Hd' & ->). apply wcands_iff in Hd' as [O _]. apply ff_mono, O.
    + intros x Hx. destruct (GI x Hx) as [Hx' | [-> _]]; [|lia]. pose proof (iB2 _ I x Hx') as B. cbn [wT] in B. lia.
    + intros x d Hx. apply in_app_iff in Hx as [Hx | Hx].
      * destruct (iC _ I x d Hx) as [A B]. cbn [wG] in A. auto.
      * apply wpush_in in Hx as (Tk & e & He & Ee). apply wadd_inj in Ee as [-> ->]. apply wcands_iff in He as [O _].
        split; [|exact O]. unfold G'. rewrite Tk. left. reflexivity.
    + intros s Hs. apply in_app_iff in Hs as [Hs | Hs]; [apply (iC0 _ I), Hs|].
      apply wpush_in in Hs as (_ & e & _ & Ee). unfold wadd in Ee. inversion Ee.
    + (* iD *)
      intros u Hu.
      assert (KEEP : forall y, In y G -> wpos y = u -> u <> wpos W ->
        (forall x d, In x G -> wpos x = u -> In (wadd x d) P -> gc y <= gc x + K) ->
        forall x d, In x G' -> wpos x = u -> In (wadd x d) (P ++ N) -> gc y <= gc x + K).
      { intros y Hy Py NW HK x d Hx Px HP. destruct (GI x Hx) as [Hx' | [-> _]]; [|congruence].
        apply in_app_iff in HP as [HP | HP]; [apply (HK x d); assumption|].
        apply wpush_in in HP as (_ & e & _ & Ee). apply wadd_inj in Ee as [-> _]. congruence. }
      destruct (wset_cases cm W u) as [E | [(y & e & EW & Eu & Ly & E & Tk & Cn) | (L2 & L1)]].
      * fold cm' in E. rewrite E in Hu |- *. destruct (iD _ I u Hu) as (A & y & Y1 & Y2 & Y3 & Y4). cbn [wG wP wcm] in *.
        split; [assumption|]. exists y. split; [auto|]. split; [assumption|]. split; [assumption|].
        apply KEEP; auto. intros F. subst u. rewrite F in Hu. contradiction.
      * fold cm' in E. destruct (WS y e EW) as [Hy (Oy1 & Oy2 & Oy3 & Oy4)]. subst u.
        assert (NW : wpos y <> wpos W). { subst W. rewrite wpos_add. intros F. symmetry in F. revert F. apply step_neq. assumption. }
        assert (SY : src (wpos y) = false).
        { destruct (walk_cases y) as [(s & ->)|(y' & e' & ->)]; [exfalso; apply Ly; reflexivity|].
          destruct (iG _ I _ Hy) as [_ PY]. destruct (iC _ I _ _ PY) as [_ (_ & _ & Q & _)]. rewrite wpos_add. exact Q. }
        destruct (dir_eq_dec (cm (wpos y)) DUnk) as [CU0 | CU0].
        -- split; [assumption|]. exists y. split; [auto|]. split; [reflexivity|]. split; [rewrite E; reflexivity|].
           apply KEEP; auto. intros x d Hx Px HP.
           destruct (dir_eq_dec (wlast x) (opp e)) as [BK | BK].
           ++ (* x came from the point of W *)
              exfalso. destruct (walk_cases x) as [(s & ->)|(x' & d2 & ->)].
              { cbn [wlast snd] in BK. apply Oy1. apply opp_unk. symmetry. exact BK. }
              rewrite wlast_add in BK. subst d2.
              assert (PW : wpos x' = wpos W).
              { subst W. rewrite wpos_add, <- Px, wpos_add. rewrite <- (step_step (wpos x') (opp e)) at 1. rewrite opp_opp. reflexivity. }
              destruct (dir_eq_dec (wlast x') DUnk) as [LU | LU].
              ** destruct (iG _ I _ Hx) as [_ PX]. destruct (iC _ I _ _ PX) as [Hx' _].
                 destruct (iG _ I _ Hx') as [_ PX']. destruct (last_unk_start _ x' I PX' LU) as (s & -> & Hs).
                 cbn [wpos fst snd fold_right] in PW. pose proof (cc_src s Hs) as S1. rewrite PW in S1.
                 subst W. rewrite wpos_add in S1. congruence.
              ** apply (iH _ I (wadd x' (opp e)) d x' (opp e) Hx HP eq_refl LU). cbn [wcm]. rewrite PW. exact Hc.
           ++ assert (Ox : okd x e). { unfold okd. rewrite Px. auto. }
              destruct (iF _ I x e Hx Ox) as [A | A]; cbn [wcm wwf] in *.
              ** rewrite Px. exact CU0.
              ** rewrite Px. exact SY.
              ** rewrite Px. subst W. rewrite wpos_add in Hc. exact Hc.
              ** assert (Fl : ff W <= ff (wadd x e)). { apply split_in in A as [A | A]; [rewrite A; lia | apply HM, A]. }
                 subst W. unfold ff, hh in Fl. rewrite !gc_add, !wpos_add, !wlast_add, Px in Fl.
                 pose proof (sur_ok x e Ox). pose proof (sur_ok y e (proj2 (WS y e eq_refl))). lia.
              ** exfalso. apply Cn. unfold wcands. rewrite EW, wpos_add, wlast_add, <- Px. exact A.
        -- assert (E2 : cm' (wpos y) = cm (wpos y)) by (apply X; assumption).
           destruct (iD _ I (wpos y) CU0) as (A & z & Y1 & Y2 & Y3 & Y4). cbn [wG wP wcm] in *.
           split; [assumption|]. exists z. split; [auto|]. split; [assumption|]. split; [rewrite E2; assumption|].
           apply KEEP; auto.
      * exfalso. destruct (WL L1) as (s & -> & _). apply L2. reflexivity.
    + (* iE *)
      intros x d Hx O. destruct (GI x Hx) as [Hx' | [-> Tk]].
      * destruct (iE _ I x d Hx' O) as [(z & Z1 & Z2) | [A | (A & B & C)]]; cbn [wG wwf wcm wP] in *.
        -- left. exists z. auto.
        -- apply split_in in A as [A | A]; [|right; left; apply in_app_iff; auto].
           destruct (wok cm W) eqn:Tk.
           ++ left. exists W. split; [unfold G'; left; reflexivity|]. rewrite <- A, wpos_add, gc_add.
              split; [reflexivity|]. pose proof (sur_ok x d O). lia.
           ++ right; right. apply (not_tail_ok src) in Tk as (T1 & T2 & T3). rewrite <- A in T1, T2, T3. rewrite wlast2_add in T1, T3.
              rewrite wpos_add, wlast_add, kpred_step in T2, T3. split; [rewrite X; assumption|]. split; [rewrite X; assumption|].
              apply in_app_iff. left. rewrite A. exact HWP.
        -- right; right. split; [rewrite X; assumption|]. split; [rewrite X; assumption|]. apply in_app_iff. auto.
      * destruct (dir_eq_dec (cm (step (wpos W) d)) DUnk) as [C | C].
        -- right; left. apply in_app_iff. right. apply wpush_in. split; [assumption|]. exists d. split; [|reflexivity]. apply wcands_iff. auto.
        -- left. destruct (SE _ C) as (y & Y1 & Y2 & Y3). exists y. split; [auto|]. split; [assumption|].
           unfold ff, hh in Y3. rewrite Y2 in Y3. destruct O as (O1 & O2 & O3 & O4). destruct (h0_lip _ _ O1 O2) as [L1 L2].
           pose proof (hb_range (wpos W) (wlast W)). pose proof (hb_range (step (wpos W) d) (wlast y)).
           pose proof (sur_ok W d (conj O1 (conj O2 (conj O3 O4)))). lia.
    + (* iF *)
      intros x d Hx O C1 C2 C3. destruct (GI x Hx) as [Hx' | [-> Tk]].
      * destruct (iF _ I x d Hx' O (CU _ C1) C2 (CU _ C3)) as [A | A]; cbn [wwf wcm] in *.
        -- apply split_in in A as [A | A]; [|left; apply in_app_iff; auto].
           right. apply (cands_mono cm); [assumption|].
           destruct (wcands cm W) as [|c l] eqn:EC; [unfold wcands in EC; rewrite <- A, wpos_add, wlast_add in EC; exact EC|].
           exfalso.
           assert (LX : wlast x <> DUnk).
           { intros LU. destruct (iG _ I _ Hx') as [_ PX]. destruct (last_unk_start _ x I PX LU) as (s & -> & Hs).
             cbn [wpos fst snd fold_right] in C2. rewrite (cc_src s Hs) in C2. discriminate. }
           assert (Tk : wok cm W = true).
           { destruct (wok cm W) eqn:Tk; [reflexivity|]. apply (not_tail_ok src) in Tk as (_ & T2 & _). rewrite <- A, wpos_add, wlast_add, kpred_step in T2.
             exfalso. apply T2, CU, C1. }
           rewrite <- A in Tk, EC. pose proof (wset_pred cm x d Tk LX ltac:(rewrite EC; discriminate)) as E.
           apply LX. rewrite <- E. unfold cm' in C1. rewrite <- A in C1. exact C1.
        -- right. apply (cands_mono cm); assumption.
      * left. apply in_app_iff. right. apply wpush_in. split; [assumption|]. exists d. split; [|reflexivity]. apply wcands_iff. auto.
    + (* iH *)
      intros x d x' d2 Hx HP Ex Lx. apply in_app_iff in HP as [HP | HP].
      * destruct (iC _ I x d HP) as [Hx' _]. cbn [wG] in Hx'. rewrite X by (apply (iH _ I x d x' d2); assumption). apply (iH _ I x d x' d2); assumption.
      * apply wpush_in in HP as (Tk & e & He & Ee). apply wadd_inj in Ee as [-> ->]. subst W.
        unfold cm'. rewrite wset_pred; auto. intros F. rewrite F in He. destruct He.
    + intros x Hx. destruct (GI x Hx) as [Hx' | [-> _]].
      * destruct (iG _ I x Hx') as [A B]. split; [assumption|]. apply in_app_iff. auto.
      * split; [assumption|]. apply in_app_iff. auto.
    + intros s Hs. destruct (iS _ I s Hs) as [A | A]; cbn [wwf wG] in *; [|auto].
      apply split_in in A as [A | A]; [|left; apply in_app_iff; auto]. right. unfold G'. rewrite <- A.
      replace (wok cm (s, [])) with true by reflexivity. left. reflexivity.
Qed.

Definition winit : ws := mkWS (fun _ => DUnk) (map (fun s => (s, [])) cc) (map (fun s => (s, [])) cc) [] 0.
Lemma init_inv : Inv winit.
Proof.
  constructor; cbn [winit wcm wwf wP wG wT].
  - auto.
  - intros W HW. apply in_map_iff in HW as (s & <- & _). unfold ff, hh. cbn [gc gc_aux fst snd wpos wlast fold_right].
    pose proof (h0_nn s). rewrite hb_start. lia.
  - intros W [].
  - intros W d HW. apply in_map_iff in HW as (s & E & _). unfold wadd in E. inversion E.
  - intros s HW. apply in_map_iff in HW as (s' & E & H). inversion E. subst. assumption.
  - intros u Hu. contradiction.
  - intros x d [].
  - intros x d [].
  - intros x d x' d2 [].
  - intros x [].
  - intros s Hs. left. apply in_map_iff. eauto.
Qed.

(* a way through points that are not sources: positions and directions, in travel order *)
Fixpoint way (p : midx) (ds : list dir) : Prop :=
  match ds with [] => True | d :: r => d <> DUnk /\ edge p d = true /\ src (step p d) = false /\ way (step p d) r end.
Fixpoint way_end (p : midx) (ds : list dir) : midx := match ds with [] => p | d :: r => way_end (step p d) r end.
Fixpoint way_cost (p : midx) (ds : list dir) : Z := match ds with [] => 0 | d :: r => w p d + way_cost (step p d) r end.

(* the walk delivered at a destination is nearly cheapest *)
Definition least (a : ws) (W : walk) := forall W', In W' (wwf a) -> ff W <= ff W'.
Lemma near_step a W p d A : Inv a -> least a W -> 0 <= K ->
  d <> DUnk -> edge p d = true -> src (step p d) = false ->
  (exists x, In x (wG a) /\ wpos x = p /\ gc x <= A) \/ ff W <= A + h0 p + 2 ->
  (exists x, In x (wG a) /\ wpos x = step p d /\ gc x <= A + w p d + (2 * K + 2)) \/
  ff W <= A + w p d + (2 * K + 2) + h0 (step p d) + 2.
Proof.
  intros I L K0 D E S [(x & Hx & Px & Gx) | F].
  2:{ right. destruct (h0_lip p d D E). lia. }
  pose proof (w_nn p d E) as WN.
  (* continuing from a good walk y at p that is not in conflict *)
  assert (CONT : forall y, In y (wG a) -> wpos y = p -> gc y <= A + K ->
    (wcm a p = DUnk \/ wcm a p = wlast y \/ ~ In (wadd y d) (wP a)) ->
    (exists x, In x (wG a) /\ wpos x = step p d /\ gc x <= A + w p d + (2 * K + 2)) \/
    ff W <= A + w p d + (2 * K + 2) + h0 (step p d) + 2).
  { intros y Hy Py Gy NC. destruct (dir_eq_dec (wlast y) (opp d)) as [BK | BK].
    - left. destruct (walk_cases y) as [(s & ->)|(y' & e & ->)].
      + exfalso. apply D, opp_unk. symmetry. exact BK.
      + rewrite wlast_add in BK. subst e. destruct (iG a I _ Hy) as [_ PY]. destruct (iC a I _ _ PY) as [Hy' Oy'].
        exists y'. split; [assumption|]. split.
        * rewrite <- Py, wpos_add. rewrite <- (step_step (wpos y') (opp d)) at 1. rewrite opp_opp. reflexivity.
        * pose proof (gc_mono _ _ Oy'). lia.
    - assert (O : okd y d) by (unfold okd; rewrite Py; auto).
      pose proof (sur_ok y d O) as SK.
      destruct (iE a I y d Hy O) as [(z & Z1 & Z2 & Z3) | [B | (B1 & B2 & B3)]].
      + left. exists z. rewrite Py in Z2, Z3. split; [assumption|]. split; [assumption|]. lia.
      + right. pose proof (L _ B) as FL. unfold ff at 2, hh in FL. rewrite gc_add, wpos_add, wlast_add, Py in FL.
        pose proof (hb_range (step p d) d). lia.
      + exfalso. rewrite Py in B1, B2. destruct NC as [NC | [NC | NC]]; congruence. }
  destruct (dir_eq_dec (wcm a p) DUnk) as [C | C]; [apply (CONT x); auto; lia|].
  destruct (dir_eq_dec (wcm a p) (wlast x)) as [C' | C']; [apply (CONT x); auto; lia|].
  destruct (iD a I p C) as (_ & y & Y1 & Y2 & Y3 & Y4).
  destruct (in_dec walk_eq_dec (wadd x d) (wP a)) as [HP | HP].
  - apply (CONT y); auto. pose proof (Y4 x d Hx Px HP). lia.
  - apply (CONT x); auto; lia.
Qed.
Lemma near_way a W : Inv a -> least a W -> 0 <= K -> forall ds p A, way p ds ->
  (exists x, In x (wG a) /\ wpos x = p /\ gc x <= A) \/ ff W <= A + h0 p + 2 ->
  (exists x, In x (wG a) /\ wpos x = way_end p ds /\ gc x <= A + way_cost p ds + (2 * K + 2) * Z.of_nat (length ds)) \/
  ff W <= A + way_cost p ds + (2 * K + 2) * Z.of_nat (length ds) + h0 (way_end p ds) + 2.
Proof.
  intros I L K0. induction ds as [|d ds IH]; intros p A HW Q.
  - cbn [way_end way_cost length]. replace (A + 0 + (2 * K + 2) * Z.of_nat 0) with A by lia. exact Q.
  - destruct HW as (D & E & S & HW). cbn [way_end way_cost length].
    pose proof (near_step a W p d A I L K0 D E S Q) as Q'. specialize (IH _ _ HW Q').
    replace (A + (w p d + way_cost (step p d) ds) + (2 * K + 2) * Z.of_nat (Datatypes.S (length ds)))
      with (A + w p d + (2 * K + 2) + way_cost (step p d) ds + (2 * K + 2) * Z.of_nat (length ds)) by lia.
    exact IH.
Qed.
Lemma near_final a W s ds : Inv a -> least a W -> 0 <= K -> In s cc -> way s ds -> dst (way_end s ds) = true ->
  h0 (way_end s ds) = 0 -> 0 <= hh W ->
  gc W <= way_cost s ds + (2 * K + 2) * Z.of_nat (length ds) + 2.
Proof.
  intros I L K0 Hs HW HD H0 HH.
  assert (Q : (exists x, In x (wG a) /\ wpos x = s /\ gc x <= 0) \/ ff W <= 0 + h0 s + 2).
  { destruct (iS a I s Hs) as [A | A].
    - right. pose proof (L _ A) as F. unfold ff at 2, hh in F. cbn [gc gc_aux fst snd wpos wlast fold_right] in F. rewrite hb_start in F. lia.
    - left. exists (s, []). split; [assumption|]. split; [reflexivity|]. cbn. lia. }
  destruct (near_way a W I L K0 ds s 0 HW Q) as [(x & X1 & X2 & _) | F].
  - destruct (iG a I x X1) as [X3 _]. rewrite X2 in X3. congruence.
  - rewrite H0 in F. unfold ff in F. lia.
Qed.

(* the stored directions lead back along the walk *)
Definition whist (a : ws) := forall W, In W (wwf a) -> hist edge src cc (wcm a) (wkey W) (wpts W) /\ NoDup (wpts W).
Lemma wpts_add W d : wpts (wadd W d) = step (wpos W) d :: wpts W.
Proof. destruct W as [s ds]. reflexivity. Qed.
Lemma step_hist a b : wstep a b -> whist a -> whist b.
Proof.
  intros S H. destruct S as [cm w1 W w2 P G T Hc HM | cm w1 W w2 P G T Hc Hd HM]; unfold whist in *; cbn [wcm wwf] in *.
  - intros X HX. apply H, in_split', HX.
  - intros X HX. apply in_app_iff in HX as [HX | HX].
    + destruct (H X (in_split' _ _ _ _ HX)) as [A B]. split; [|assumption]. apply (hist_ext edge src cc cm); [apply wset_ext | assumption].
    + apply wpush_in in HX as (Tk & d & Hd' & ->). destruct (H W (in_mid _ _ _)) as [A B].
      destruct (expand_hist edge src dst cc cc_src cm (wpos W) (wlast2 W) (wlast W) (wpts W) d A B Tk Hd') as [C D].
      rewrite wkey_add, wpts_add. unfold wset, aexpand, wkey. fold (wok cm W). rewrite Tk. cbn [fst]. split; assumption.
Qed.
Lemma init_hist : whist winit.
Proof.
  intros W HW. cbn [winit wwf] in HW. apply in_map_iff in HW as (s & <- & Hs). split; [constructor; assumption|].
  constructor; [intros []|constructor].
Qed.
End Fare.
