(* The pin-by-pin graph search: invariant of one round, termination, and the overall result. *)
From Verif Require Import Base MazeModel MazeProofs TreeModel TreeSpec.

Lemma upd_same {A} (f : nat -> A) i v : upd f i v i = v.
Proof. unfold upd. rewrite Nat.eqb_refl. reflexivity. Qed.
Lemma upd_other {A} (f : nat -> A) i j v : j <> i -> upd f i v j = f j.
Proof. unfold upd. destruct (Nat.eqb_spec j i); congruence. Qed.
Lemma upd_true (f : nat -> bool) i j : upd f i true j = true <-> j = i \/ f j = true.
Proof. unfold upd. destruct (Nat.eqb_spec j i); intuition congruence. Qed.
Lemma pop_nth_nth {A} (d : A) l : forall n, (n < length l)%nat -> exists r, pop_nth n l = Some (nth n l d, r).
Proof.
  induction l as [|a l IH]; cbn; intros n Hn; [lia|]. destruct n; [eauto|].
  destruct (IH n ltac:(lia)) as (r & ->). eauto.
Qed.

Section T.
Variable adj : nat -> list nat.
Variables gCnt nCnt : nat.
Variable seed_cost : nat -> Z.
Variable pick : nat -> list wf -> nat.
Hypothesis rng : in_range adj nCnt.

(* the visited nodes outside K in order of visit, latest first; every one points to K, to an earlier
   one, or it is the root and the first *)
Fixpoint chain (K : nat -> bool) (prev : nat -> option nat) (X : nat -> bool) (g : nat -> Z) (vl : list nat) {struct vl} : Prop :=
  match vl with
  | [] => True
  | v :: r =>
    ~ In v r /\ K v = false /\
    match prev v with
    | None => v = gCnt /\ r = [] /\ K gCnt = false
    | Some p => (K p = true \/ In p r) /\ X p = true /\ In v (adj p) /\ g v = g p + 1
    end /\ chain K prev X g r
  end.
Lemma chain_notK K prev X g vl v : chain K prev X g vl -> In v vl -> K v = false.
Proof. induction vl; cbn; [easy|]. intros (_ & Hk & _ & Hc) [<-|Hi]; auto. Qed.
Lemma chain_prev K prev X g vl v p : chain K prev X g vl -> In v vl -> prev v = Some p ->
  (K p = true \/ In p vl) /\ X p = true /\ In v (adj p) /\ g v = g p + 1.
Proof.
  induction vl as [|a vl IH]; cbn [chain]; [easy|]. intros (_ & Hk & Hp & Hc) [<-|Hi] E.
  - rewrite E in Hp. cbn. tauto.
  - destruct (IH Hc Hi E) as ([?|?] & ?); cbn; tauto.
Qed.
Lemma chain_ext K prev X g prev' X' g' vl : chain K prev X g vl ->
  (forall n, In n vl -> prev' n = prev n) ->
  (forall n, X n = true -> X' n = true) ->
  (forall n, K n = true \/ In n vl -> g' n = g n) -> chain K prev' X' g' vl.
Proof.
  induction vl as [|a vl IH]; cbn [chain]; [easy|]. intros (Hn & Hk & Hp & Hc) E1 E2 E3.
  repeat split; auto.
  - rewrite E1 by (cbn; auto). destruct (prev a) as [p|]; [|assumption].
    destruct Hp as (Hp & Hx & Ha & Hg). rewrite (E3 a) by (cbn; auto). rewrite (E3 p) by (cbn; tauto). repeat split; auto.
  - apply IH; auto; intros n Hi; [apply E1|apply E3]; cbn; tauto.
Qed.

Definition GS (K vis : nat -> bool) (prev : nat -> option nat) (X : nat -> bool) (g : nat -> Z) (vl : list nat) : Prop :=
  (forall n, vis n = true <-> K n = true \/ In n vl) /\
  chain K prev X g vl /\
  (forall v, In v vl -> (v < nCnt)%nat) /\
  (pick_min pick -> forall v a b, In v vl -> In b vl -> prev v = Some a -> prev b = Some v -> ~ In b (adj a)).
Definition GQ (K vis : nat -> bool) (X : nat -> bool) (g : nat -> Z) (q : list wf) : Prop :=
  (forall e, In e q -> (wn e < nCnt)%nat /\
     ((K (wn e) = true /\ wc e = g (wn e)) \/
      (K (wn e) = false /\ exists p, wp e = Some p /\ X p = true /\ In (wn e) (adj p) /\ wc e = g p + 1))) /\
  (forall v, X v = true -> vis v = true) /\
  (forall v, vis v = true -> (K v = true /\ exists e, In e q /\ wn e = v) \/ X v = true) /\
  (forall v b, X v = true -> In b (adj v) -> vis b = true \/
     exists e, In e q /\ wn e = b /\ wp e = Some v /\ wc e = g v + 1).

(* visiting a new node [u] from an entry (u, Some p, c) at the top of the queue *)
Lemma GS_visit K vis prev X g vl q n e r p X' :
  GS K vis prev X g vl -> GQ K vis X g q -> pop_nth (pick n q) q = Some (e, r) ->
  vis (wn e) = false -> wp e = Some p -> X p = true -> In (wn e) (adj p) -> wc e = g p + 1 -> (wn e < nCnt)%nat ->
  (forall n, X n = true -> X' n = true) ->
  GS K (upd vis (wn e) true) (upd prev (wn e) (wp e)) X' (upd g (wn e) (wc e)) (wn e :: vl).
Proof.
  intros (A & B & R & T) (C & D1 & D2 & D3) P Hv Hp Hx Ha Hc Hr HX.
  assert (Hk : K (wn e) = false) by (destruct (K (wn e)) eqn:E; [|reflexivity]; rewrite (proj2 (A _) (or_introl E)) in Hv; discriminate).
  assert (Hn : ~ In (wn e) vl) by (intros Hi; rewrite (proj2 (A _) (or_intror Hi)) in Hv; discriminate).
  assert (Hpp : K p = true \/ In p vl) by (apply A; auto).
  assert (Hpe : p <> wn e) by (intros ->; apply D1 in Hx; congruence).
  split; [|split; [|split]].
  - intros m. rewrite upd_true, A. cbn. intuition.
  - cbn [chain]. rewrite upd_same, Hp. split; [assumption|]. split; [assumption|]. split.
    + split; [assumption|]. split; [auto|]. split; [assumption|]. rewrite upd_same, upd_other by assumption. lia.
    + eapply chain_ext; [exact B| |exact HX|].
      * intros m Hm. apply upd_other. congruence.
      * intros m [Hm|Hm]; apply upd_other; congruence.
  - intros v [<-|Hi]; auto.
  - intros M v a b Hvi Hbi Ev Eb Hab.
    destruct (Nat.eq_dec b (wn e)) as [->|Hbn].
    + rewrite upd_same, Hp in Eb. injection Eb as <-.
      rewrite upd_other in Ev by assumption.
      assert (Hpi : In p vl) by (destruct Hvi; [congruence|assumption]).
      destruct (chain_prev _ _ _ _ _ _ _ B Hpi Ev) as (_ & Xa & _ & Gp).
      destruct (D3 a (wn e) Xa Hab) as [F|(e' & Hi' & Hn' & _ & Hc')]; [congruence|].
      destruct (pop_nth_split _ _ _ _ P) as (q1 & q2 & Eq & _).
      destruct (M n q) as [Ml Mm]; [rewrite Eq; destruct q1; discriminate|].
      destruct (pop_nth_nth (mkWf 0 None 0) q _ Ml) as (r' & P'). rewrite P in P'. injection P' as -> _.
      specialize (Mm e' Hi'). unfold wf_lt in Mm.
      set (e := nth (pick n q) q (mkWf 0 None 0)) in *.
      destruct (wc e =? wc e') eqn:?; [lia|]. lia.
    + rewrite upd_other in Eb by assumption.
      assert (Hb2 : In b vl) by (destruct Hbi; [congruence|assumption]).
      destruct (chain_prev _ _ _ _ _ _ _ B Hb2 Eb) as (Hv2 & _).
      destruct (Nat.eq_dec v (wn e)) as [->|Hvn]; [intuition congruence|].
      rewrite upd_other in Ev by assumption.
      assert (Hv3 : In v vl) by (destruct Hvi; [congruence|assumption]).
      exact (T M v a b Hv3 Hb2 Ev Eb Hab).
Qed.

Lemma grow_spec K fuel : forall vis prev q X g vl last vis' prev',
  GS K vis prev X g vl -> GQ K vis X g q -> (forall n, In n vl -> (n <= gCnt)%nat) ->
  grow adj gCnt nCnt pick fuel K vis prev q = Some (last, vis', prev') ->
  exists X' g' vl', GS K vis' prev' X' g' vl' /\
  match last with
  | None => GQ K vis' X' g' [] /\ (forall n, In n vl' -> (n <= gCnt)%nat) /\ (forall n, In n vl -> In n vl')
  | Some t => (gCnt < t < nCnt)%nat /\ exists r, vl' = t :: r /\ (forall n, In n r -> (n <= gCnt)%nat)
  end.
Proof.
  induction fuel as [|fuel IH]; intros vis prev q X g vl last vis' prev' HS HQ Hb; cbn [grow]; [discriminate|].
  destruct (pop_nth (pick fuel q) q) as [[e r]|] eqn:P.
  2:{ apply pop_nth_none in P. subst q. intros H. injection H as <- <- <-. exists X, g, vl. auto. }
  destruct (pop_nth_split _ _ _ _ P) as (q1 & q2 & Eq & Er).
  assert (Hsub : forall x, In x r -> In x q) by (subst; intros x; rewrite !in_app_iff; cbn; tauto).
  assert (Hsup : forall x, In x q -> x = e \/ In x r) by (subst; intros x; rewrite !in_app_iff; cbn; intuition).
  assert (He : In e q) by (subst; rewrite in_app_iff; cbn; auto).
  pose proof HS as (A & B & R & T). pose proof HQ as (C & D1 & D2 & D3).
  destruct (C e He) as [Hr Hc].
  destruct (negb (K (wn e)) && vis (wn e)) eqn:E1.
  { intros H. eapply IH; [exact HS| |exact Hb|exact H].
    split; [intros x Hx; apply C; auto|]. split; [assumption|]. split.
    - intros v Hv. destruct (D2 v Hv) as [(Hk & x & Hx & Hxv)|Hx]; [|auto]. left. split; [assumption|].
      destruct (Hsup x Hx) as [->|Hx']; [subst v; rewrite Hk in E1; discriminate|eauto].
    - intros v b Xv Hvb. destruct (D3 v b Xv Hvb) as [?|(x & Hx & Hw)]; [auto|].
      destruct (Hsup x Hx) as [->|Hx']; [left; destruct Hw as (<- & _); lia|eauto]. }
  destruct (((gCnt <? wn e) && (wn e <? nCnt))%nat && negb (vis (wn e))) eqn:E2.
  { intros H. injection H as <- <- <-.
    assert (Hv : vis (wn e) = false) by lia.
    destruct Hc as [(Hk & _)|(Hk & p & Hp & Hx & Ha & Hcc)]; [rewrite (proj2 (A _) (or_introl Hk)) in Hv; discriminate|].
    exists X, (upd g (wn e) (wc e)), (wn e :: vl). split.
    - eapply GS_visit; eauto.
    - split; [lia|]. eauto. }
  set (new := map _ _).
  assert (Hnew : forall x, In x new <-> exists b, In b (adj (wn e)) /\ upd vis (wn e) true b = false /\ x = mkWf b (Some (wn e)) (wc e + 1)).
  { intros x. unfold new. rewrite in_map_iff. split.
    - intros (b & <- & Hb'). apply filter_In in Hb' as [? ?]. exists b. repeat split; [assumption|]. destruct (upd vis (wn e) true b); [discriminate|reflexivity].
    - intros (b & Hb1 & Hb2 & ->). exists b. split; [reflexivity|]. apply filter_In. split; [assumption|]. rewrite Hb2. reflexivity. }
  intros H. destruct (K (wn e)) eqn:Ek.
  - (* a seed *)
    assert (Hv : vis (wn e) = true) by (apply A; auto).
    assert (Vu : forall m, upd vis (wn e) true m = true <-> vis m = true) by (intros m; rewrite upd_true; intuition congruence).
    destruct Hc as [(_ & Hcc)|(Hk & _)]; [|congruence].
    assert (Hnl : ~ In (wn e) vl) by (intros Hi; rewrite (chain_notK _ _ _ _ _ _ B Hi) in Ek; discriminate).
    eapply IH with (X := upd X (wn e) true) (g := g) (vl := vl); [| |exact Hb|exact H].
    + split; [intros m; rewrite Vu; apply A|]. split; [|split; [assumption|]].
      * eapply chain_ext; [exact B| | |]; auto.
        -- intros m Hm. apply upd_other. congruence.
        -- intros m Hm. apply upd_true. auto.
      * intros M v a b Hvi Hbi. rewrite !upd_other by congruence. apply T; assumption.
    + split; [|split; [|split]].
      * intros x Hx. apply in_app_iff in Hx as [Hx|Hx].
        -- destruct (C x (Hsub x Hx)) as [? [?|(? & p & ? & ? & ? & ?)]]; (split; [assumption|]); [auto|]. right. split; [assumption|].
           exists p. rewrite upd_true. auto.
        -- apply Hnew in Hx as (b & Hb1 & Hb2 & ->). cbn. split; [exact (rng _ _ Hr Hb1)|]. right. split.
           ++ destruct (K b) eqn:Kb; [|reflexivity]. assert (Hvb : vis b = true) by (apply A; auto). apply Vu in Hvb. congruence.
           ++ exists (wn e). rewrite upd_same. repeat split; auto. lia.
      * intros v. rewrite upd_true, Vu. intros [->|Hx]; auto.
      * intros v. rewrite Vu, upd_true. intros Hvv. destruct (D2 v Hvv) as [(Hk & x & Hx & Hxv)|Hx]; [|auto].
        destruct (Hsup x Hx) as [->|Hx']; [auto|]. left. split; [assumption|]. exists x. rewrite in_app_iff. auto.
      * intros v b. rewrite upd_true, Vu. intros Hxv Hvb.
        destruct (Nat.eq_dec v (wn e)) as [->|Hn].
        -- destruct (upd vis (wn e) true b) eqn:Eb; [left; apply Vu; assumption|]. right.
           exists (mkWf b (Some (wn e)) (wc e + 1)). rewrite in_app_iff. split; [right; apply Hnew; eauto|]. cbn. repeat split; lia.
        -- destruct Hxv as [?|Hxv]; [congruence|]. destruct (D3 v b Hxv Hvb) as [?|(x & Hx & Hw)]; [auto|].
           destruct (Hsup x Hx) as [->|Hx'].
           ++ left. destruct Hw as (<- & _). assumption.
           ++ right. exists x. rewrite in_app_iff. auto.
  - (* a new node *)
    assert (Hv : vis (wn e) = false) by lia.
    assert (Hle : (wn e <= gCnt)%nat) by lia.
    destruct Hc as [(Hk & _)|(_ & p & Hp & Hx & Ha & Hcc)]; [congruence|].
    assert (Hnl : ~ In (wn e) vl) by (intros Hi; rewrite (proj2 (A _) (or_intror Hi)) in Hv; discriminate).
    assert (Gk : forall m, vis m = true -> upd g (wn e) (wc e) m = g m) by (intros m Hm; apply upd_other; congruence).
    edestruct (IH (upd vis (wn e) true) (upd prev (wn e) (wp e)) (r ++ new) (upd X (wn e) true) (upd g (wn e) (wc e)) (wn e :: vl)) as (X' & g' & vl' & HS' & HL); [| | |exact H|].
    + eapply GS_visit; eauto. intros m Hm. apply upd_true. auto.
    + split; [|split; [|split]].
      * intros x Hxi. apply in_app_iff in Hxi as [Hxi|Hxi].
        -- destruct (C x (Hsub x Hxi)) as [Hw [[Hk1 Hk2]|(Hk & p' & Hp1 & Hp2 & Hp3 & Hp4)]]; (split; [assumption|]).
           ++ left. split; [assumption|]. rewrite Gk; [assumption|]. apply A. auto.
           ++ right. split; [assumption|]. exists p'. rewrite upd_true, Gk by auto. auto.
        -- apply Hnew in Hxi as (b & Hb1 & Hb2 & ->). cbn. split; [exact (rng _ _ Hr Hb1)|]. right. split.
           ++ destruct (K b) eqn:Kb; [|reflexivity]. assert (Hvb : upd vis (wn e) true b = true) by (apply upd_true; right; apply A; auto). congruence.
           ++ exists (wn e). rewrite !upd_same. repeat split; auto.
      * intros v. rewrite !upd_true. intuition.
      * intros v. rewrite !upd_true. intros [->|Hvv]; [auto|]. destruct (D2 v Hvv) as [(Hk & x & Hxi & Hxv)|Hxi]; [|auto].
        destruct (Hsup x Hxi) as [->|Hx']; [auto|]. left. split; [assumption|]. exists x. rewrite in_app_iff. auto.
      * intros v b. rewrite (upd_true X). intros Hxv Hvb.
        destruct (Nat.eq_dec v (wn e)) as [->|Hn].
        -- destruct (upd vis (wn e) true b) eqn:Eb; [auto|]. right.
           exists (mkWf b (Some (wn e)) (wc e + 1)). rewrite in_app_iff. split; [right; apply Hnew; eauto|]. cbn. rewrite upd_same. auto.
        -- destruct Hxv as [?|Hxv]; [congruence|]. rewrite upd_true. rewrite Gk by auto. destruct (D3 v b Hxv Hvb) as [?|(x & Hxi & Hw)]; [auto|].
           destruct (Hsup x Hxi) as [->|Hx'].
           ++ left. destruct Hw as (<- & _). auto.
           ++ right. exists x. rewrite in_app_iff. auto.
    + intros m [<-|Hm]; auto.
    + exists X', g', vl'. split; [assumption|]. destruct last; [assumption|]. destruct HL as (L1 & L2 & L3). split; [assumption|]. split; [assumption|]. intros m Hm. apply L3. cbn. auto.
Qed.

Lemma within_mono (S S' : nat -> Prop) a b : (forall n, S n -> S' n) -> within adj S a b -> within adj S' a b.
Proof. intros H. induction 1; econstructor; eauto. Qed.

(* ---------- termination of a round *)
Definition wq (K : nat -> bool) (q : list wf) : nat := list_sum (map (fun e => S (if K (wn e) then length (adj (wn e)) else 0)) q).
Definition wv (vis : nat -> bool) : nat := list_sum (map (fun i => if vis i then 0 else length (adj i))%nat (seq 0 nCnt)).
Lemma list_sum_app' l l' : list_sum (l ++ l') = (list_sum l + list_sum l')%nat.
Proof. apply list_sum_app. Qed.
Lemma list_sum_cons a l : list_sum (a :: l) = (a + list_sum l)%nat.
Proof. reflexivity. Qed.
Lemma wq_app K q q' : wq K (q ++ q') = (wq K q + wq K q')%nat.
Proof. unfold wq. rewrite map_app. apply list_sum_app. Qed.
Lemma wv_le vis u l : (list_sum (map (fun i => if upd vis u true i then 0 else length (adj i))%nat l)
  <= list_sum (map (fun i => if vis i then 0 else length (adj i))%nat l))%nat.
Proof.
  induction l as [|a l IH]; cbn [map]; [lia|]. rewrite !list_sum_cons. destruct (upd vis u true a) eqn:E; [destruct (vis a); lia|].
  destruct (vis a) eqn:E2; [|lia]. assert (upd vis u true a = true) by (apply upd_true; auto). congruence.
Qed.
Lemma wv_drop vis u l : In u l -> vis u = false ->
  (list_sum (map (fun i => if upd vis u true i then 0 else length (adj i))%nat l) + length (adj u)
  <= list_sum (map (fun i => if vis i then 0 else length (adj i))%nat l))%nat.
Proof.
  induction l as [|a l IH]; cbn [map]; [easy|]. rewrite !list_sum_cons. intros [->|Hi] Hv.
  - rewrite upd_same, Hv. pose proof (wv_le vis u l). lia.
  - specialize (IH Hi Hv). destruct (upd vis u true a) eqn:E; [destruct (vis a); lia|].
    destruct (vis a) eqn:E2; [|lia]. assert (upd vis u true a = true) by (apply upd_true; auto). congruence.
Qed.
Lemma filter_le {A} (f : A -> bool) l : (length (filter f l) <= length l)%nat.
Proof. induction l as [|a l IH]; cbn; [lia|]. destruct (f a); cbn; lia. Qed.

Lemma grow_total K fuel : forall vis prev q, (forall n, K n = true -> vis n = true) ->
  (forall e, In e q -> (wn e < nCnt)%nat) -> (wq K q + wv vis < fuel)%nat ->
  grow adj gCnt nCnt pick fuel K vis prev q <> None.
Proof.
  induction fuel as [|fuel IH]; intros vis prev q HK Hq Hf; [lia|]. cbn [grow].
  destruct (pop_nth (pick fuel q) q) as [[e r]|] eqn:P; [|discriminate].
  destruct (pop_nth_split _ _ _ _ P) as (q1 & q2 & -> & ->).
  assert (W : wq K (q1 ++ e :: q2) = (wq K (q1 ++ q2) + S (if K (wn e) then length (adj (wn e)) else 0))%nat).
  { rewrite !wq_app. unfold wq at 2. cbn [map]. rewrite list_sum_cons. fold (wq K q2). lia. }
  assert (Hs : forall x, In x (q1 ++ q2) -> In x (q1 ++ e :: q2)) by (intros x; rewrite !in_app_iff; cbn; tauto).
  assert (He : (wn e < nCnt)%nat) by (apply Hq; rewrite in_app_iff; cbn; auto).
  destruct (negb (K (wn e)) && vis (wn e)) eqn:E1.
  { apply IH; auto. lia. }
  destruct (((gCnt <? wn e) && (wn e <? nCnt))%nat && negb (vis (wn e))) eqn:E2; [discriminate|].
  assert (HK' : forall n, K n = true -> upd vis (wn e) true n = true) by (intros n Hn; apply upd_true; auto).
  apply IH; [assumption| |].
  - intros x Hx. apply in_app_iff in Hx as [Hx|Hx]; [auto|]. apply in_map_iff in Hx as (b & <- & Hb). cbn.
    apply filter_In in Hb as [Hb _]. exact (rng _ _ He Hb).
  - rewrite wq_app. set (new := map _ _).
    assert (N : (wq K new <= length (adj (wn e)))%nat).
    { unfold wq, new. rewrite map_map. cbn [wn].
      pose proof (filter_le (fun b => negb (upd vis (wn e) true b)) (adj (wn e))) as L.
      assert (F : forall b, In b (filter (fun b => negb (upd vis (wn e) true b)) (adj (wn e))) -> K b = false).
      { intros b Hb. apply filter_In in Hb as [_ Hb]. destruct (K b) eqn:Kb; [|reflexivity]. rewrite (HK' b Kb) in Hb. discriminate. }
      revert L F. generalize (filter (fun b => negb (upd vis (wn e) true b)) (adj (wn e))) as l. generalize (length (adj (wn e))) as m.
      intros m l. revert m. induction l as [|b l IHl]; intros m L F; cbn [map length] in *; [unfold list_sum; cbn; lia|]. rewrite list_sum_cons.
      rewrite (F b) by (cbn; auto). destruct m; [lia|]. specialize (IHl m ltac:(lia) ltac:(intros; apply F; cbn; auto)). lia. }
    destruct (K (wn e)) eqn:Ek.
    + pose proof (wv_le vis (wn e) (seq 0 nCnt)). unfold wv in *. lia.
    + assert (Hv : vis (wn e) = false) by lia.
      pose proof (wv_drop vis (wn e) (seq 0 nCnt) ltac:(apply in_seq; lia) Hv). unfold wv in *. lia.
Qed.

(* ---------- the trace back *)
Inductive trail (K : nat -> bool) (prev : nat -> option nat) : list nat -> nat -> Prop :=
| tr_root : prev gCnt = None -> trail K prev [gCnt] gCnt
| tr_last z p : prev z = Some p -> K p = true -> trail K prev [z] z
| tr_cons x y l : prev x = Some y -> trail K prev l y -> trail K prev (x :: l) x.
Lemma mark_spec K prev X g : forall vl Kc v fuel, chain K prev X g vl -> In v vl ->
  (forall n, K n = true -> Kc n = true) -> (forall n, In n vl -> Kc n = false) -> (length vl <= fuel)%nat ->
  exists K' l, mark fuel Kc prev (Some v) = Some K' /\ trail K prev l v /\ (forall n, In n l -> In n vl) /\ forall n, K' n = true <-> Kc n = true \/ In n l.
Proof.
  induction vl as [|a vl IH]; intros Kc v fuel C Hv H1 H2 Hf; [destruct Hv|].
  cbn [chain] in C. destruct C as (Hn & Hk & Hp & C).
  destruct (Nat.eq_dec v a) as [->|Hva].
  - cbn [mark]. destruct fuel as [|fuel]; [cbn in Hf; lia|]. cbn [mark]. rewrite (H2 a) by (cbn; auto).
    destruct (prev a) as [p|] eqn:Ep.
    + destruct (K p) eqn:Kp.
      * destruct fuel; cbn [mark]; (replace (upd Kc a true p) with true by (symmetry; apply upd_true; auto));
        (exists (upd Kc a true), [a]; split; [reflexivity|]; split; [eapply tr_last; eauto|]; split; [cbn; tauto|]; intros n; rewrite upd_true; cbn; intuition).
      * destruct Hp as ([?|Hp] & _); [congruence|].
        destruct (IH (upd Kc a true) p fuel C Hp) as (K' & l & M & Tr & Hl & HK').
        -- intros n Hn'. apply upd_true. auto.
        -- intros n Hn'. rewrite upd_other; [apply H2; cbn; auto|congruence].
        -- cbn in Hf. lia.
        -- exists K', (a :: l). split; [exact M|]. split; [eapply tr_cons; eauto|]. split.
           ++ intros n [<-|Hi]; cbn; auto.
           ++ intros n. rewrite HK', upd_true. cbn. intuition.
    + destruct Hp as (-> & -> & _). exists (upd Kc gCnt true), [gCnt].
      split; [destruct fuel; reflexivity|]. split; [constructor; assumption|]. split; [cbn; tauto|]. intros n; rewrite upd_true; cbn; intuition.
  - destruct Hv as [?|Hv]; [congruence|]. destruct (IH Kc v fuel C Hv H1) as (K' & l & M & Tr & Hl & HK').
    + intros n Hn'. apply H2. cbn. auto.
    + cbn in Hf. lia.
    + exists K', l. repeat split; auto; try apply HK'. intros n Hi. cbn. auto.
Qed.
Lemma trail_child K prev l t x : trail K prev l t -> In x l -> x = t \/ exists b, In b l /\ prev b = Some x.
Proof.
  induction 1 as [E|z p E Kp|x' y l E Tr IH]; cbn; intros Hi.
  - intuition.
  - intuition.
  - destruct Hi as [<-|Hi]; [auto|]. right. destruct (IH Hi) as [->|(b & Hb & Eb)]; eauto.
Qed.
Lemma trail_prev K prev l t x a : trail K prev l t -> In x l -> prev x = Some a -> K a = true \/ In a l.
Proof.
  induction 1 as [E|z p E Kp|x' y l E Tr IH]; cbn; intros Hi Ex.
  - destruct Hi as [<-|[]]. congruence.
  - destruct Hi as [<-|[]]. left. congruence.
  - destruct Hi as [<-|Hi].
    + right. right. assert (a = y) as -> by congruence. inversion Tr; cbn; auto.
    + destruct (IH Hi Ex); auto.
Qed.

(* ---------- the kept set *)
Definition tight (K : nat -> bool) : Prop := forall u, K u = true -> (u < gCnt)%nat ->
  exists a b, K a = true /\ K b = true /\ a <> b /\ In u (adj a) /\ In b (adj u) /\ ~ In b (adj a).
Definition KI (K : nat -> bool) : Prop :=
  (forall n, K n = true -> (n < nCnt)%nat) /\ (forall n, K n = true -> within adj (fun m => K m = true) gCnt n) /\ (pick_min pick -> tight K).
Lemma KI_root K n : KI K -> K n = true -> K gCnt = true.
Proof.
  intros (_ & H & _) Hn. apply H in Hn. clear H. induction Hn; assumption.
Qed.

Lemma mark_KI K vis prev X g t r : KI K -> GS K vis prev X g (t :: r) -> (gCnt < t < nCnt)%nat ->
  exists K', mark nCnt K prev (Some t) = Some K' /\ KI K' /\ (forall n, K n = true -> K' n = true) /\ K' t = true /\ K t = false /\ K' gCnt = true.
Proof.
  intros HK (A & B & R & T) Ht. pose proof HK as (K1 & K2 & K3).
  assert (ND : NoDup (t :: r)).
  { clear -B. revert B. generalize (t :: r). induction l as [|a l IH]; cbn; constructor; [tauto|]. apply IH. tauto. }
  assert (Len : (length (t :: r) <= nCnt)%nat).
  { rewrite <- (seq_length nCnt 0) at 1. apply NoDup_incl_length; [assumption|]. intros x Hx. apply in_seq. specialize (R x Hx). lia. }
  destruct (mark_spec K prev X g (t :: r) K t nCnt B (or_introl eq_refl) (fun n H => H)
    ltac:(intros n Hn; exact (chain_notK _ _ _ _ _ _ B Hn)) Len) as (K' & l & M & Tr & Hl & HK').
  exists K'. split; [assumption|].
  assert (S1 : forall n, K n = true -> K' n = true) by (intros; apply HK'; auto).
  assert (Kt : K' t = true) by (apply HK'; right; inversion Tr; cbn; auto).
  assert (W : forall n, K' n = true -> within adj (fun m => K' m = true) gCnt n).
  { assert (W0 : forall n, K n = true -> within adj (fun m => K' m = true) gCnt n).
    { intros n Hn. eapply within_mono; [|apply K2, Hn]. assumption. }
    assert (Wl : forall l' v, trail K prev l' v -> (forall n, In n l' -> In n l) -> forall n, In n l' -> within adj (fun m => K' m = true) gCnt n).
    { induction 1 as [E|z p E Kp|x y l' E Tr' IH]; intros Hs n Hn.
      - destruct Hn as [<-|[]]. constructor. apply HK'. right. apply Hs. cbn; auto.
      - destruct Hn as [<-|[]]. destruct (chain_prev _ _ _ _ _ z p B) as (_ & _ & Hz & _); [apply Hl, Hs; cbn; auto|assumption|].
        econstructor; [apply W0, Kp|assumption|]. apply HK'. right. apply Hs. cbn; auto.
      - destruct Hn as [<-|Hn]; [|apply IH; auto; intros m Hm; apply Hs; cbn; auto].
        destruct (chain_prev _ _ _ _ _ x y B) as (_ & _ & Hz & _); [apply Hl, Hs; cbn; auto|assumption|].
        econstructor; [apply IH|exact Hz|]; [intros m Hm; apply Hs; cbn; auto|inversion Tr'; cbn; auto|].
        apply HK'. right. apply Hs. cbn; auto. }
    intros n Hn. apply HK' in Hn as [Hn|Hn]; [auto|]. eapply Wl; eauto. }
  split; [|split; [assumption|split; [assumption|split]]].
  - split; [|split; [assumption|]].
    + intros n Hn. apply HK' in Hn as [Hn|Hn]; auto.
    + intros M' u Hu Hug. apply HK' in Hu as [Hu|Hu].
      { destruct (K3 M' u Hu Hug) as (a & b & ? & ? & ?). exists a, b. auto. }
      destruct (trail_child _ _ _ _ _ Tr Hu) as [->|(b & Hb & Eb)]; [lia|].
      destruct (prev u) as [a|] eqn:Eu.
      2:{ exfalso. clear -B Hl Hu Eu Hug. specialize (Hl u Hu). revert B Hl. generalize (t :: r). induction l0 as [|x l0 IH]; cbn [chain In]; [easy|].
          intros (_ & _ & Hp & Hc) [->|Hi]; [rewrite Eu in Hp; lia|auto]. }
      destruct (chain_prev _ _ _ _ _ _ _ B (Hl _ Hu) Eu) as (_ & _ & Ha & Ga).
      destruct (chain_prev _ _ _ _ _ _ _ B (Hl _ Hb) Eb) as (_ & _ & Hb' & Gb).
      exists a, b. split; [apply HK'; exact (trail_prev _ _ _ _ _ _ Tr Hu Eu)|]. split; [apply HK'; auto|].
      split; [|split; [assumption|split; [assumption|]]].
      * intros ->. lia.
      * apply (T M' u a b (Hl u Hu) (Hl b Hb) Eu Eb).
  - apply (chain_notK _ _ _ _ _ _ B). cbn. auto.
  - specialize (W t Kt). clear -W. induction W; assumption.
Qed.

Definition unreached (K : nat -> bool) : Prop := exists t, (gCnt < t < nCnt)%nat /\ K t = false /\ ~ reachable adj gCnt t.

Lemma seeds_ok K prev : KI K -> GS K K prev (fun _ => false) seed_cost [] /\ GQ K K (fun _ => false) seed_cost (seeds gCnt nCnt seed_cost false K prev).
Proof.
  intros (K1 & K2 & K3). split.
  - split; [intros n; cbn; tauto|]. split; [exact I|]. split; [easy|]. easy.
  - assert (S : forall n, K n = true <-> exists e, In e (seeds gCnt nCnt seed_cost false K prev) /\ wn e = n).
    { intros n. unfold seeds. split.
      - intros Hn. exists (mkWf n (prev n) (seed_cost n)). split; [|reflexivity]. apply in_map_iff. exists n. split; [reflexivity|]. apply filter_In. split; [apply in_seq; specialize (K1 n Hn); lia|assumption].
      - intros (e & He & <-). apply in_map_iff in He as (m & <- & Hm). cbn. apply filter_In in Hm. tauto. }
    split; [|split; [easy|split; [|easy]]].
    + intros e He. assert (Hk : K (wn e) = true) by (apply S; eauto). split; [auto|]. left. split; [assumption|].
      unfold seeds in He. apply in_map_iff in He as (m & <- & _). reflexivity.
    + intros v Hv. left. split; [assumption|]. apply S. assumption.
Qed.

Lemma round_grow fuel first K prev last vis' prev' : KI K -> (first = true -> forall n, K n = false) -> (gCnt < nCnt)%nat ->
  grow adj gCnt nCnt pick fuel K K prev (seeds gCnt nCnt seed_cost first K prev) = Some (last, vis', prev') ->
  exists X g vl, GS K vis' prev' X g vl /\ match last with
    | None => GQ K vis' X g [] /\ (forall n, In n vl -> (n <= gCnt)%nat) /\ (first = true -> In gCnt vl)
    | Some t => (gCnt < t < nCnt)%nat /\ exists r, vl = t :: r /\ (forall n, In n r -> (n <= gCnt)%nat) end.
Proof.
  intros HK Hf Hgn G. pose proof HK as (K1 & K2 & K3).
  destruct first.
    - unfold seeds in G. destruct fuel as [|fuel]; [discriminate G|]. cbn [grow] in G.
      replace (pop_nth (pick fuel [mkWf gCnt None 0]) [mkWf gCnt None 0]) with (Some (mkWf gCnt None 0, @nil wf)) in G by (destruct (pick fuel [mkWf gCnt None 0]) as [|[|?]]; reflexivity).
      cbn [wn wp wc] in G. rewrite (Hf eq_refl gCnt) in G. cbn [negb andb] in G. rewrite Nat.ltb_irrefl in G. cbn [andb] in G.
      edestruct (grow_spec K fuel (upd K gCnt true) (upd prev gCnt None) ([] ++ map (fun b : nat => mkWf b (Some gCnt) (0 + 1)) (filter (fun b : nat => negb (upd K gCnt true b)) (adj gCnt))) (upd (fun _ => false) gCnt true) (fun _ => 0) [gCnt] last vis' prev') as (X & g & vl & HS & HL); [| | |exact G|].
      + split; [intros n; rewrite upd_true; cbn; intuition|]. split.
        * cbn. rewrite upd_same. rewrite Hf by reflexivity. tauto.
        * split; [intros v [<-|[]]; assumption|]. intros _ v a b [<-|[]] [<-|[]]. rewrite upd_same. discriminate.
      + assert (Kf := Hf eq_refl). split; [|split; [|split]].
        * intros e He. cbn [app] in He. apply in_map_iff in He as (b & <- & Hb). apply filter_In in Hb as [Hb Hb2]. cbn. split; [exact (rng _ _ Hgn Hb)|]. right. split; [apply Kf|].
          exists gCnt. rewrite upd_same. auto.
        * intros v. rewrite !upd_true. intuition discriminate.
        * intros v. rewrite !upd_true. rewrite Kf. intuition discriminate.
        * intros v b. rewrite upd_true. intros [->|?] Hb; [|discriminate]. destruct (upd K gCnt true b) eqn:Eb; [auto|]. right.
          exists (mkWf b (Some gCnt) (0 + 1)). split; [|cbn; auto]. cbn [app]. apply in_map_iff. exists b. split; [reflexivity|]. apply filter_In. rewrite Eb. auto.
      + intros n [<-|[]]. lia.
      + exists X, g, vl. split; [assumption|]. destruct last; [assumption|]. destruct HL as (L1 & L2 & L3). split; [assumption|]. split; [assumption|]. intros _. apply L3. cbn. auto.
    - destruct (seeds_ok K prev HK) as [S1 S2].
      destruct (grow_spec K fuel K prev _ _ _ _ last vis' prev' S1 S2 ltac:(easy) G) as (X & g & vl & HS & HL).
      exists X, g, vl. split; [assumption|]. destruct last; [assumption|]. destruct HL as (L1 & L2 & L3). split; [assumption|]. split; [assumption|]. discriminate.
Qed.
Lemma round_spec fuel first K prev : KI K -> (first = true -> forall n, K n = false) -> (gCnt < nCnt)%nat -> (turns adj nCnt <= fuel)%nat ->
  exists K' prev', round adj gCnt nCnt seed_cost pick fuel first K prev = Some (K', prev') /\ KI K' /\ (forall n, K n = true -> K' n = true) /\ ((K' gCnt = true /\ exists t, (gCnt < t < nCnt)%nat /\ K t = false /\ K' t = true) \/
   (first = true \/ K gCnt = true -> (forall t, (gCnt < t < nCnt)%nat -> K t = true) \/ unreached K)).
Proof.
  intros HK Hf Hgn Hfuel. pose proof HK as (K1 & K2 & K3). unfold round.
  assert (Q0 : forall e, In e (seeds gCnt nCnt seed_cost first K prev) -> (wn e < nCnt)%nat).
  { intros e He. unfold seeds in He. destruct first.
    - destruct He as [<-|[]]. cbn. assumption.
    - apply in_map_iff in He as (m & <- & Hm). cbn. apply filter_In in Hm as [_ Hm]. auto. }
  assert (G0 : grow adj gCnt nCnt pick fuel K K prev (seeds gCnt nCnt seed_cost first K prev) <> None).
  { apply grow_total; auto. unfold turns in Hfuel.
    enough (wq K (seeds gCnt nCnt seed_cost first K prev) + wv K <= nCnt + list_sum (map (fun i => length (adj i)) (seq 0 nCnt)))%nat by lia.
    unfold seeds. destruct first.
    - unfold wq, wv. cbn [map wn]. rewrite list_sum_cons, (Hf eq_refl gCnt). change (list_sum []) with 0%nat.
      assert (H : forall l, (list_sum (map (fun i => if K i then 0 else length (adj i))%nat l) <= list_sum (map (fun i => length (adj i)) l))%nat).
      { induction l as [|a l IH]; cbn [map]; [lia|]. rewrite !list_sum_cons. destruct (K a); lia. }
      specialize (H (seq 0 nCnt)). lia.
    - unfold wq, wv. rewrite map_map. cbn [wn].
      assert (H : forall l, (list_sum (map (fun x => S (if K x then length (adj x) else 0)) (filter K l)) + list_sum (map (fun i => if K i then 0 else length (adj i))%nat l)
          <= length l + list_sum (map (fun i => length (adj i)) l))%nat).
      { induction l as [|a l IH]; cbn [map filter length]; [cbn; lia|]. rewrite !list_sum_cons. destruct (K a) eqn:Ka; cbn [map]; rewrite ?list_sum_cons, ?Ka; lia. }
      specialize (H (seq 0 nCnt)). rewrite seq_length in H. lia. }
  destruct (grow adj gCnt nCnt pick fuel K K prev (seeds gCnt nCnt seed_cost first K prev)) as [[[last vis'] prev']|] eqn:G; [|congruence]. clear G0.
  pose proof (round_grow fuel first K prev last vis' prev' HK Hf Hgn G) as S.
  destruct S as (X & g & vl & HS & HL). destruct last as [t|].
  - destruct HL as (Ht & r & -> & _).
    destruct (mark_KI K vis' prev' X g t r HK HS Ht) as (K' & M & HK' & Hs & Kt & Kt0 & Kr).
    rewrite M. exists K', prev'. split; [reflexivity|]. split; [assumption|]. split; [assumption|]. left. eauto.
  - destruct HL as (HQ & Hb & Hroot).
    assert (mark nCnt K prev' None = Some K) as -> by (destruct nCnt; reflexivity).
    exists K, prev'. split; [reflexivity|]. split; [assumption|]. split; [auto|]. right. intros Hr.
    destruct HS as (A & B & R & T). destruct HQ as (_ & D1 & D2 & D3).
    assert (Cl : forall n, reachable adj gCnt n -> vis' n = true).
    { induction 1 as [_|b c _ IHw Hc _].
      - apply A. destruct Hr as [Hr|Hr]; [right; apply Hroot; assumption|left; assumption].
      - destruct (D2 b IHw) as [(_ & e & [] & _)|Xb]. destruct (D3 b c Xb Hc) as [?|(e & [] & _)]. assumption. }
    destruct (forallb K (seq (S gCnt) (nCnt - S gCnt))) eqn:F.
    + left. intros t Ht. rewrite forallb_forall in F. apply F. apply in_seq. lia.
    + right. assert (exists t, In t (seq (S gCnt) (nCnt - S gCnt)) /\ K t = false) as (t & Hti & Htk).
      { revert F. generalize (seq (S gCnt) (nCnt - S gCnt)). induction l as [|a l IH]; cbn; [discriminate|]. destruct (K a) eqn:Ka; cbn; [|eauto].
        intros F. destruct (IH F) as (t & ? & ?). eauto. }
      apply in_seq in Hti. exists t. split; [lia|]. split; [assumption|]. intros Hre. apply Cl in Hre. apply A in Hre as [?|Hi]; [congruence|]. apply Hb in Hi. lia.
Qed.

Definition npins (K : nat -> bool) : nat := length (filter K (seq gCnt (nCnt - gCnt))).
Lemma count_mono (K K' : nat -> bool) l : (forall n, K n = true -> K' n = true) -> (length (filter K l) <= length (filter K' l))%nat.
Proof.
  intros H. induction l as [|a l IH]; cbn; [lia|]. destruct (K a) eqn:Ka; [rewrite (H a Ka); cbn; lia|]. destruct (K' a); cbn; lia.
Qed.
Lemma count_strict (K K' : nat -> bool) l t : (forall n, K n = true -> K' n = true) -> In t l -> K t = false -> K' t = true ->
  (S (length (filter K l)) <= length (filter K' l))%nat.
Proof.
  intros H. induction l as [|a l IH]; cbn; [easy|]. intros [->|Hi] H1 H2.
  - rewrite H1, H2. cbn. pose proof (count_mono K K' l H). lia.
  - specialize (IH Hi H1 H2). destruct (K a) eqn:Ka; [rewrite (H a Ka); cbn; lia|]. destruct (K' a); cbn; lia.
Qed.
Lemma npins_all K : (nCnt - gCnt <= npins K)%nat -> all_pins gCnt nCnt K = true.
Proof.
  unfold npins, all_pins. rewrite <- (seq_length (nCnt - gCnt) gCnt) at 1. generalize (seq gCnt (nCnt - gCnt)).
  induction l as [|a l IH]; cbn; [reflexivity|]. intros H. pose proof (filter_le K l). destruct (K a); cbn in *; [apply IH; lia|lia].
Qed.

Lemma rounds_spec fuel : (gCnt < nCnt)%nat -> (turns adj nCnt <= fuel)%nat -> forall n K prev, KI K ->
  exists K' prev', rounds adj gCnt nCnt seed_cost pick fuel n false K prev = Some (K', prev') /\ KI K' /\ (forall m, K m = true -> K' m = true) /\ (K gCnt = true -> (npins K + n <= npins K')%nat \/ all_pins gCnt nCnt K' = true \/ exists t, (gCnt < t < nCnt)%nat /\ ~ reachable adj gCnt t).
Proof.
  intros Hg Hf. induction n as [|n IH]; intros K prev HK; cbn [rounds].
  - exists K, prev. repeat split; auto; try apply HK. intros _. left. lia.
  - destruct (round_spec fuel false K prev HK ltac:(discriminate) Hg Hf) as (K1 & p1 & -> & HK1 & S1 & Hc).
    destruct (IH K1 p1 HK1) as (K2 & p2 & -> & HK2 & S2 & Hc2). exists K2, p2. split; [reflexivity|]. split; [assumption|]. split; [auto|].
    intros Hk. destruct Hc as [(Hr & t & Ht & Kt & K1t)|Hc].
    + destruct (Hc2 Hr) as [Hn|[?|?]]; auto. left.
      pose proof (count_strict K K1 (seq gCnt (nCnt - gCnt)) t S1 ltac:(apply in_seq; lia) Kt K1t). unfold npins in *. lia.
    + destruct (Hc (or_intror Hk)) as [Ha|(t & Ht & _ & Hn)].
      * right. left. unfold all_pins. apply forallb_forall. intros m Hm. apply in_seq in Hm. apply S2, S1. destruct (Nat.eq_dec m gCnt) as [->|]; [assumption|apply Ha; lia].
      * right. right. eauto.
Qed.

(* the whole search *)
Lemma tree_search_spec fuel : (turns adj nCnt <= fuel)%nat ->
  exists K prev, tree_search adj gCnt nCnt seed_cost pick fuel = Some (K, prev) /\ (forall n, K n = true -> (n < nCnt)%nat) /\ (forall n, K n = true -> within adj (fun m => K m = true) gCnt n) /\ (pick_min pick -> tight K) /\ ((gCnt + 2 <= nCnt)%nat -> all_pins gCnt nCnt K = true \/ exists t, (gCnt < t < nCnt)%nat /\ ~ reachable adj gCnt t) /\ ((nCnt <= gCnt + 1)%nat -> forall n, K n = false).
Proof.
  intros Hf. unfold tree_search.
  assert (K0 : KI (fun _ => false)) by (repeat split; discriminate).
  destruct (le_lt_dec nCnt (gCnt + 1)) as [Hle|Hlt].
  - replace (nCnt - 1 - gCnt)%nat with 0%nat by lia. cbn [rounds]. exists (fun _ => false), (fun _ => None). repeat split; try apply K0; auto. lia.
  - replace (nCnt - 1 - gCnt)%nat with (S (nCnt - 2 - gCnt)) by lia. cbn [rounds].
    destruct (round_spec fuel true _ (fun _ => None) K0 ltac:(auto) ltac:(lia) Hf) as (K1 & p1 & -> & HK1 & S1 & Hc).
    destruct (rounds_spec fuel ltac:(lia) Hf (nCnt - 2 - gCnt) K1 p1 HK1) as (K2 & p2 & -> & (H1 & H2 & H3) & S2 & Hc2).
    exists K2, p2. split; [reflexivity|]. split; [assumption|]. split; [assumption|]. split; [assumption|]. split; [|lia].
    intros _. destruct Hc as [(Hr & t & Ht & _ & K1t)|Hc].
    + destruct (Hc2 Hr) as [Hn|[?|?]]; auto. left. apply npins_all.
      assert (2 <= npins K1)%nat; [|lia]. unfold npins.
      replace (nCnt - gCnt)%nat with (S (nCnt - S gCnt)) by lia. cbn [seq filter]. rewrite Hr. cbn [length].
      assert (In t (filter K1 (seq (S gCnt) (nCnt - S gCnt)))) as Hi by (apply filter_In; split; [apply in_seq; lia|assumption]).
      destruct (filter K1 (seq (S gCnt) (nCnt - S gCnt))); [destruct Hi|cbn; lia].
    + destruct (Hc (or_introl eq_refl)) as [Ha|(t & Ht & _ & Hn)]; [|right; eauto].
      specialize (Ha (S gCnt) ltac:(lia)). discriminate.
Qed.
End T.
