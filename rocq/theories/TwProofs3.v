(* The wires and vias written. *)
From Verif Require Import Base GeomModel ClipModel ClipSpec TwModel TwSpec TwProofs TwProofs2.
From Coq Require Import Sorted.

Lemma key_irr a : key_ltb a a = false.
Proof. destruct a as [[l h] t]. unfold key_ltb. destruct h; cbn; rewrite !Z.ltb_irrefl; rewrite Z.eqb_refl; reflexivity. Qed.
Lemma key_tr a b c : key_ltb a b = true -> key_ltb b c = true -> key_ltb a c = true.
Proof. destruct a as [[l1 h1] t1], b as [[l2 h2] t2], c as [[l3 h3] t3]. unfold key_ltb. destruct h1, h2, h3; cbn; lia. Qed.
Lemma key_tot a b : key_ltb a b = false -> key_ltb b a = false -> a = b.
Proof. destruct a as [[l1 h1] t1], b as [[l2 h2] t2]. unfold key_ltb. destruct h1, h2; cbn; intros; repeat f_equal; lia. Qed.
Lemma vkey_irr a : vkey_ltb a a = false.
Proof. destruct a as [[x y] z]. unfold vkey_ltb. lia. Qed.
Lemma vkey_tr a b c : vkey_ltb a b = true -> vkey_ltb b c = true -> vkey_ltb a c = true.
Proof. destruct a as [[l1 h1] t1], b as [[l2 h2] t2], c as [[l3 h3] t3]. unfold vkey_ltb. lia. Qed.
Lemma vkey_tot a b : vkey_ltb a b = false -> vkey_ltb b a = false -> a = b.
Proof. destruct a as [[l1 h1] t1], b as [[l2 h2] t2]. unfold vkey_ltb. intros; repeat f_equal; lia. Qed.

Lemma wires_of_in figs w : In w (wires_of figs) <-> In (FSeg w) figs.
Proof.
  unfold wires_of. rewrite in_flat_map. split.
  - intros (f & Hf & H). destruct f; cbn in H; try contradiction. destruct H as [<-|[]]. exact Hf.
  - intros H. exists (FSeg w). split; [exact H|]. now left.
Qed.
Lemma long_in figs w : Forall fig_straight figs -> (In w (long_wires figs) <-> In (FSeg w) figs /\ proper w).
Proof.
  intros F. unfold long_wires. rewrite filter_In, wires_of_in. unfold has_length, proper. rewrite Forall_forall in F. split.
  - intros [H L]. split; [exact H|]. specialize (F _ H). cbn in F. unfold straight in F. lia.
  - intros [H P]. split; [exact H|]. lia.
Qed.

Lemma on_line_good k w x y : good k w -> (on_line w x y <-> if snd (fst k) then y = 2 * snd k /\ 2 * w_lo w <= x <= 2 * w_hi w else x = 2 * snd k /\ 2 * w_lo w <= y <= 2 * w_hi w).
Proof. intros Gw. unfold on_line. rewrite (good_wb k w Gw). destruct Gw as (_ & _ & ->). unfold tpt. destruct (snd (fst k)); cbn [px py]; lia. Qed.
Section Out.
Variable lw vcut : Z -> Z.
Variable figs : list fig.
Hypothesis St : Forall fig_straight figs.
Variable e : Z -> option Z.
Hypothesis He : forall l, match e l with None => True | Some x => x = default_ext lw l end.
Hypothesis Fe : forall w, In (FSeg w) figs -> match e (wl w) with None => True | Some x => 0 <= x /\ bSty (ws w) = StExtend /\ bExt (ws w) = x /\ eSty (ws w) = StExtend /\ eExt (ws w) = x end.

Lemma on_key_good k : Forall (good k) (on_key k (long_wires figs)).
Proof.
  apply Forall_forall. intros w H. unfold on_key in H. apply filter_In in H as [H E]. apply key_eqb_eq in E. apply long_in in H as [_ P]; [|exact St]. apply proper_good in P. rewrite E in P. exact P.
Qed.
Lemma on_key_style k : on_key k (long_wires figs) <> [] -> match e (lof k) with None => True | Some e0 => 0 <= e0 /\ Forall (fun w => bSty (ws w) = StExtend /\ bExt (ws w) = e0 /\ eSty (ws w) = StExtend /\ eExt (ws w) = e0) (on_key k (long_wires figs)) end.
Proof.
  intros Ne. destruct (e (lof k)) as [e0|] eqn:E; [|exact I].
  assert (A : forall w, In w (on_key k (long_wires figs)) -> 0 <= e0 /\ bSty (ws w) = StExtend /\ bExt (ws w) = e0 /\ eSty (ws w) = StExtend /\ eExt (ws w) = e0).
  { intros w H. unfold on_key in H. apply filter_In in H as [H Ek]. apply key_eqb_eq in Ek. apply long_in in H as [H _]; [|exact St]. specialize (Fe w H). replace (wl w) with (lof k) in Fe by (rewrite <- Ek; reflexivity). rewrite E in Fe. exact Fe. }
  split; [destruct (on_key k (long_wires figs)) as [|w r]; [contradiction|apply (A w); now left]|]. apply Forall_forall. intros w H. apply (A w H).
Qed.
Lemma merge_ok k : In k (map w_key (long_wires figs)) -> Forall (ok e k) (merge_track (on_key k (long_wires figs))) /\ ForallOrdPairs apart (merge_track (on_key k (long_wires figs))) /\
  forall X, covered (merge_track (on_key k (long_wires figs))) X <-> covered (on_key k (long_wires figs)) X.
Proof.
  intros H. assert (Ne : on_key k (long_wires figs) <> []).
  { apply in_map_iff in H as (w & E & Hw). intros Q. assert (X : In w (on_key k (long_wires figs))) by (apply filter_In; split; [exact Hw|apply key_eqb_eq, E]). rewrite Q in X. destruct X. }
  destruct (merge_track_ok k (on_key k (long_wires figs)) (on_key_good k) (e (lof k)) (on_key_style k Ne)) as (A & B & C). split; [exact A|]. split; [|exact C].
  clear - B. induction B as [|a r F P IH]; constructor; [|exact IH]. eapply Forall_impl; [|exact F]. intros v Hv. cbn beta in Hv. left. lia.
Qed.
Lemma merged_keys : map fst (merged figs) = kset key_ltb (map w_key (long_wires figs)).
Proof. unfold merged. cbv zeta. rewrite map_map. cbn. apply map_id. Qed.
Lemma merged_TI : TI e (merged figs).
Proof.
  split; [rewrite merged_keys; apply (kset_nodup _ key_irr key_tr key_tot)|]. apply Forall_forall. intros [k A] H. unfold merged in H. apply in_map_iff in H as (k1 & E & H). injection E as <- <-.
  apply (proj1 (kset_in _ key_tot _ _)) in H. cbn [fst snd]. destruct (merge_ok k1 H) as (A1 & A2 & _). auto.
Qed.
Lemma merged_cov k X : cov (merged figs) k X <-> covered (on_key k (long_wires figs)) X.
Proof.
  unfold cov. split.
  - intros (A & H & C). unfold merged in H. apply in_map_iff in H as (k1 & E & H). injection E as <- <-. apply (proj1 (kset_in _ key_tot _ _)) in H. destruct (merge_ok k1 H) as (_ & _ & Q). apply Q, C.
  - intros C. assert (H : In k (map w_key (long_wires figs))).
    { destruct C as (w & Hw & _). apply filter_In in Hw as [Hw E]. apply key_eqb_eq in E. apply in_map_iff. eauto. }
    exists (merge_track (on_key k (long_wires figs))). destruct (merge_ok k H) as (_ & _ & Q). split; [|apply Q, C].
    unfold merged. apply in_map_iff. exists k. split; [reflexivity|]. apply (kset_in _ key_tot), H.
Qed.
Lemma TI_shaped m : TI e m -> shaped m.
Proof. intros [_ F]. eapply Forall_impl; [|exact F]. intros [k A] [H _]. eapply Forall_impl; [|exact H]. intros w Hw. apply Hw. Qed.
Definition final : tracks := split_crossings lw (fold_left (split_via lw) (via_keys vcut figs) (merged figs)).
Lemma final_eq : final = split_crossings lw (merged figs).
Proof. unfold final. rewrite split_vias_id; [reflexivity|]. apply TI_shaped, merged_TI. Qed.
Lemma final_TI : TI e final /\ forall k X, cov final k X <-> covered (on_key k (long_wires figs)) X.
Proof.
  rewrite final_eq. destruct (crossings_ok lw e He (merged figs) merged_TI) as [T C]. split; [exact T|]. intros k X. rewrite C. apply merged_cov.
Qed.
Lemma out_wire w : In (FSeg w) (merge_split lw vcut figs) <-> exists k A, In (k, A) final /\ In w A.
Proof.
  unfold merge_split. fold final. rewrite in_app_iff, in_map_iff. split.
  - intros [(v & E & H)|H].
    + injection E as ->. apply in_flat_map in H as ([k A] & H1 & H2). eauto.
    + exfalso. apply in_flat_map in H as (k & _ & H). destruct (via_at vcut figs k) as [f|] eqn:E; [|destruct H]. destruct H as [->|[]].
      revert E. unfold via_at. assert (Q : forall l r, (forall w, r <> Some (FSeg w)) -> fold_left (fun r f => match via_key vcut f with [k'] => if vkey_eqb k' k then Some f else r | _ => r end) l r <> Some (FSeg w)).
      { clear. induction l as [|f r IH]; cbn; intros s Hs; [apply Hs|]. apply IH. destruct f; cbn [via_key]; try exact Hs. destruct (vkey_eqb (px o, py o, vcut d) k); [intros; discriminate|exact Hs]. }
      apply Q. intros; discriminate.
  - intros (k & A & H1 & H2). left. exists w. split; [reflexivity|]. apply in_flat_map. exists (k, A). auto.
Qed.
Lemma final_wire k A w : In (k, A) final -> In w A -> ok e k w.
Proof. intros H Hw. destruct final_TI as [[_ F] _]. rewrite Forall_forall in F. destruct (F _ H) as [Q _]. cbn in Q. rewrite Forall_forall in Q. apply Q, Hw. Qed.
Lemma out_lines l x y : lines (merge_split lw vcut figs) l x y <-> exists w, In (FSeg w) figs /\ proper w /\ wl w = l /\ on_line w x y.
Proof.
  destruct final_TI as [T C]. unfold lines. split.
  - intros (w & H & El & Hl). apply out_wire in H as (k & A & H1 & H2). destruct (final_wire k A w H1 H2) as (Gw & _).
    apply (on_line_good k w x y Gw) in Hl.
    assert (Cv : cov final k (if snd (fst k) then x else y)) by (exists A; split; [exact H1|exists w; split; [exact H2|destruct (snd (fst k)); lia]]).
    apply C in Cv as (v & Hv & Hx). unfold on_key in Hv. apply filter_In in Hv as [Hv Ek]. apply key_eqb_eq in Ek. apply long_in in Hv as [Hv P]; [|exact St]. exists v. split; [exact Hv|]. split; [exact P|].
    pose proof (proj1 (proper_good v) P) as Gv. rewrite Ek in Gv. split.
    + destruct Gw as (Kw & _). rewrite <- Kw in Ek. injection Ek as E1 _ _. congruence.
    + apply (on_line_good k v x y Gv). destruct (snd (fst k)); lia.
  - intros (w & H & P & El & Hl). pose proof (proj1 (proper_good w) P) as Gw. apply (on_line_good _ w x y Gw) in Hl.
    assert (Cv : covered (on_key (w_key w) (long_wires figs)) (if snd (fst (w_key w)) then x else y)).
    { exists w. split; [apply filter_In; split; [apply long_in; auto|apply key_eqb_eq; reflexivity]|destruct (snd (fst (w_key w))); lia]. }
    apply C in Cv as (A & H1 & v & Hv & Hx). exists v. split; [apply out_wire; eauto|]. destruct (final_wire _ A v H1 Hv) as (Gv & _). split.
    + destruct Gv as (Kv & _). injection Kv as E1 _ _. congruence.
    + apply (on_line_good _ v x y Gv). destruct (snd (fst (w_key w))); lia.
Qed.
Lemma out_proper w : In (FSeg w) (merge_split lw vcut figs) -> proper w.
Proof. intros H. apply out_wire in H as (k & A & H1 & H2). destruct (final_wire k A w H1 H2) as (Gw & _). apply proper_good. destruct Gw as (Kw & Q). rewrite Kw. split; [exact Kw|exact Q]. Qed.
Lemma out_style w : In (FSeg w) (merge_split lw vcut figs) -> bst (e (wl w)) (ws w) /\ est (e (wl w)) (ws w).
Proof. intros H. apply out_wire in H as (k & A & H1 & H2). destruct (final_wire k A w H1 H2) as ((Kw & _) & Q). replace (wl w) with (lof k) by (rewrite <- Kw; reflexivity). exact Q. Qed.
End Out.
