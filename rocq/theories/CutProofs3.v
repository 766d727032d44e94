(* Cut conflicts the checker reports are charged by the router (C103): the rules of CutModel against the
   cost marking of CostModel. *)
From Verif Require Import Base Stl GeomModel GeomSpec GeomProofs GridModel GridSpec GcModel GcSpec GcProofs
  CostModel CostSpec CostProofs4 CostProps CutModel CutSpec CutProofs.

(* the rule as the marking code reads it: -1 for an absent number (frConstraint.h:1112-1243) *)
Definition cost_rule (c : crule) : ccut :=
  mkCut (k_spc c) (k_c2c c) (k_same c) (match k_second c with Some _ => true | None => false end)
        (match k_adj c with Some n => n | None => -1 end) (k_within c) (k_prlo c)
        (match k_area c with Some a => a | None => -1 end).

Lemma near_cost c a b v : nearer_than (k_c2c c) a b v <-> cut_near (cost_rule c) a b v.
Proof. unfold nearer_than, cut_near. cbn. destruct (k_c2c c); reflexivity. Qed.
Lemma conflict_of W l lef c r o : breaks W l lef c r o -> k_same c = false -> k_area c = None ->
  ~ large_obs W l r -> ~ large_obs W l o ->
  cut_conflict (cost_rule c) false (gbox r) (gbox o).
Proof.
  intros (_ & S2 & _ & _ & (_ & _ & PO & v & A & N)) Ks Ka Lr Lo.
  assert (v = k_spc c) as -> by (destruct A as [(_ & H & _)|[_ H]]; [tauto|exact H]).
  apply near_cost in N. unfold cut_conflict. cbn [cost_rule cu_samenet cu_layer cu_adj cu_spc cu_prlo cu_area cu_within].
  rewrite Ks, S2, Ka. split; [reflexivity|]. split; [reflexivity|]. split; [intros _; exact N|].
  intros _. split; [exact N|]. split; [|congruence]. intros P. destruct (PO P) as [R _]. exact R.
Qed.

Lemma conflict_sym c a b : cut_conflict c false a b -> cut_conflict c false b a.
Proof.
  assert (N : forall d, cut_near c a b d -> cut_near c b a d).
  { intros d. unfold cut_near. destruct (cu_c2c c).
    - unfold dist2. lia.
    - intros (p & q & A & B & D). exists q, p. split; [exact B|]. split; [exact A|]. unfold dist2 in *. lia. }
  intros (A & B & C & D). split; [exact A|]. split; [exact B|]. split; [auto|]. intros H. destruct (D H) as (D1 & D2 & D3).
  split; [auto|]. split.
  - intros P. specialize (D2 P). unfold overlap_x, overlap_y, overlap in *. lia.
  - intros P Q. specialize (D3 P Q). lia.
Qed.

(* counts are not negative *)
Lemma tally_nonneg {X} (P : X -> Prop) xs n : tally P xs n -> 0 <= n.
Proof. induction 1; lia. Qed.
Lemma tally_pos {X} (P : X -> Prop) xs n x : tally P xs n -> In x xs -> P x -> 1 <= n.
Proof.
  intros T. induction T as [|y xs n Py T IH|y xs n Ny T IH]; intros I Px; [destruct I| |].
  - apply tally_nonneg in T. lia.
  - destruct I as [-> |I]; [contradiction|auto].
Qed.
Lemma one_nonneg P n : one P n -> 0 <= n.
Proof. intros [[_ ->]|[_ ->]]; lia. Qed.
Lemma one_pos (P : Prop) n : one P n -> P -> 1 <= n.
Proof. intros [[_ ->]|[H ->]] Q; [lia|contradiction]. Qed.
Lemma sums_nonneg {X} (R : X -> Z -> Prop) xs n : (forall x m, In x xs -> R x m -> 0 <= m) -> sums R xs n -> 0 <= n.
Proof.
  intros H S. induction S as [|x xs n m Rx S IH]; [lia|].
  specialize (H x n (or_introl eq_refl) Rx) as Hn. assert (0 <= m) by (apply IH; intros; eapply H; [right|]; eauto). lia.
Qed.
Lemma sums_pos {X} (R : X -> Z -> Prop) xs n x : (forall x m, In x xs -> R x m -> 0 <= m) -> sums R xs n ->
  In x xs -> (forall m, R x m -> 1 <= m) -> 1 <= n.
Proof.
  intros H S. induction S as [|y xs n m Ry S IH]; intros I P; [destruct I|].
  assert (0 <= m) by (eapply sums_nonneg; [|exact S]; intros; eapply H; [right|]; eauto).
  specialize (H y n (or_introl eq_refl) Ry) as Hn. destruct I as [-> |I]; [specialize (P n Ry); lia|].
  assert (1 <= m) by (apply IH; auto; intros; eapply H; [right|]; eauto). lia.
Qed.

Lemma via_near_nonneg E g b z upper ps blk p n : via_near E g b z upper ps blk p n -> 0 <= n.
Proof.
  unfold via_near. destruct (layer_via _ _ _); [destruct (ce_spc _ _)|]; [|lia|lia].
  intros [[_ (patch & n1 & n2 & _ & A & B & ->)]|[_ ->]]; [|lia]. apply one_nonneg in A. apply tally_nonneg in B. lia.
Qed.
Lemma via_eol_nonneg E g b z upper p n : via_eol_hits E g b z upper p n -> 0 <= n.
Proof.
  unfold via_eol_hits. destruct (layer_via _ _ _); [|lia]. intros [[_ A]|[_ ->]]; [|lia]. apply tally_nonneg in A. exact A.
Qed.
Lemma cut_hits_nonneg E g b z blk p n : cut_hits E g b z blk p n -> 0 <= n.
Proof.
  unfold cut_hits. destruct (ce_via _ _); [|lia]. intros [[_ A]|[_ ->]]; [|lia]. apply tally_nonneg in A. exact A.
Qed.
Lemma inter_hits_nonneg E g b z upper p n : inter_hits E g b z upper p n -> 0 <= n.
Proof.
  unfold inter_hits. destruct (ce_via _ _); [destruct (inter_rule _ _ _)|]; [|lia|lia].
  intros [[_ A]|[_ ->]]; [|lia]. apply one_nonneg in A. exact A.
Qed.
Lemma shape_via_nonneg E g p b z ps eol n : shape_via E g p b z ps eol n -> 0 <= n.
Proof.
  intros (a1 & a2 & e1 & e2 & A & B & C & ->). apply via_near_nonneg in A. apply via_near_nonneg in B.
  destruct eol; destruct C as [C D]; [apply via_eol_nonneg in C; apply via_eol_nonneg in D|]; lia.
Qed.
Lemma cut_via_nonneg E g p z cb n : cut_via E g p z cb n -> 0 <= n.
Proof.
  intros (a & u & d & A & B & C & ->). apply cut_hits_nonneg in A. apply inter_hits_nonneg in B. apply inter_hits_nonneg in C. lia.
Qed.
Lemma fig_via_nonneg E g p f n : fig_via E g p f n -> 0 <= n.
Proof.
  destruct f as [bi ei b|z b|bi ei pt v]; cbn [fig_via].
  - intros (s & k & A & (lo & up & L & U & ->) & ->). apply shape_via_nonneg in A. apply one_nonneg in L. apply one_nonneg in U. lia.
  - apply shape_via_nonneg.
  - intros (s1 & s2 & c & A & B & C & ->). apply shape_via_nonneg in A. apply shape_via_nonneg in B.
    apply sums_nonneg in C; [lia|]. intros x m _ H. apply cut_via_nonneg in H. exact H.
Qed.
(* the via in the layout hurts a via at the grid point by one of its cuts *)
Lemma fig_cut_pos E g p bi ei pt v cf n : In cf (cv_cuts v) ->
  (forall m, cut_via E g p (mz bi) (moved cf pt) m -> 1 <= m) -> fig_via E g p (CVia bi ei pt v) n -> 1 <= n.
Proof.
  intros I H (s1 & s2 & c & A & B & C & ->). apply shape_via_nonneg in A. apply shape_via_nonneg in B.
  assert (1 <= c); [|lia]. eapply sums_pos; [|exact C| |exact H].
  - intros x m _ X. apply cut_via_nonneg in X. exact X.
  - apply (in_map (fun cf => moved cf pt)). exact I.
Qed.
Lemma near_sym c2c a b v : nearer_than c2c a b v -> nearer_than c2c b a v.
Proof.
  unfold nearer_than. destruct c2c.
  - unfold dist2. intros H. lia.
  - intros (p & q & A & B & D). exists q, p. split; [exact B|]. split; [exact A|]. unfold dist2 in *. lia.
Qed.
Lemma stacked_near c a b v : normalised a -> normalised b -> stacked_apart (k_c2c c) a b v -> cut_near (cost_rule c) a b v.
Proof.
  intros Na Nb [H1 H2]. rewrite <- near_cost. destruct (box_overlaps a b false) eqn:O.
  - apply overlap_iff in O; [|assumption|assumption]. specialize (H1 O). destruct (k_c2c c); [exact H1|].
    apply (nearer_closer true); auto.
  - apply H2. rewrite <- overlap_iff by assumption. congruence.
Qed.

Lemma norm_moved b pt : solid b -> normalised (moved b pt).
Proof. intros [H1 H2]. unfold normalised, moved. bx b. bxs. lia. Qed.
Lemma good_solid b : good_box b -> solid b.
Proof. intros [H1 H2]. unfold solid. bx b. bxs. lia. Qed.

(* the layout the clip holds charges a via at the grid point *)
Lemma priced E g h figs p bi ei pt v cf :
  good_tech E -> svia_good E -> good_stack E g -> grid_sorted g -> valid g p -> ce_svia E p = None -> no_area E ->
  (forall f, In (AddFig f) h \/ In (SubFig f) h -> good_fig E g f /\ fig_wide E g f) ->
  live h figs -> no_limit g (flat_map (hist_ops E g) h) ->
  In (CVia bi ei pt v) figs -> In cf (cv_cuts v) ->
  (forall m, cut_via E g p (mz bi) (moved cf pt) m -> 1 <= m) ->
  read g p ADrcU + 1 <= read (run_hist E g h) p ADrcU.
Proof.
  intros GT SG GS Hs Hv NS NA HF L NL If Ic H.
  destruct (C93_counters_count_conflicts E g h figs p GT SG GS Hs Hv NS NA HF L NL) as (w & n & _ & S & _ & -> & _).
  assert (1 <= n); [|lia]. eapply sums_pos; [|exact S|exact If|].
  - intros f m _ F. eapply fig_via_nonneg. exact F.
  - intros m F. eapply fig_cut_pos; [exact Ic|exact H|exact F].
Qed.

