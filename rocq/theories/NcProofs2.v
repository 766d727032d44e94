(* Proofs about the costs while one net is routed: the number of conflicts a rectangle, an object, a term adds. *)
From Coq Require Import Permutation.
From Verif Require Import Base Stl GeomModel GeomSpec GeomProofs GridModel GridSpec GridProofs GridProofs2 CostModel CostSpec CostProofs CostProofs2 CostProofs3 CostProofs4 SetupModel SetupSpec SetupProofs SetupProofs2 SetupProofs3 SetupProofs4 SetupProofs5 SetupProofs6 NcModel NcSpec NcProofs.

Lemma one_fun P n m : one P n -> one P m -> n = m.
Proof. intros [[A ->]|[A ->]] [[B ->]|[B ->]]; congruence || contradiction. Qed.
Lemma tally_fun {A} (P : A -> Prop) l : forall n m, tally P l n -> tally P l m -> n = m.
Proof. induction l as [|x l IH]; intros n m H H'; inversion H; inversion H'; subst; try contradiction; try reflexivity; try (f_equal; apply IH; assumption); apply IH; assumption. Qed.
Lemma tally_pos {A} (P : A -> Prop) l n : tally P l n -> 0 <= n /\ (0 < n <-> exists x, In x l /\ P x).
Proof.
  induction 1 as [|x l n Px T [IH1 IH2]|x l n Px T [IH1 IH2]].
  - split; [lia|]. split; [lia|intros (x & [] & _)].
  - split; [lia|]. split; [intros _; exists x; split; [left; reflexivity|exact Px]|lia].
  - split; [lia|]. rewrite IH2. split; intros (y & Hy & Py); [exists y; split; [right|]; assumption|]. destruct Hy as [<-|Hy]; [contradiction|eauto].
Qed.
Lemma one_pos P n : one P n -> 0 <= n /\ (0 < n <-> P).
Proof. intros [[A ->]|[A ->]]; split; try lia; split; intros; try lia; auto; contradiction. Qed.
Lemma rect_wire_fun E g q z b blk n m : rect_wire E g q z b blk n -> rect_wire E g q z b blk m -> n = m.
Proof.
  intros (a & e & A & B & ->) (a' & e' & A' & B' & ->). f_equal.
  - unfold wire_near in *. destruct (ce_spc E _); [|congruence]. destruct A as [[Z1 A]|[Z1 A]], A' as [[Z2 A']|[Z2 A']]; try congruence. eapply one_fun; eassumption.
  - unfold wire_eol in *. destruct B as [[Z1 B]|[Z1 B]], B' as [[Z2 B']|[Z2 B']]; try congruence. eapply tally_fun; eassumption.
Qed.
Lemma rect_wire_pos E g q z b blk n : rect_wire E g q z b blk n -> 0 <= n /\ (0 < n <-> mz q = z /\ near_wire E g q b blk).
Proof.
  intros (a & e & A & B & ->). unfold wire_near, wire_eol, near_wire in *. destruct B as [[ZB B]|[ZB ->]].
  - subst z. apply tally_pos in B as [B1 B2]. destruct (ce_spc E (getLayerNum g (mz q))) as [spc|] eqn:ES.
    + destruct A as [[_ A]|[C _]]; [|congruence]. apply one_pos in A as [A1 A2]. split; [lia|]. split.
      * intros H. split; [reflexivity|]. destruct (Z_lt_le_dec 0 a) as [L|L]; [left; exists spc; split; [reflexivity|apply A2, L]|right; apply B2; lia].
      * intros [_ [(s & Es & H)|H]]; [injection Es as <-; apply A2 in H; lia|apply B2 in H; lia].
    + subst a. split; [lia|]. split.
      * intros H. split; [reflexivity|]. right. apply B2. lia.
      * intros [_ [(s & Es & H)|H]]; [discriminate|apply B2 in H; lia].
  - assert (a = 0) by (destruct (ce_spc E _); [destruct A as [[C _]|[_ A]]; [congruence|exact A]|exact A]). subst a. split; [lia|]. split; [lia|intros [C _]; congruence].
Qed.
Lemma sums_intro {A} (R : A -> Z -> Prop) (f : A -> Z) l : (forall x, In x l -> R x (f x)) -> sums R l (fold_right (fun x s => f x + s) 0 l).
Proof. induction l as [|x l IH]; intros H; cbn; constructor; [apply H; left; reflexivity|apply IH; intros; apply H; right; assumption]. Qed.
Lemma sums_fun {A} (R : A -> Z -> Prop) l : (forall x n m, In x l -> R x n -> R x m -> n = m) -> forall n m, sums R l n -> sums R l m -> n = m.
Proof.
  induction l as [|x l IH]; intros H n m A1 A2; inversion A1; inversion A2; subst; [reflexivity|].
  f_equal; [eapply H; eauto; left; reflexivity|apply IH; auto; intros y a b Hy; apply H; right; exact Hy].
Qed.
Lemma sums_pos {A} (R : A -> Z -> Prop) l n : (forall x m, In x l -> R x m -> 0 <= m) -> (forall x a b, In x l -> R x a -> R x b -> a = b) ->
  sums R l n -> 0 <= n /\ (0 < n <-> exists x m, In x l /\ R x m /\ 0 < m).
Proof.
  intros H U S. induction S as [|x l n m Rx S IH]; [split; [lia|]; split; [lia|intros (x & m & [] & _)]|].
  destruct IH as [IH1 IH2]; [intros; eapply H; eauto; right; assumption|intros y a b Hy; apply U; right; exact Hy|]. pose proof (H x n (or_introl eq_refl) Rx). split; [lia|]. split.
  - intros L. destruct (Z_lt_le_dec 0 n); [exists x, n; split; [left; reflexivity|auto]|]. destruct (proj1 IH2 ltac:(lia)) as (y & k & Hy & P). exists y, k. split; [right; exact Hy|exact P].
  - intros (y & k & [<-|Hy] & Ry & P).
    + rewrite (U x n k (or_introl eq_refl) Rx Ry). lia.
    + pose proof (proj2 IH2 (ex_intro _ y (ex_intro _ k (conj Hy (conj Ry P))))). lia.
Qed.
Lemma sums_app {A} (R : A -> Z -> Prop) l1 l2 n m : sums R l1 n -> sums R l2 m -> sums R (l1 ++ l2) (n + m).
Proof. intros S S'. induction S as [|x l a b Rx S IH]; cbn; [exact S'|]. rewrite <- Z.add_assoc. constructor; auto. Qed.

(* ---- operations on another attribute ---- *)
Definition off (a : attr) (ops : list gop) : Prop := Forall (fun o => op_attr o <> a) ops.
Lemma off_app a x y : off a x -> off a y -> off a (x ++ y). Proof. intros. apply Forall_app; auto. Qed.
Lemma off_nil a : off a []. Proof. constructor. Qed.
Lemma off_flat {A} a (F : A -> list gop) l : (forall x, In x l -> off a (F x)) -> off a (flat_map F l).
Proof. intros H. induction l as [|x l IH]; cbn; [constructor|apply off_app; [apply H; left; reflexivity|apply IH; intros; apply H; right; assumption]]. Qed.
Lemma off_if a (c : bool) x y : off a x -> off a y -> off a (if c then x else y). Proof. destruct c; auto. Qed.
Lemma off_hit q a ops : off a ops -> ~ hit_in q a ops.
Proof. intros H (o & I & T). apply hits_true in T as [_ T]. unfold off in H. rewrite Forall_forall in H. specialize (H o I). congruence. Qed.
Lemma off_net q a ops : off a ops -> net ops q a = 0.
Proof. intros H. apply net_miss, off_hit, H. Qed.
Lemma off_via a ops : a = ADrcX \/ a = AShapeX -> via_ops ops -> off a ops.
Proof. intros A H. eapply Forall_impl; [|exact H]. intros o [C|C]; destruct A as [-> | ->]; rewrite C; discriminate. Qed.
Lemma off_blk g b z s : off AShapeX (blk_planar g b z s).
Proof. apply off_flat. intros p _. destruct s; repeat constructor; discriminate. Qed.
Lemma off_blkv g b z : off AShapeX (blk_via g b z).
Proof. apply off_flat. intros p _. repeat constructor; discriminate. Qed.
Lemma off_adj S E g l b pg cuts : off AShapeX (mod_adj S E g l b pg cuts).
Proof.
  unfold mod_adj. destruct (negb pg); [apply off_nil|]. apply off_flat. intros c _. destruct (_ =? _); [apply off_nil|]. destruct (adj_rule_viol _ _ _ _ _); [|apply off_nil].
  unfold off. rewrite Forall_map, Forall_forall. intros. cbn. discriminate.
Qed.
Lemma off_aps aps : off AShapeX (ap_ops aps).
Proof.
  unfold ap_ops. apply off_flat. intros a _. apply off_app; [|destruct (a_via a); repeat constructor; discriminate].
  unfold off. rewrite Forall_map, Forall_forall. intros d _. destruct (a_ok a d), d; cbn; discriminate.
Qed.
Lemma off_io S g : off AShapeX (planar_term_ops S g).
Proof.
  unfold planar_term_ops. apply off_flat. intros l _. apply off_if; [|apply off_nil]. apply off_flat. intros o _. unfold io_ops. destruct (fo_kind o); try apply off_nil.
  apply off_flat. intros p _. apply off_app; [|apply off_if]; repeat constructor; discriminate.
Qed.
(* operations of types 0 and 1 *)
Definition drc_ops (ops : list gop) : Prop := Forall (fun o => op_attr o = ADrcX \/ op_attr o = ADrcU) ops.
Lemma dr_app x y : drc_ops x -> drc_ops y -> drc_ops (x ++ y). Proof. intros. apply Forall_app; auto. Qed.
Lemma dr_nil : drc_ops []. Proof. constructor. Qed.
Lemma dr_flat {A} (F : A -> list gop) l : (forall x, drc_ops (F x)) -> drc_ops (flat_map F l).
Proof. intros H. induction l; cbn; [constructor|apply dr_app; auto]. Qed.
Lemma dr_if (c : bool) x y : drc_ops x -> drc_ops y -> drc_ops (if c then x else y). Proof. destruct c; auto. Qed.
Definition drc_type (t : Z) : Prop := t = 0 \/ t = 1.
Lemma dr_planar t p : drc_type t -> drc_ops (mk_planar t p). Proof. intros [->| ->]; repeat constructor. Qed.
Lemma dr_via t p : drc_type t -> drc_ops (mk_via t p). Proof. intros [->| ->]; constructor; cbn; auto; constructor. Qed.
Ltac dr := repeat first [apply dr_nil | apply dr_planar; assumption | apply dr_via; assumption | apply dr_app | apply dr_flat; intros | apply dr_if].
Lemma dr_mod_planar E g t b z blk : drc_type t -> drc_ops (mod_planar E g t b z blk).
Proof. intros T. unfold mod_planar. destruct (ce_spc E _); dr. Qed.
Lemma dr_mod_via E g t b z u ps blk : drc_type t -> drc_ops (mod_via E g t b z u ps blk).
Proof. intros T. unfold mod_via. destruct (via_of E _ u); [|dr]. destruct (ce_spc E _); [|dr]. apply dr_flat; intros. apply dr_app; [dr|]. unfold via_eol, via_eol_helper. dr. Qed.
Lemma dr_eol E g t b z sk : drc_type t -> drc_ops (mod_eol E g t b z sk).
Proof.
  intros T. assert (H : forall r, drc_ops (eol_helper E g t r z sk)).
  { intros r. unfold eol_helper, eol_planar. apply dr_app; [dr|]. destruct sk; [dr|]. apply dr_app; unfold eol_via; (destruct (via_of E _ _); [|dr]); apply dr_flat; intros; destruct (ce_svia E _); dr. }
  unfold mod_eol. apply dr_flat; intros. apply dr_app; apply dr_if; try apply dr_app; auto; dr.
Qed.
Lemma dr_cut E g t b z blk : drc_type t -> drc_ops (mod_cut E g t b z blk).
Proof. intros T. unfold mod_cut. destruct (ce_cut E _); [dr|]. destruct (ce_via E _); dr. Qed.
Lemma dr_inter E g t b z u : drc_type t -> drc_ops (mod_inter E g t b z u).
Proof. intros T. unfold mod_inter. destruct (ce_via E _); [|dr]. destruct (match ce_inter E _ _ with Some c => Some c | None => _ end); dr. Qed.
Lemma dr_mincut S E g t b z u : drc_type t -> drc_ops (mod_mincut S E g t b z u).
Proof. intros T. unfold mod_mincut. destruct (via_of E _ u); dr. Qed.
Lemma dr_path E g t f : drc_type t -> drc_ops (mod_path E g t f).
Proof.
  intros T. destruct f; cbn [mod_path].
  - repeat first [apply dr_app | apply dr_if]; auto using dr_mod_planar, dr_mod_via, dr_eol, dr_nil. unfold via_forbidden. dr.
  - repeat apply dr_app; auto using dr_mod_planar, dr_mod_via, dr_eol.
  - repeat apply dr_app; auto using dr_mod_planar, dr_mod_via, dr_eol. apply dr_flat; intros. repeat apply dr_app; auto using dr_cut, dr_inter.
Qed.
Lemma off_drc a ops : a <> ADrcX -> a <> ADrcU -> drc_ops ops -> off a ops.
Proof. intros A B H. eapply Forall_impl; [|exact H]. intros o [C|C]; congruence. Qed.

(* ---- rectangles ---- *)
Lemma solid_good b : good_box b -> solid b. Proof. unfold good_box, solid, bleft, bright, bbottom, btop. lia. Qed.
Lemma rect_net E g t b z blk q : good_tech E -> svia_good E -> grid_sorted g -> xy_valid g q -> kind_ok t -> good_box b -> wide_enough b (ce_width E (getLayerNum g z)) ->
  exists n, rect_wire E g q z b blk n /\ net (mod_planar E g t b z blk) q (wire_counter t) + net (mod_eol E g t b z false) q (wire_counter t) = kind_sign t * n.
Proof.
  intros GT SV GS V K GB W. destruct (mod_planar_net E g t b z blk q GT GS V K GB) as (n & A & B & _).
  destruct (mod_eol_net E g t b z q GT SV GS V K (solid_good b GB)) as (w & d & u & C & D & _).
  exists (n + w). split; [exists n, w; auto|]. rewrite A, C. unfold at_counter, wire_counter, via_counter.
  destruct (t <=? 1); repeat destruct (attr_eq_dec _ _); try congruence; lia.
Qed.
