(* Proofs about the costs while one net is routed: counters under additions or removals only. *)
From Coq Require Import Permutation.
From Verif Require Import Base Stl GeomModel GeomSpec GeomProofs GridModel GridSpec GridProofs GridProofs2 CostModel CostSpec CostProofs CostProofs2 CostProofs3 CostProofs4 SetupModel SetupSpec SetupProofs SetupProofs2 SetupProofs3 SetupProofs4 SetupProofs5 SetupProofs6 NcModel NcSpec.

Lemma read_byte g q a : attr_len a = 8 -> 0 <= read g q a <= 255.
Proof. intros H. rewrite read_rd. pose proof (rd_range (gbits g (getIdx g q)) a H). lia. Qed.
Lemma step_hit g o q a : valid g q -> op_safe g o -> cost_op o -> hits o q a = true -> read (gstep g o) q a = op_value o (read g q a).
Proof.
  intros V S C H. apply hits_true in H as [-> ->]. pose proof (gstep_ok g o S) as (_ & A & _). apply A. apply cost_enabled; auto.
Qed.
Lemma step_miss g o q a : valid g q -> op_safe g o -> hits o q a = false -> read (gstep g o) q a = read g q a.
Proof.
  intros V S H. pose proof (gstep_ok g o S) as (_ & _ & B). apply B; [exact V|]. intros _ C. inversion C; subst.
  assert (hits o (op_point o) (op_attr o) = true) by (apply hits_true; auto). congruence.
Qed.
Lemma safe_after g o ops : op_safe g o -> Forall (op_safe g) ops -> Forall (op_safe (gstep g o)) ops.
Proof. intros S H. eapply Forall_impl; [|exact H]. intros; eapply op_safe_shape; eauto using gstep_shape. Qed.
Lemma valid_after g o q : op_safe g o -> valid g q -> valid (gstep g o) q.
Proof. intros S V. apply (valid_shape g _ q (gstep_shape g o S)), V. Qed.
Definition only (s : Z) (q : midx) (a : attr) (ops : list gop) : Prop := forall o, In o ops -> hits o q a = true -> sgn o = s.
Lemma adds_net q a : forall ops, only 1 q a ops -> 0 <= net ops q a.
Proof.
  induction ops as [|o ops IH]; intros H; cbn [net]; [lia|]. specialize (IH ltac:(intros x Hx; apply H; right; exact Hx)).
  destruct (hits o q a) eqn:T; [rewrite (H o (or_introl eq_refl) T); lia|lia].
Qed.
Lemma adds_run q a : attr_len a = 8 -> forall ops g, valid g q -> Forall (op_safe g) ops -> only 1 q a ops -> read g q a + net ops q a <= 255 ->
  read (grun g ops) q a = read g q a + net ops q a.
Proof.
  intros L. induction ops as [|o ops IH]; intros g V HS HO B; [cbn; lia|]. cbn [net grun fold_left]. change (fold_left gstep ops (gstep g o)) with (grun (gstep g o) ops).
  inversion HS as [|? ? S1 S2]; subst. cbn [net] in B. assert (HO' : only 1 q a ops) by (intros x Hx; apply HO; right; exact Hx). pose proof (adds_net q a ops HO').
  pose proof (read_byte g q a L). destruct (hits o q a) eqn:T.
  - pose proof (HO o (or_introl eq_refl) T) as SG. assert (C : cost_op o) by (unfold cost_op; lia).
    assert (R : read (gstep g o) q a = read g q a + 1) by (rewrite (step_hit g o q a V S1 C T), (cost_value o _ C); try lia).
    rewrite IH; [rewrite R; lia|apply valid_after; auto|apply safe_after; auto|exact HO'|rewrite R; lia].
  - pose proof (step_miss g o q a V S1 T) as R. rewrite IH; [rewrite R; lia|apply valid_after; auto|apply safe_after; auto|exact HO'|rewrite R; lia].
Qed.
Lemma subs_net q a : forall ops, only (-1) q a ops -> net ops q a <= 0.
Proof.
  induction ops as [|o ops IH]; intros H; cbn [net]; [lia|]. specialize (IH ltac:(intros x Hx; apply H; right; exact Hx)).
  destruct (hits o q a) eqn:T; [rewrite (H o (or_introl eq_refl) T); lia|lia].
Qed.
Lemma subs_run q a : attr_len a = 8 -> forall ops g, valid g q -> Forall (op_safe g) ops -> only (-1) q a ops -> 0 <= read g q a + net ops q a ->
  read (grun g ops) q a = read g q a + net ops q a.
Proof.
  intros L. induction ops as [|o ops IH]; intros g V HS HO B; [cbn; lia|]. cbn [net grun fold_left]. change (fold_left gstep ops (gstep g o)) with (grun (gstep g o) ops).
  inversion HS as [|? ? S1 S2]; subst. cbn [net] in B. assert (HO' : only (-1) q a ops) by (intros x Hx; apply HO; right; exact Hx). pose proof (subs_net q a ops HO').
  pose proof (read_byte g q a L). destruct (hits o q a) eqn:T.
  - pose proof (HO o (or_introl eq_refl) T) as SG. assert (C : cost_op o) by (unfold cost_op; lia).
    assert (R : read (gstep g o) q a = read g q a - 1) by (rewrite (step_hit g o q a V S1 C T), (cost_value o _ C); try lia).
    rewrite IH; [rewrite R; lia|apply valid_after; auto|apply safe_after; auto|exact HO'|rewrite R; lia].
  - pose proof (step_miss g o q a V S1 T) as R. rewrite IH; [rewrite R; lia|apply valid_after; auto|apply safe_after; auto|exact HO'|rewrite R; lia].
Qed.
Lemma miss_run q a : forall ops g, valid g q -> Forall (op_safe g) ops -> ~ hit_in q a ops -> read (grun g ops) q a = read g q a.
Proof.
  induction ops as [|o ops IH]; intros g V HS N; [reflexivity|]. cbn [grun fold_left]. change (fold_left gstep ops (gstep g o)) with (grun (gstep g o) ops).
  inversion HS as [|? ? S1 S2]; subst. rewrite IH; [|apply valid_after; auto|apply safe_after; auto|intros (x & Hx & T); apply N; exists x; split; [right; exact Hx|exact T]].
  apply step_miss; auto. apply not_true_iff_false. intros T. apply N. exists o. split; [left; reflexivity|exact T].
Qed.
Lemma only_app s q a x y : only s q a x -> only s q a y -> only s q a (x ++ y).
Proof. intros H H' o I. apply in_app_iff in I as [I|I]; auto. Qed.
Lemma only_flat {A} s q a (F : A -> list gop) l : (forall x, In x l -> only s q a (F x)) -> only s q a (flat_map F l).
Proof. intros H o I. apply in_flat_map in I as (x & Hx & I). apply (H x Hx o I). Qed.
Lemma only_miss s q a ops : ~ hit_in q a ops -> only s q a ops.
Proof. intros N o I T. exfalso. apply N. exists o. auto. Qed.
Lemma net_miss ops q a : ~ hit_in q a ops -> net ops q a = 0.
Proof. intros N. apply net_zero. intros o I. apply not_true_iff_false. intros T. apply N. exists o. auto. Qed.
Lemma hit_nil q a : ~ hit_in q a []. Proof. intros (o & [] & _). Qed.

(* ---- operations on vias do not touch the counters of wires ---- *)
Definition via_op (o : gop) : Prop := op_attr o = ADrcU \/ op_attr o = AShapeU.
Definition via_ops (ops : list gop) : Prop := Forall via_op ops.
Lemma vo_app x y : via_ops x -> via_ops y -> via_ops (x ++ y). Proof. intros. apply Forall_app; auto. Qed.
Lemma vo_nil : via_ops []. Proof. constructor. Qed.
Lemma vo_flat {A} (F : A -> list gop) l : (forall x, via_ops (F x)) -> via_ops (flat_map F l).
Proof. intros H. induction l; cbn; [constructor|apply vo_app; auto]. Qed.
Lemma vo_if (c : bool) x y : via_ops x -> via_ops y -> via_ops (if c then x else y). Proof. destruct c; auto. Qed.
Lemma vo_via t p : via_ops (mk_via t p).
Proof. unfold mk_via. repeat (destruct (_ =? _); [repeat constructor; (left; reflexivity) || (right; reflexivity)|]). constructor. Qed.
Ltac vo := repeat first [apply vo_nil | apply vo_via | apply vo_app | apply vo_flat; intros | apply vo_if].
Lemma vo_mod_via E g t b z u ps blk : via_ops (mod_via E g t b z u ps blk).
Proof. unfold mod_via. destruct (via_of E _ u); [|vo]. destruct (ce_spc E _); [|vo]. apply vo_flat; intros. apply vo_app; [vo|]. unfold via_eol, via_eol_helper. vo. Qed.
Lemma vo_cut E g t b z blk : via_ops (mod_cut E g t b z blk).
Proof. unfold mod_cut. destruct (ce_cut E _); [vo|]. destruct (ce_via E _); vo. Qed.
Lemma vo_inter E g t b z u : via_ops (mod_inter E g t b z u).
Proof. unfold mod_inter. destruct (ce_via E _); [|vo]. destruct (match ce_inter E _ _ with Some c => Some c | None => _ end); vo. Qed.
Lemma vo_mincut S E g t b z u : via_ops (mod_mincut S E g t b z u).
Proof. unfold mod_mincut. destruct (via_of E _ u); vo. Qed.
Lemma vo_cut_cost E g b z blk : via_ops (cut_cost E g b z blk).
Proof. unfold cut_cost. repeat apply vo_app; auto using vo_cut, vo_inter. Qed.
Lemma vo_miss q a ops : a = ADrcX \/ a = AShapeX -> via_ops ops -> ~ hit_in q a ops.
Proof.
  intros A H (o & I & T). apply hits_true in T as [_ T]. unfold via_ops in H. rewrite Forall_forall in H. destruct (H o I) as [C|C]; destruct A as [-> | ->]; congruence.
Qed.
(* signs *)
Lemma mk_planar_sign t p o : fixed_type t -> In o (mk_planar t p) -> sgn o = kind_sign t.
Proof. intros [->| ->] [<-|[]]; reflexivity. Qed.
Lemma so_sign t ops : (forall o, In o ops -> shape_op o -> sgn o = kind_sign t) -> forall q a, shape_ops ops -> only (kind_sign t) q a ops.
Proof. intros H q a SO o I _. unfold shape_ops in SO. rewrite Forall_forall in SO. auto. Qed.
Definition signed (t : Z) (ops : list gop) : Prop := Forall (fun o => sgn o = kind_sign t) ops.
Lemma sg_app t x y : signed t x -> signed t y -> signed t (x ++ y). Proof. intros. apply Forall_app; auto. Qed.
Lemma sg_nil t : signed t []. Proof. constructor. Qed.
Lemma sg_flat {A} t (F : A -> list gop) l : (forall x, signed t (F x)) -> signed t (flat_map F l).
Proof. intros H. induction l; cbn; [constructor|apply sg_app; auto]. Qed.
Lemma sg_if t (c : bool) x y : signed t x -> signed t y -> signed t (if c then x else y). Proof. destruct c; auto. Qed.
Lemma sg_planar t p : kind_ok t -> signed t (mk_planar t p).
Proof. intros K. unfold mk_planar. assert (t = 0 \/ t = 1 \/ t = 2 \/ t = 3) as [->|[->|[->| ->]]] by (unfold kind_ok in K; lia); repeat constructor. Qed.
Lemma sg_via t p : kind_ok t -> signed t (mk_via t p).
Proof. intros K. unfold mk_via. assert (t = 0 \/ t = 1 \/ t = 2 \/ t = 3) as [->|[->|[->| ->]]] by (unfold kind_ok in K; lia); repeat constructor. Qed.
Ltac sg := repeat first [apply sg_nil | apply sg_planar; assumption | apply sg_via; assumption | apply sg_app | apply sg_flat; intros | apply sg_if].
Lemma sg_mod_planar E g t b z blk : kind_ok t -> signed t (mod_planar E g t b z blk).
Proof. intros T. unfold mod_planar. destruct (ce_spc E _); sg. Qed.
Lemma sg_mod_via E g t b z u ps blk : kind_ok t -> signed t (mod_via E g t b z u ps blk).
Proof. intros T. unfold mod_via. destruct (via_of E _ u); [|sg]. destruct (ce_spc E _); [|sg]. apply sg_flat; intros. apply sg_app; [sg|]. unfold via_eol, via_eol_helper. sg. Qed.
Lemma sg_eol E g t b z sk : kind_ok t -> signed t (mod_eol E g t b z sk).
Proof.
  intros T. assert (H : forall r, signed t (eol_helper E g t r z sk)).
  { intros r. unfold eol_helper, eol_planar. apply sg_app; [sg|]. destruct sk; [sg|]. apply sg_app; unfold eol_via; (destruct (via_of E _ _); [|sg]); apply sg_flat; intros; destruct (ce_svia E _); sg. }
  unfold mod_eol. apply sg_flat; intros. apply sg_app; apply sg_if; try apply sg_app; auto; sg.
Qed.
Lemma sg_cut E g t b z blk : kind_ok t -> signed t (mod_cut E g t b z blk).
Proof. intros T. unfold mod_cut. destruct (ce_cut E _); [sg|]. destruct (ce_via E _); sg. Qed.
Lemma sg_inter E g t b z u : kind_ok t -> signed t (mod_inter E g t b z u).
Proof. intros T. unfold mod_inter. destruct (ce_via E _); [|sg]. destruct (match ce_inter E _ _ with Some c => Some c | None => _ end); sg. Qed.
Lemma sg_mincut S E g t b z u : kind_ok t -> signed t (mod_mincut S E g t b z u).
Proof. intros T. unfold mod_mincut. destruct (via_of E _ u); sg. Qed.
Lemma sg_forb E t bi ei : kind_ok t -> signed t (via_forbidden E t bi ei).
Proof. intros T. unfold via_forbidden. sg. Qed.
Lemma sg_path E g t f : kind_ok t -> signed t (mod_path E g t f).
Proof.
  intros T. destruct f; cbn [mod_path].
  - repeat first [apply sg_app | apply sg_if]; auto using sg_mod_planar, sg_mod_via, sg_eol, sg_forb, sg_nil.
  - repeat apply sg_app; auto using sg_mod_planar, sg_mod_via, sg_eol.
  - repeat apply sg_app; auto using sg_mod_planar, sg_mod_via, sg_eol. apply sg_flat; intros. repeat apply sg_app; auto using sg_cut, sg_inter.
Qed.
Lemma sg_only t q a ops : signed t ops -> only (kind_sign t) q a ops.
Proof. intros H o I _. unfold signed in H. rewrite Forall_forall in H. auto. Qed.
