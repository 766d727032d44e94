(* Proofs about the blocked edges after set-up. *)
From Verif Require Import Base Stl GeomModel GeomSpec GeomProofs GridModel GridSpec GridProofs GridProofs2 CostModel CostSpec CostProofs CostProofs4 SetupModel SetupSpec.

(* ---- the last operation on a flag decides ---- *)
Definition flag_of (o : gop) : option bool :=
  match o with SetBlocked _ _ | SetSVia _ => Some true | ResetBlocked _ _ => Some false | _ => None end.
Definition flag_attr (a : attr) : Prop := a = ABlockE \/ a = ABlockN \/ a = ABlockU \/ a = ASVia.
Definition op_dir_ok (o : gop) : Prop := match o with SetBlocked _ d | ResetBlocked _ d => d <> DUnk | AddEdge _ _ _ _ | RemoveEdge _ _ => False | _ => True end.
Fixpoint decided (q : midx) (a : attr) (ops : list gop) : option bool :=
  match ops with
  | [] => None
  | o :: r => match decided q a r with Some b => Some b | None => if hits o q a then flag_of o else None end
  end.
Lemma flag_hit g o q a : flag_attr a -> valid g q -> op_dir_ok o -> hits o q a = true ->
  exists b, flag_of o = Some b /\ op_enabled g o /\ op_value o (read g q a) = Z.b2z b.
Proof.
  intros F V D H. apply hits_true in H as [-> ->].
  destruct o; cbn [op_attr op_point op_dir_ok] in *; try contradiction;
    try (exfalso; destruct F as [F|[F|[F|F]]]; try discriminate F; destruct d; discriminate F).
  all: eexists; split; [reflexivity|]; split; [|reflexivity]; cbn [op_enabled op_point]; auto.
Qed.
Lemma grun_flag q a : flag_attr a -> forall ops g, valid g q -> Forall (op_safe g) ops -> Forall op_dir_ok ops ->
  read (grun g ops) q a = match decided q a ops with Some b => Z.b2z b | None => read g q a end.
Proof.
  intros F. induction ops as [|o ops IH]; intros g V HS HD; [reflexivity|].
  inversion HS as [|? ? S1 S2]; subst. inversion HD as [|? ? D1 D2]; subst.
  pose proof (gstep_ok g o S1) as (RS & RV & RO). pose proof (gstep_shape g o S1) as SH.
  cbn [grun fold_left decided]. change (fold_left gstep ops (gstep g o)) with (grun (gstep g o) ops).
  rewrite (IH (gstep g o)); [|apply (valid_shape g _ q SH), V|eapply Forall_impl; [|exact S2]; intros; eapply op_safe_shape; eauto|exact D2].
  destruct (decided q a ops) as [b|]; [reflexivity|]. destruct (hits o q a) eqn:H.
  - destruct (flag_hit g o q a F V D1 H) as (b & E1 & E2 & E3). rewrite E1. apply hits_true in H as [-> ->]. rewrite RV by exact E2. exact E3.
  - apply RO; [exact V|]. intros _ C. inversion C; subst. assert (hits o (op_point o) (op_attr o) = true) by (apply hits_true; auto). congruence.
Qed.
Lemma decided_app q a x y : decided q a (x ++ y) = match decided q a y with Some b => Some b | None => decided q a x end.
Proof. induction x as [|o x IH]; cbn [app decided]; [destruct (decided q a y); reflexivity|]. rewrite IH. destruct (decided q a y); reflexivity. Qed.
Definition hit_in (q : midx) (a : attr) (ops : list gop) : Prop := exists o, In o ops /\ hits o q a = true.
Lemma hit_app q a x y : hit_in q a (x ++ y) <-> hit_in q a x \/ hit_in q a y.
Proof.
  unfold hit_in. split.
  - intros (o & H & T). apply in_app_iff in H as [H|H]; eauto.
  - intros [(o & H & T)|(o & H & T)]; exists o; rewrite in_app_iff; auto.
Qed.
Lemma hit_flat {A} q a (F : A -> list gop) l : hit_in q a (flat_map F l) <-> exists x, In x l /\ hit_in q a (F x).
Proof.
  unfold hit_in. split.
  - intros (o & H & T). apply in_flat_map in H as (x & Hx & H). eauto.
  - intros (x & Hx & o & H & T). exists o. split; [apply in_flat_map; eauto|exact T].
Qed.
Lemma decided_none q a ops : ~ hit_in q a ops -> decided q a ops = None.
Proof.
  induction ops as [|o ops IH]; intros N; [reflexivity|]. cbn [decided]. rewrite IH; [|intros (o' & H & T); apply N; exists o'; split; [right; exact H|exact T]].
  destruct (hits o q a) eqn:H; [|reflexivity]. exfalso. apply N. exists o. split; [left; reflexivity|exact H].
Qed.
Definition all_flag (b : bool) (ops : list gop) : Prop := forall o, In o ops -> flag_of o = Some b.
Lemma hit_dec q a ops : hit_in q a ops \/ ~ hit_in q a ops.
Proof.
  destruct (existsb (fun o => hits o q a) ops) eqn:E.
  - left. apply existsb_exists in E. exact E.
  - right. intros (o & H & T). assert (existsb (fun o => hits o q a) ops = true) by (apply existsb_exists; eauto). congruence.
Qed.
Lemma decided_all q a b ops : (forall o, In o ops -> hits o q a = true -> flag_of o = Some b) -> hit_in q a ops -> decided q a ops = Some b.
Proof.
  induction ops as [|o ops IH]; intros A (o' & H & T); [destruct H|]. cbn [decided].
  destruct (hit_dec q a ops) as [Y|N].
  - rewrite IH; [reflexivity|intros; apply A; [right|]; auto|exact Y].
  - rewrite (decided_none q a ops N). destruct H as [->|H]; [rewrite T; apply A; [left; reflexivity|exact T]|]. exfalso. apply N. exists o'. auto.
Qed.
(* ---- cost operations do not touch flags ---- *)
Definition shape_op (o : gop) : Prop := match o with AddShapePlanar _ | AddShapeVia _ | SubShapePlanar _ | SubShapeVia _ => True | _ => False end.
Definition shape_ops (ops : list gop) : Prop := Forall shape_op ops.
Lemma so_app x y : shape_ops x -> shape_ops y -> shape_ops (x ++ y).
Proof. intros. apply Forall_app; auto. Qed.
Lemma so_flat {A} (F : A -> list gop) l : (forall x, shape_ops (F x)) -> shape_ops (flat_map F l).
Proof. intros H. induction l; cbn; [constructor|apply so_app; auto]. Qed.
Lemma so_if (c : bool) x y : shape_ops x -> shape_ops y -> shape_ops (if c then x else y).
Proof. destruct c; auto. Qed.
Lemma so_nil : shape_ops []. Proof. constructor. Qed.
Definition fixed_type (t : Z) : Prop := t = 2 \/ t = 3.
Lemma so_planar t p : fixed_type t -> shape_ops (mk_planar t p).
Proof. intros [->| ->]; repeat constructor. Qed.
Lemma so_via t p : fixed_type t -> shape_ops (mk_via t p).
Proof. intros [->| ->]; repeat constructor. Qed.
Ltac so := repeat first [apply so_nil | apply so_planar; assumption | apply so_via; assumption | apply so_app | apply so_flat; intros | apply so_if].
Lemma so_mod_planar E g t b z blk : fixed_type t -> shape_ops (mod_planar E g t b z blk).
Proof. intros T. unfold mod_planar. destruct (ce_spc E _); so. Qed.
Lemma so_mod_via E g t b z u ps blk : fixed_type t -> shape_ops (mod_via E g t b z u ps blk).
Proof. intros T. unfold mod_via. destruct (via_of E _ u); [|so]. destruct (ce_spc E _); [|so]. apply so_flat; intros. apply so_app; [so|]. unfold via_eol, via_eol_helper. so. Qed.
Lemma so_eol E g t b z sk : fixed_type t -> shape_ops (mod_eol E g t b z sk).
Proof.
  intros T. assert (H : forall r, shape_ops (eol_helper E g t r z sk)).
  { intros r. unfold eol_helper, eol_planar. apply so_app; [so|]. destruct sk; [so|]. apply so_app; unfold eol_via; (destruct (via_of E _ _); [|so]); apply so_flat; intros; destruct (ce_svia E _); so. }
  unfold mod_eol. apply so_flat; intros. apply so_app; apply so_if; try apply so_app; auto; so.
Qed.
Lemma so_cut E g t b z blk : fixed_type t -> shape_ops (mod_cut E g t b z blk).
Proof. intros T. unfold mod_cut. destruct (ce_cut E _); [so|]. destruct (ce_via E _); so. Qed.
Lemma so_inter E g t b z u : fixed_type t -> shape_ops (mod_inter E g t b z u).
Proof. intros T. unfold mod_inter. destruct (ce_via E _); [|so]. destruct (match ce_inter E _ _ with Some c => Some c | None => _ end); so. Qed.
Lemma so_mincut S E g t b z u : fixed_type t -> shape_ops (mod_mincut S E g t b z u).
Proof. intros T. unfold mod_mincut. destruct (via_of E _ u); so. Qed.
Lemma so_term S E g add sk t : shape_ops (term_ops S E g add sk t).
Proof.
  unfold term_ops. assert (T : fixed_type (if add then 3 else 2)) by (destruct add; unfold fixed_type; auto).
  apply so_flat; intros. apply so_if; [|so]. apply so_app; [apply so_mod_planar, T|]. apply so_app; [apply so_if; [so|apply so_app; apply so_mod_via, T]|].
  apply so_app; [apply so_eol, T|]. apply so_if; [apply so_app; apply so_mincut, T|so].
Qed.
Lemma so_cut_cost E g b z blk : shape_ops (cut_cost E g b z blk).
Proof. assert (T : fixed_type 3) by (right; reflexivity). unfold cut_cost. repeat apply so_app; auto using so_cut, so_inter. Qed.
Lemma so_nohit q a ops : flag_attr a -> shape_ops ops -> ~ hit_in q a ops.
Proof.
  intros F H (o & I & T). apply hits_true in T as [_ T]. unfold shape_ops in H. rewrite Forall_forall in H. specialize (H o I).
  destruct o; try contradiction; cbn in T; destruct F as [F|[F|[F|F]]]; congruence.
Qed.
Lemma cost_nohit g q a ops : flag_attr a -> ops_in g ops -> ~ hit_in q a ops.
Proof.
  intros F H (o & I & T). apply hits_true in T as [_ T]. unfold ops_in in H. rewrite Forall_forall in H. destruct (H o I) as [C _].
  destruct o; cbn in *; try (unfold cost_op in C; cbn in C; congruence); destruct F as [F|[F|[F|F]]]; congruence.
Qed.
