(* Proofs about the set-up of a clip: safety of the operations and the whole. *)
From Verif Require Import Base Stl GeomModel GeomSpec GeomProofs GridModel GridSpec GridProofs GridProofs2 CostModel CostSpec CostProofs CostProofs2 CostProofs3 CostProofs4 SetupModel SetupSpec SetupProofs SetupProofs2 SetupProofs3 SetupProofs4 SetupProofs5.

Definition bs_op (o : gop) : Prop := match o with SetBlocked _ d | ResetBlocked _ d => d <> DUnk | AddShapePlanar _ | AddShapeVia _ | SubShapePlanar _ | SubShapeVia _ => True | _ => False end.
Definition bs (ops : list gop) : Prop := Forall bs_op ops.
Lemma bs_app x y : bs x -> bs y -> bs (x ++ y). Proof. intros. apply Forall_app; auto. Qed.
Lemma bs_nil : bs []. Proof. constructor. Qed.
Lemma bs_flat {A} (F : A -> list gop) l : (forall x, In x l -> bs (F x)) -> bs (flat_map F l).
Proof. intros H. induction l as [|x l IH]; cbn; [constructor|]. apply bs_app; [apply H; left; reflexivity|apply IH; intros; apply H; right; assumption]. Qed.
Lemma bs_so ops : shape_ops ops -> bs ops.
Proof. intros H. eapply Forall_impl; [|exact H]. intros o. destruct o; cbn; tauto. Qed.
Lemma bs_planar g b z s : bs (blk_planar g b z s).
Proof. apply bs_flat. intros p _. destruct s; repeat constructor; discriminate. Qed.
Lemma bs_via g b z : bs (blk_via g b z).
Proof. apply bs_flat. intros p _. repeat constructor; discriminate. Qed.
Lemma bs_adj S E g l b pg cuts : bs (mod_adj S E g l b pg cuts).
Proof.
  unfold mod_adj. destruct (negb pg); [apply bs_nil|]. apply bs_flat. intros c _. destruct (_ =? _); [apply bs_nil|]. destruct (adj_rule_viol _ _ _ _ _); [|apply bs_nil].
  unfold bs. rewrite Forall_map, Forall_forall. intros. cbn. discriminate.
Qed.
Lemma ft3 : fixed_type 3. Proof. right. reflexivity. Qed.
Ltac bsl := repeat first [solve [apply bs_nil | apply bs_planar | apply bs_via | apply bs_adj | apply bs_so; auto using so_mod_planar, so_mod_via, so_eol, so_cut_cost, ft3] | apply bs_app].
Lemma bs_pass1 E g r z o : bs (pass1 E g r z o).
Proof. unfold pass1. destruct (fo_kind o); try apply bs_nil. destruct r; bsl. Qed.
Lemma bs_pass2 S E g l r z o : bs (pass2 S E g l r z o).
Proof.
  unfold pass2. destruct (fo_kind o); try apply bs_nil.
  - destruct r; [|bsl]. apply bs_app; [bsl|]. destruct (_ <=? _); bsl.
  - bsl. destruct pg; bsl.
  - destruct r; bsl.
Qed.
Lemma bs_fixed S E g : bs (fixed_ops S E g).
Proof.
  unfold fixed_ops. apply bs_app; [|apply bs_so, so_flat; intros; apply so_term]. apply bs_flat. intros l _. destruct (slot S g l) as [[r z]|]; [|apply bs_nil].
  apply bs_app; apply bs_flat; intros; [apply bs_pass1|apply bs_pass2].
Qed.
Lemma bs_io S g : bs (planar_term_ops S g).
Proof.
  unfold planar_term_ops. apply bs_flat. intros l _. destruct (se_rout S l); [|apply bs_nil]. apply bs_flat. intros o _. unfold io_ops. destruct (fo_kind o); try apply bs_nil.
  apply bs_flat. intros p _. apply bs_app; [|destruct (_ >? _)]; repeat constructor; discriminate.
Qed.
Definition so_ok (g : gg) (ops : list gop) : Prop := Forall (op_safe g) ops /\ Forall op_dir_ok ops.
Lemma ok_app g x y : so_ok g x -> so_ok g y -> so_ok g (x ++ y).
Proof. intros [A B] [C D]. split; apply Forall_app; auto. Qed.
Lemma ok_bs g ops : bs ops -> so_ok g ops.
Proof. intros H. split; (eapply Forall_impl; [|exact H]); intros o; destruct o; cbn; tauto. Qed.
Lemma ok_cost g ops : ops_in g ops -> so_ok g ops.
Proof. intros H. split; (eapply Forall_impl; [|exact H]); intros o [C V]; destruct o; cbn in *; try exact I; try exact V; unfold cost_op in C; cbn in C; congruence || tauto. Qed.
Lemma ok_ap g aps : (forall a, In a aps -> valid g (a_mi a)) -> so_ok g (ap_ops aps).
Proof.
  induction aps as [|a aps IH]; intros H; [split; constructor|]. unfold ap_ops. cbn [flat_map]. apply ok_app; [|apply IH; intros; apply H; right; assumption].
  apply ok_app.
  - apply ok_bs. unfold bs. rewrite Forall_map, Forall_forall. intros d Hd. assert (d <> DUnk) by (intros ->; cbn in Hd; intuition discriminate). destruct (a_ok a d); exact H0.
  - destruct (a_via a); [|split; constructor]. split; apply Forall_cons; try apply Forall_nil; cbn; [apply H; left; reflexivity|exact I].
Qed.
Section all.
  Variables (S : senv) (E : cenv) (g : gg) (aps : list apat) (figs : list cfig).
  Hypotheses (GS : grid_sorted g) (ST : good_stack E g) (VA : forall a, In a aps -> valid g (a_mi a)) (GF : Forall (good_fig E g) figs).
  Lemma stack_svia : good_stack (with_svia E aps) g. Proof. exact ST. Qed.
  Lemma figs_in : ops_in g (flat_map (mod_path (with_svia E aps) g 1) figs).
  Proof.
    apply ops_in_flat. intros f HF. apply mod_path_in; [exact stack_svia|exact GS|]. rewrite Forall_forall in GF. specialize (GF f HF). destruct f; exact GF.
  Qed.
  Lemma setup_ok : so_ok g (setup_ops S E g aps figs).
  Proof.
    unfold setup_ops. apply ok_app; [apply ok_bs, bs_fixed|]. apply ok_app; [apply ok_ap, VA|]. apply ok_app; [apply ok_cost, figs_in|apply ok_bs, bs_io].
  Qed.
  Lemma setup_blocked p d : layers_ok S g -> shapes_ok S E -> unblocked g -> d <> DUnk -> valid g p -> valid g (step p d) ->
    (isBlocked (setup S E g aps figs) p d = true <-> forbidden S E g aps p d).
  Proof.
    intros LO SO UB D VP VQ. destruct setup_ok as [SF SD]. pose proof (grun_shape _ _ SF) as SH.
    assert (VO : valid g (owner p d)) by (destruct d; cbn in *; auto).
    assert (VO' : valid (grun g (setup_ops S E g aps figs)) (owner p d)) by (apply (valid_shape g _ _ SH), VO).
    rewrite (isBlocked_read _ p d D). unfold setup. replace (isValid _ (owner p d)) with true by (symmetry; apply isValid_iff, VO'). cbn [andb].
    change (by_dir ABlockE ABlockN ABlockU d) with (battr d). rewrite (grun_flag (owner p d) (battr d) (battr_flag d) _ g VO SF SD).
    replace (read g (owner p d) (battr d)) with 0 by (destruct (UB _ VO) as (A & B & C); destruct d; cbn [battr by_dir]; auto).
    unfold setup_ops. rewrite !decided_app. rewrite (decided_none _ _ (flat_map (mod_path _ g 1) figs)); [|apply (cost_nohit g); [apply battr_flag|apply figs_in]].
    unfold forbidden. destruct (io_decided S g p d GS LO D VP VQ) as [[IO ->]|[IO ->]].
    - split; [auto|reflexivity].
    - destruct (ap_all p d aps D) as [(a & e & LA & ->)|[NA ->]].
      + split.
        * intros H. right. left. split; [exact IO|]. exists a, e. split; [exact LA|]. destruct (a_ok a e); [discriminate H|reflexivity].
        * intros [C|[(_ & a' & e' & LA' & N)|(_ & NA & _)]]; [contradiction| |].
          -- rewrite (last_unique aps p d a e a' e' D LA LA'), N. reflexivity.
          -- exfalso. destruct LA as (l1 & l2 & -> & AE & _). eapply NA; [apply in_app_iff; right; left; reflexivity|exact AE].
      + destruct (fixed_all S E g p d GS LO SO D VP VQ) as [[F ->]|[F N]].
        * split; [auto|reflexivity].
        * split.
          -- destruct (decided _ _ (fixed_ops S E g)) as [[]|]; [congruence|discriminate|discriminate].
          -- intros [C|[(_ & a' & e' & (l1 & l2 & -> & AE & _) & _)|(_ & _ & C)]]; [contradiction| |contradiction].
             exfalso. eapply NA; [apply in_app_iff; right; left; reflexivity|exact AE].
  Qed.
  (* special vias *)
  Lemma svia_last aps' q : match svia_of aps' q with Some v => last_via aps' q v | None => forall a, In a aps' -> a_mi a = q -> a_via a = None end.
  Proof.
    clear. induction aps' as [|a l IH] using rev_ind; [intros a []|]. unfold svia_of in *. rewrite fold_left_app. cbn [fold_left].
    assert (KQ : (mx q =? mx (a_mi a)) && (my q =? my (a_mi a)) && (mz q =? mz (a_mi a)) = true <-> a_mi a = q).
    { rewrite !andb_true_iff, !Z.eqb_eq. destruct q as [q1 q2 q3], (a_mi a) as [r1 r2 r3]; cbn [GeomModel.mx GeomModel.my GeomModel.mz]. split; [intros [[-> ->] ->]; reflexivity|intros H; injection H as -> -> ->; auto]. }
    destruct (a_via a) as [v|] eqn:V.
    - destruct (_ && _).
      + exists l, a, []. split; [reflexivity|]. split; [apply KQ; reflexivity|]. split; [exact V|intros a' []].
      + assert (NQ : a_mi a <> q) by (intros C; apply KQ in C; discriminate C).
        destruct (fold_left _ l None) as [w|] eqn:F.
        * destruct IH as (l1 & x & l2 & -> & A & B' & C). exists l1, x, (l2 ++ [a]). rewrite <- app_assoc. split; [reflexivity|]. split; [exact A|]. split; [exact B'|].
          intros a' H. apply in_app_iff in H as [H|[<-|[]]]; [apply C, H|contradiction].
        * intros a' H. apply in_app_iff in H as [H|[<-|[]]]; [apply IH, H|contradiction].
    - destruct (fold_left _ l None) as [w|] eqn:F.
      + destruct IH as (l1 & x & l2 & -> & A & B' & C). exists l1, x, (l2 ++ [a]). rewrite <- app_assoc. split; [reflexivity|]. split; [exact A|]. split; [exact B'|].
        intros a' H. apply in_app_iff in H as [H|[<-|[]]]; [apply C, H|intros _; exact V].
      + intros a' H. apply in_app_iff in H as [H|[<-|[]]]; [apply IH, H|intros _; exact V].
  Qed.
  Lemma bs_svia q ops : bs ops -> ~ hit_in q ASVia ops.
  Proof.
    intros H (o & I & T). apply hits_true in T as [_ T]. unfold bs in H. rewrite Forall_forall in H. specialize (H o I). destruct o; try contradiction; cbn in T; try discriminate T; destruct d; discriminate T.
  Qed.
  Lemma setup_svia q : valid g q -> read g q ASVia = 0 ->
    (read (setup S E g aps figs) q ASVia = 1 <-> exists v, last_via aps q v) /\ (forall v, last_via aps q v <-> svia_of aps q = Some v).
  Proof.
    intros V R0. destruct setup_ok as [SF SD].
    assert (UNI : forall v, last_via aps q v <-> svia_of aps q = Some v).
    { intros v. pose proof (svia_last aps q) as L. split.
      - intros H. destruct (svia_of aps q) as [w|].
        + f_equal. destruct H as (l1 & a & l2 & E1 & A & B & C), L as (l1' & a' & l2' & E2 & A' & B' & C'). rewrite E1 in E2. clear -E2 A B C A' B' C'.
          revert l1' E2. induction l1 as [|y l1 IH]; intros [|y' l1'] EQ; cbn in EQ; injection EQ as EQ1 EQ2; subst l2 || subst l2' || idtac; try subst y; try subst y'; try subst a'.
          * congruence.
          * rewrite (C a') in B'; [discriminate|apply in_app_iff; right; left; reflexivity|assumption].
          * rewrite (C' a) in B; [discriminate|apply in_app_iff; right; left; reflexivity|assumption].
          * eapply IH; eauto.
        + destruct H as (l1 & a & l2 & -> & A & B & C). rewrite (L a) in B; [discriminate|apply in_app_iff; right; left; reflexivity|exact A].
      - intros H. rewrite H in L. exact L. }
    split; [|exact UNI]. unfold setup. rewrite (grun_flag q ASVia (or_intror (or_intror (or_intror eq_refl))) _ g V SF SD), R0.
    unfold setup_ops. rewrite !decided_app. rewrite (decided_none _ _ (planar_term_ops S g)) by (apply bs_svia, bs_io).
    rewrite (decided_none _ _ (flat_map (mod_path _ g 1) figs)); [|apply (cost_nohit g); [right; right; right; reflexivity|apply figs_in]].
    rewrite (decided_none _ _ (fixed_ops S E g)) by (apply bs_svia, bs_fixed).
    assert (HA : forall l, hit_in q ASVia (ap_ops l) <-> exists a v, In a l /\ a_mi a = q /\ a_via a = Some v).
    { intros l. unfold ap_ops. rewrite hit_flat. split.
      - intros (a & HI & T). apply hit_app in T as [T|T].
        + exfalso. refine (bs_svia q _ _ T). unfold bs. rewrite Forall_map, Forall_forall. intros d Hd. assert (d <> DUnk) by (intros ->; cbn in Hd; intuition discriminate). destruct (a_ok a d); exact H.
        + destruct (a_via a) as [v|] eqn:VA'; [|destruct T as (o & [] & _)]. destruct T as (o & [<-|[]] & T). apply hits_true in T as [T _]. cbn in T. exists a, v. auto.
      - intros (a & v & HI & HQ & HV). exists a. split; [exact HI|]. apply hit_app. right. rewrite HV. exists (SetSVia (a_mi a)). split; [left; reflexivity|]. apply hits_true. split; [|reflexivity]. cbn. congruence. }
    assert (DV : decided q ASVia (ap_ops aps) = (if svia_of aps q then Some true else None)).
    { destruct (svia_of aps q) as [v|] eqn:SV.
      - apply decided_all.
        + intros o HI T. apply hits_true in T as [_ T]. unfold ap_ops in HI. apply in_flat_map in HI as (a & _ & HI). apply in_app_iff in HI as [HI|HI].
          * apply in_map_iff in HI as (e & <- & _). destruct (a_ok a e); cbn in T; destruct e; discriminate T.
          * destruct (a_via a); [destruct HI as [<-|[]]; reflexivity|destruct HI].
        + apply HA. destruct (proj2 (UNI v) eq_refl) as (l1 & a & l2 & -> & A & B & _). exists a, v. split; [apply in_app_iff; right; left; reflexivity|auto].
      - apply decided_none. rewrite HA. intros (a & v & HI & HQ & HV). pose proof (svia_last aps q) as L; rewrite SV in L; rewrite (L a HI HQ) in HV. discriminate. }
    rewrite DV. destruct (svia_of aps q) as [v|] eqn:SV.
    - split; [intros _; exists v; apply UNI; reflexivity|reflexivity].
    - split; [discriminate|]. intros (v & H). apply UNI in H. discriminate H.
  Qed.
End all.
