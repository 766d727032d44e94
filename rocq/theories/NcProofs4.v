(* Proofs about the costs while one net is routed: set-up, begin, end, rounds. *)
From Coq Require Import Permutation.
From Verif Require Import Base Stl GeomModel GeomSpec GeomProofs GridModel GridSpec GridProofs GridProofs2 CostModel CostSpec CostProofs CostProofs2 CostProofs3 CostProofs4 SetupModel SetupSpec SetupProofs SetupProofs2 SetupProofs3 SetupProofs4 SetupProofs5 SetupProofs6 NcModel NcSpec NcProofs NcProofs2 NcProofs3.

(* ---- the operations depend on the coordinates only ---- *)
Lemma window_shape g h b z : same_shape g h -> window g b z = window h b z.
Proof. intros (A & B & C & D). unfold window, getIdxBox. rewrite A, B. reflexivity. Qed.
Lemma point_shape g h p : same_shape g h -> getPoint g p = getPoint h p.
Proof. intros (A & B & C & D). unfold getPoint. rewrite A, B. reflexivity. Qed.
Lemma layer_shape g h z : same_shape g h -> getLayerNum g z = getLayerNum h z.
Proof. intros (A & B & C & D). unfold getLayerNum. rewrite C. reflexivity. Qed.
Lemma zof_shape g h l : same_shape g h -> zof g l = zof h l.
Proof. intros (A & B & C & D). unfold zof. rewrite C. reflexivity. Qed.
Lemma flat_eq {A} (F G : A -> list gop) l : (forall x, F x = G x) -> flat_map F l = flat_map G l.
Proof. intros H. induction l; cbn; congruence. Qed.
Lemma planar_shape E g h t b z blk : same_shape g h -> mod_planar E g t b z blk = mod_planar E h t b z blk.
Proof.
  intros SH. unfold mod_planar. rewrite (layer_shape g h z SH). destruct (ce_spc E _); [|reflexivity]. rewrite (window_shape g h _ _ SH).
  apply flat_eq. intros p. rewrite (point_shape g h p SH). reflexivity.
Qed.
Lemma mod_via_shape E g h t b z u ps blk : same_shape g h -> mod_via E g t b z u ps blk = mod_via E h t b z u ps blk.
Proof.
  intros SH. unfold mod_via. rewrite (layer_shape g h z SH). destruct (via_of E _ u); [|reflexivity]. destruct (ce_spc E _); [|reflexivity]. rewrite (window_shape g h _ _ SH).
  apply flat_eq. intros p. rewrite (point_shape g h p SH). unfold via_eol. rewrite (layer_shape g h z SH). reflexivity.
Qed.
Lemma eol_shape E g h t b z sk : same_shape g h -> mod_eol E g t b z sk = mod_eol E h t b z sk.
Proof.
  intros SH. unfold mod_eol. rewrite (layer_shape g h z SH). apply flat_eq. intros c.
  assert (H : forall r, eol_helper E g t r z sk = eol_helper E h t r z sk).
  { intros r. unfold eol_helper, eol_planar, eol_via. rewrite (layer_shape g h z SH). rewrite !(window_shape g h _ _ SH). f_equal.
    destruct sk; [reflexivity|]. f_equal; (destruct (via_of E _ _); [|reflexivity]); rewrite (window_shape g h _ _ SH); apply flat_eq; intros p; rewrite (point_shape g h p SH); reflexivity. }
  rewrite !H. reflexivity.
Qed.
Lemma mincut_shape S E g h t b z u : same_shape g h -> mod_mincut S E g t b z u = mod_mincut S E h t b z u.
Proof.
  intros SH. unfold mod_mincut. rewrite (layer_shape g h z SH). destruct (via_of E _ u); [|reflexivity]. apply flat_eq. intros m. destruct (mincut_applies _ _ _ _); [|reflexivity].
  rewrite (window_shape g h _ _ SH). apply flat_eq. intros p. rewrite (point_shape g h p SH). reflexivity.
Qed.
Lemma term_shape S E g h add sk t : same_shape g h -> term_ops S E g add sk t = term_ops S E h add sk t.
Proof.
  intros SH. unfold term_ops. apply flat_eq. intros [l b]. cbn [fst snd]. destruct (se_rout S l); [|reflexivity]. rewrite (zof_shape g h l SH).
  rewrite (planar_shape E g h _ _ _ _ SH), (eol_shape E g h _ _ _ _ SH), !(mod_via_shape E g h _ _ _ _ _ _ SH), !(mincut_shape S E g h _ _ _ _ SH). reflexivity.
Qed.
Lemma met_shape S g h : same_shape g h -> terms_met S g = terms_met S h.
Proof.
  intros SH. unfold terms_met. f_equal. induction (zrange (se_bot S) (se_top S)) as [|l r IH]; cbn [flat_map]; [reflexivity|]. rewrite IH. f_equal.
  unfold slot. destruct (se_rout S l); [reflexivity|]. destruct (se_cutl S l); [|reflexivity]. destruct (_ && _); reflexivity.
Qed.
Lemma ops1_shape S E g h N add : same_shape g h -> net_ops1 S E g N add = net_ops1 S E h N add.
Proof. intros SH. unfold net_ops1, terms_of. rewrite (met_shape S g h SH). apply flat_eq. intros t. apply term_shape, SH. Qed.

(* ---- signs in set-up ---- *)
Lemma only_off s q a ops : off a ops -> only s q a ops. Proof. intros H. apply only_miss, off_hit, H. Qed.
Lemma only_sg3 q a ops : signed 3 ops -> only 1 q a ops. Proof. apply (sg_only 3). Qed.
Lemma k3 : kind_ok 3. Proof. unfold kind_ok. lia. Qed.
Lemma sg_term S E g add sk t : signed (if (add : bool) then 3 else 2) (term_ops S E g add sk t).
Proof.
  assert (K : kind_ok (if add then 3 else 2)) by (unfold kind_ok; destruct add; lia). unfold term_ops. apply sg_flat; intros. apply sg_if; [|apply sg_nil].
  apply sg_app; [apply sg_mod_planar, K|]. apply sg_app; [apply sg_if; [apply sg_nil|apply sg_app; apply sg_mod_via, K]|]. apply sg_app; [apply sg_eol, K|]. apply sg_if; [apply sg_app; apply sg_mincut, K|apply sg_nil].
Qed.
Lemma sg_cut_cost E g b z blk : signed 3 (cut_cost E g b z blk).
Proof. pose proof k3. unfold cut_cost. repeat apply sg_app; auto using sg_cut, sg_inter. Qed.
Ltac onl := repeat first [solve [apply only_sg3; pose proof k3; auto using sg_mod_planar, sg_mod_via, sg_eol, sg_cut_cost, sg_nil] | solve [apply only_off; auto using off_nil, off_blk, off_blkv, off_adj] | apply only_app].
Lemma only_pass1 E g r z o q : only 1 q AShapeX (pass1 E g r z o).
Proof. unfold pass1. destruct (fo_kind o); try solve [onl]. destruct r; onl. Qed.
Lemma only_pass2 S E g l r z o q : only 1 q AShapeX (pass2 S E g l r z o).
Proof. unfold pass2. destruct (fo_kind o); try solve [onl]; [destruct r; [|onl]; apply only_app; [onl|]; destruct (_ <=? _); onl|destruct pg; onl|destruct r; onl]. Qed.
Lemma only_fixed S E g q : only 1 q AShapeX (fixed_ops S E g).
Proof.
  unfold fixed_ops. apply only_app.
  - apply only_flat. intros l _. destruct (slot S g l) as [[r z]|]; [|apply only_off, off_nil]. apply only_app; apply only_flat; intros; [apply only_pass1|apply only_pass2].
  - apply only_flat. intros k _. apply only_sg3. exact (sg_term S (no_svia E) g true false (se_term S (snd k))).
Qed.
Lemma off_figs E g t figs a : drc_type t -> a <> ADrcX -> a <> ADrcU -> off a (flat_map (mod_path E g t) figs).
Proof. intros T A B. apply off_flat. intros f _. apply off_drc; auto using dr_path. Qed.

(* ---- operations of begin and end are inside the grid ---- *)
Lemma mincut_in S E g t b z u : good_stack E g -> grid_sorted g -> 0 <= z < nz g -> ops_in g (mod_mincut S E g t b z u).
Proof.
  intros ST GS Z. unfold mod_mincut. destruct (via_of E _ u) as [v|] eqn:EV; [|constructor]. apply ops_in_flat. intros c _. destruct (mincut_applies _ _ _ _); [|constructor].
  apply ops_in_flat. intros p Hp. apply ops_in_if, mk_via_in. exact (via_pt_valid E g _ z u p v ST GS Z Hp EV).
Qed.
Lemma mincut_fig_in S E g t f : good_stack E g -> grid_sorted g -> good_fig E g f -> ops_in g (mincut_ops S E g t f).
Proof.
  intros ST GS GF. destruct f as [bi ei b|z b|bi ei pt v]; try constructor. destruct GF as (V1 & V2 & _). unfold mincut_ops. unfold valid, on_grid in V1, V2.
  repeat apply ops_in_app; apply mincut_in; auto; lia.
Qed.
Definition flag_ops (ops : list gop) : Prop := Forall (fun o => match o with SetGridCost _ d | ResetGridCost _ d => d <> DUnk | SetOverrideVia _ | ResetOverrideVia _ => True | _ => False end) ops.
Lemma fl_app x y : flag_ops x -> flag_ops y -> flag_ops (x ++ y). Proof. intros. apply Forall_app; auto. Qed.
Definition item_ok (g : gg) (it : item) : Prop := match it with Over p => valid g p | Line _ d _ => d <> DUnk end.
Lemma items_ok g h add : same_shape g h -> forall its ops, Forall (item_ok g) its -> item_ops h add its = Some ops -> flag_ops ops /\ Forall (op_safe g) ops.
Proof.
  intros SH. induction its as [|it its IH]; intros ops OK H; cbn [item_ops] in H; [injection H as <-; split; constructor|].
  inversion OK as [|? ? O1 O2]; subst. destruct it as [p d len|p].
  - destruct (walk _ _ _ _ _ _) as [pts|]; [|discriminate]. destruct (item_ops h add its) as [l|] eqn:EI; [|discriminate]. injection H as <-. destruct (IH l O2 eq_refl) as [A B]. cbn in O1.
    split; [apply fl_app; [|exact A]|apply Forall_app; split; [|exact B]]; unfold line_ops, flag_ops; apply Forall_flat_map, Forall_forall; intros p0 _; destruct add; repeat constructor; try discriminate; try exact O1.
  - destruct (item_ops h add its) as [l|] eqn:EI; [|discriminate]. injection H as <-. destruct (IH l O2 eq_refl) as [A B]. cbn in O1.
    split; (constructor; [destruct add; cbn; auto|assumption]).
Qed.
Lemma off_flags a ops : a <> AGridE -> a <> AGridN -> a <> AGridU -> a <> AOverride -> flag_ops ops -> off a ops.
Proof.
  intros A B C D H. eapply Forall_impl; [|exact H]. intros o. destruct o; try contradiction; cbn [op_attr]; try (intros _; congruence); intros Hd; destruct d; cbn [by_dir]; congruence.
Qed.
Lemma net_items_ok S E g N : net_ok E g N -> Forall (item_ok g) (net_items S E N).
Proof.
  intros [A _]. apply Forall_forall. intros it H. unfold net_items in H. apply in_flat_map in H as (P & HP & H). unfold pin_items in H. destruct (np_std P) as [std|]; [|destruct H].
  apply in_flat_map in H as (a & Ha & H). pose proof (A P a HP Ha) as VA. unfold ap_items in H. apply in_app_iff in H as [H|H].
  - destruct (na_ok a DU); [|destruct H]. apply in_app_iff in H as [H|[<-|[]]]; [|exact VA].
    destruct (_ && _); [|destruct H]. destruct (ce_horz E _); [destruct (na_onx a)|destruct (na_ony a)]; cbn in H; try (destruct H; fail); destruct H as [<-|[<-|[]]]; cbn; discriminate.
  - destruct std; [destruct H|]. apply in_flat_map in H as (d & Hd & H). destruct (na_ok a d); [|destruct H]. destruct H as [<-|[]]. cbn in *. intros ->. intuition discriminate.
Qed.
Lemma good_fig_shape E g h f : same_shape g h -> good_fig E g f -> good_fig E h f.
Proof.
  intros SH H. pose proof (fun p => proj1 (valid_shape g h p SH)) as VS. destruct SH as (A & B & C & D). destruct f; cbn [good_fig] in *; unfold nz, getLayerNum in *; rewrite <- ?C; intuition.
Qed.
Lemma stack_shape E g h : same_shape g h -> good_stack E g -> good_stack E h.
Proof. intros (A & B & C & D) (X & Y & Z). unfold good_stack, nz, getLayerNum in *. rewrite <- C. auto. Qed.
Lemma sorted_shape g h : same_shape g h -> grid_sorted g -> grid_sorted h.
Proof. intros (A & B & C & D) H. unfold grid_sorted in *. rewrite <- A, <- B, <- C. exact H. Qed.
Lemma ops2_ok S E g h N add ops : same_shape g h -> good_stack E g -> grid_sorted g -> net_ok E g N -> net_ops2 S E h N add = Some ops -> Forall (op_safe g) ops /\ off AShapeX ops.
Proof.
  intros SH ST GS NO H. pose proof (stack_shape E g h SH ST) as ST'. pose proof (sorted_shape g h SH GS) as GS'. unfold net_ops2 in H. destruct (item_ops h add (net_items S E N)) as [ap|] eqn:EI; [|discriminate]. injection H as <-.
  destruct (items_ok g h add SH _ ap (net_items_ok S E g N NO) EI) as [FL SF].
  assert (C : forall (F : cfig -> list gop), (forall f, good_fig E h f -> ops_in h (F f)) -> Forall (op_safe g) (flat_map F (dn_ext N))).
  { intros F HF. destruct NO as [_ GF]. assert (I : ops_in h (flat_map F (dn_ext N))).
    { apply ops_in_flat. intros f Hf. apply HF, (good_fig_shape E g h f SH). rewrite Forall_forall in GF. auto. }
    apply (ok_cost h) in I as [I _]. eapply Forall_impl; [|exact I]. intros o. apply op_safe_shape, same_shape_sym, SH. }
  assert (T0 : drc_type (if add then 0 else 1)) by (destruct add; unfold drc_type; auto). assert (T1 : drc_type (if add then 1 else 0)) by (destruct add; unfold drc_type; auto).
  split.
  - apply Forall_app. split; [apply C; intros f GF; apply mincut_fig_in; assumption|]. apply Forall_app. split; [exact SF|]. apply C. intros f GF. apply mod_path_in; assumption.
  - apply off_app; [|apply off_app].
    + apply off_flat. intros f _. apply off_drc; try discriminate. destruct f; cbn [mincut_ops]; try apply dr_nil. repeat apply dr_app; apply dr_mincut, T0.
    + apply off_flags; auto; discriminate.
    + apply off_figs; auto; discriminate.
Qed.
Lemma reset_shape g : same_shape g (resetStatus g). Proof. repeat split. Qed.
Lemma ops1_safe S E g h N add : Forall (op_safe h) (net_ops1 S E g N add).
Proof. apply (ok_bs h). unfold net_ops1. apply bs_flat. intros t _. apply bs_so, so_term. Qed.
Lemma guide_opt (follow : bool) g gs v : same_shape g (if follow then guide_helper g gs v else g) /\ gbits (if follow then guide_helper g gs v else g) = gbits g.
Proof. destruct follow; [|split; [apply same_shape_refl|reflexivity]]. destruct (guide_helper_shape gs g v) as (A & B & _). auto. Qed.
Lemma read_same g h q a : same_shape g h -> gbits h = gbits g -> read h q a = read g q a.
Proof. intros SH B. unfold read. rewrite B, (getIdx_shape g h q SH). reflexivity. Qed.

(* what begin and end do, seen from one attribute *)
Lemma begin_run S E follow g h N ops : same_shape g h -> good_stack E g -> grid_sorted g -> net_ok E g N -> net_ops2 S E h N false = Some ops ->
  exists h1 h2, net_begin S E follow h N = Some h2 /\ h1 = grun (resetStatus h) (net_ops1 S E g N false) /\ same_shape g h1 /\ same_shape g h2 /\
    (exists h3, h2 = grun h3 ops /\ same_shape g h3 /\ gbits h3 = gbits h1) /\ Forall (op_safe g) ops /\ off AShapeX ops.
Proof.
  intros SH ST GS NO H. destruct (ops2_ok S E g h N false ops SH ST GS NO H) as [SF OF]. unfold net_begin. rewrite H.
  rewrite (ops1_shape S E h g N false (same_shape_sym _ _ SH)).
  set (h1 := grun (resetStatus h) (net_ops1 S E g N false)). assert (S1 : same_shape g h1).
  { eapply same_shape_trans; [exact SH|]. eapply same_shape_trans; [apply reset_shape|]. apply grun_shape, ops1_safe. }
  destruct (guide_opt follow h1 (dn_guides N) true) as [G1 G2]. set (h3 := if follow then guide_helper h1 (dn_guides N) true else h1) in *.
  assert (S3 : same_shape g h3) by (eapply same_shape_trans; eassumption).
  exists h1, (grun h3 ops). split; [reflexivity|]. split; [reflexivity|]. split; [exact S1|]. split; [|split; [exists h3; auto|auto]].
  eapply same_shape_trans; [exact S3|]. apply grun_shape. eapply Forall_impl; [|exact SF]. intros o. apply op_safe_shape, S3.
Qed.
Lemma end_run S E follow g h N ops : same_shape g h -> good_stack E g -> grid_sorted g -> net_ok E g N -> net_ops2 S E h N true = Some ops ->
  exists h1 h2, net_end S E follow h N = Some h2 /\ h1 = grun h (net_ops1 S E g N true) /\ same_shape g h1 /\ same_shape g h2 /\
    (exists h3, h2 = grun h3 ops /\ same_shape g h3 /\ gbits h3 = gbits h1) /\ Forall (op_safe g) ops /\ off AShapeX ops.
Proof.
  intros SH ST GS NO H. destruct (ops2_ok S E g h N true ops SH ST GS NO H) as [SF OF]. unfold net_end. rewrite H.
  rewrite (ops1_shape S E h g N true (same_shape_sym _ _ SH)).
  set (h1 := grun h (net_ops1 S E g N true)). assert (S1 : same_shape g h1).
  { eapply same_shape_trans; [exact SH|]. apply grun_shape, ops1_safe. }
  destruct (guide_opt follow h1 (dn_guides N) false) as [G1 G2]. set (h3 := if follow then guide_helper h1 (dn_guides N) false else h1) in *.
  assert (S3 : same_shape g h3) by (eapply same_shape_trans; eassumption).
  exists h1, (grun h3 ops). split; [reflexivity|]. split; [reflexivity|]. split; [exact S1|]. split; [|split; [exists h3; auto|auto]].
  eapply same_shape_trans; [exact S3|]. apply grun_shape. eapply Forall_impl; [|exact SF]. intros o. apply op_safe_shape, S3.
Qed.
