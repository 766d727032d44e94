(* Proofs about the costs while one net is routed: fixed-shape costs of wires through set-up and rounds. *)
From Coq Require Import Permutation.
From Verif Require Import Base Stl GeomModel GeomSpec GeomProofs GridModel GridSpec GridProofs GridProofs2 CostModel CostSpec CostProofs CostProofs2 CostProofs3 CostProofs4 SetupModel SetupSpec SetupProofs SetupProofs2 SetupProofs3 SetupProofs4 SetupProofs5 SetupProofs6 NcModel NcSpec NcProofs NcProofs2 NcProofs3 NcProofs4.

Lemma stack_with E aps g : good_stack E g -> good_stack (with_svia E aps) g.
Proof. intros H. exact H. Qed.
Lemma good_fig_with E aps g f : good_fig E g f <-> good_fig (with_svia E aps) g f.
Proof. destruct f; reflexivity. Qed.
Lemma svia_in aps q v : svia_of aps q = Some v -> exists a, In a aps /\ a_via a = Some v.
Proof.
  unfold svia_of. assert (G : forall m, fold_left (fun m a => match a_via a with Some v => if (mx q =? mx (a_mi a)) && (my q =? my (a_mi a)) && (mz q =? mz (a_mi a)) then Some v else m | None => m end) aps m = Some v ->
    (exists a, In a aps /\ a_via a = Some v) \/ m = Some v).
  { induction aps as [|a aps IH]; intros m H; cbn [fold_left] in H; [auto|]. apply IH in H as [(b & Hb & E)|H]; [left; exists b; split; [right|]; assumption|].
    destruct (a_via a) as [w|] eqn:EA; [|auto]. destruct (_ && _); [|auto]. injection H as ->. left. exists a. split; [left; reflexivity|exact EA]. }
  intros H. apply G in H as [H|H]; [exact H|discriminate].
Qed.

Section Wires.
  Variables (S : senv) (E : cenv) (g : gg) (aps : list apat) (figs : list cfig).
  Hypothesis GT : good_tech E.
  Hypothesis ST : good_stack E g.
  Hypothesis GS : grid_sorted g.
  Hypothesis LO : layers_ok S g.
  Hypothesis SO : shapes_ok S E.
  Hypothesis RO : rects_ok S E g.
  Hypothesis VA : forall a, In a aps -> valid g (a_mi a).
  Hypothesis GV : forall a v, In a aps -> a_via a = Some v -> good_via v.
  Hypothesis GF : Forall (good_fig E g) figs.
  Variable q : midx.
  Hypothesis V : valid g q.
  Hypothesis R0 : read g q AShapeX = 0.
  Hypothesis FEW : few S E g q.
  Let E1 := with_svia E aps.
  Lemma SV : svia_good E1.
  Proof. intros p v H. apply svia_in in H as (a & Ha & H). eapply GV; eauto. Qed.
  Let F := FF S E g q.
  Let T := TT S E g q.
  Definition mine (n : Z) (k : Z * Z) : bool := fst k =? n.
  Lemma T_all_nonneg l : (forall k, In k l -> In k (terms_met S g)) -> 0 <= T l.
  Proof. intros H. apply zsum_nonneg. intros [n t] Hk. apply (tnet_pos S E g GT GS LO RO q V n t). apply met_found, H, Hk. Qed.
  Lemma T_sums : sums (term_wire S E g q) (map snd (terms_met S g)) (T (terms_met S g)).
  Proof.
    unfold T, TT. rewrite <- (zsum_map (tnet S E g q) snd). apply (sums_intro _ (tnet S E g q)). intros t Ht. apply in_map_iff in Ht as ([n t'] & <- & Hk). cbn [snd].
    apply (tnet_spec S E g GT GS RO q V n t'), met_found, Hk.
  Qed.
  Lemma few_sum : F + T (terms_met S g) <= 255.
  Proof. apply FEW; [apply (fixed_sums S E g GT GS LO SO RO q V)|apply T_sums]. Qed.
  Lemma T_split n : T (terms_met S g) = T (filter (mine n) (terms_met S g)) + T (filter (fun k => negb (mine n k)) (terms_met S g)).
  Proof. apply zsum_filter. Qed.
  Lemma setup_net : net (setup_ops S E g aps figs) q AShapeX = F + T (terms_met S g).
  Proof.
    unfold setup_ops. rewrite !net_app. rewrite (off_net q AShapeX (ap_ops aps)) by apply off_aps. rewrite (off_net q AShapeX (planar_term_ops S g)) by apply off_io.
    rewrite (off_net q AShapeX (flat_map _ figs)) by (apply off_figs; [right; reflexivity|discriminate|discriminate]). unfold fixed_ops. rewrite net_app.
    rewrite (fixed_net S E g q). rewrite net_zsum. rewrite (zsum_ext _ (fun k => tnet S E g q (snd k))); [unfold F, T, TT; lia|].
    intros [n t] Hk. apply (term_net S E g q n t). apply met_found, Hk.
  Qed.
  Lemma setup_only : only 1 q AShapeX (setup_ops S E g aps figs).
  Proof.
    unfold setup_ops. apply only_app; [apply only_fixed|]. apply only_app; [apply only_off, off_aps|]. apply only_app; [apply only_off, off_figs; [right; reflexivity|discriminate|discriminate]|apply only_off, off_io].
  Qed.
  Lemma setup_shape : same_shape g (setup S E g aps figs).
  Proof. apply grun_shape, (setup_ok S E g aps figs GS ST VA GF). Qed.
  Lemma setup_count : read (setup S E g aps figs) q AShapeX = F + T (terms_met S g).
  Proof.
    unfold setup. rewrite (adds_run q AShapeX eq_refl); [rewrite setup_net, R0; lia|exact V|apply (setup_ok S E g aps figs GS ST VA GF)|apply setup_only|]. rewrite setup_net, R0. pose proof few_sum. lia.
  Qed.
  Lemma ops1_net N add : net (net_ops1 S E1 g N add) q AShapeX = (if add then 1 else -1) * T (filter (mine (dn_net N)) (terms_met S g)).
  Proof.
    unfold net_ops1, terms_of. change (fun k : Z * Z => fst k =? dn_net N) with (mine (dn_net N)). rewrite net_zsum, zsum_map. unfold T, TT. rewrite (zsum_ext _ (fun k => (if add then 1 else -1) * tnet S E g q (snd k))).
    - generalize (filter (mine (dn_net N)) (terms_met S g)). intros l. unfold zsum. induction l as [|x l IH]; cbn [fold_right]; [destruct add; reflexivity|]. rewrite IH. lia.
    - intros [n t] Hk. apply filter_In in Hk as [Hk _]. apply (term_net1 S E g aps GT SV GS RO q V n t add), met_found, Hk.
  Qed.
  Lemma ops1_only N add : only (if (add : bool) then 1 else -1) q AShapeX (net_ops1 S E1 g N add).
  Proof.
    unfold net_ops1. apply only_flat. intros t _. pose proof (sg_term S E1 g add true t) as H. apply (sg_only _ q AShapeX) in H. destruct add; exact H.
  Qed.
  Lemma net_ok_with N : net_ok E g N -> net_ok E1 g N.
  Proof. intros [A B]. split; [exact A|]. eapply Forall_impl; [|exact B]. intros f. apply (good_fig_with E aps). Qed.
  Lemma filter_nonneg c : 0 <= T (filter c (terms_met S g)).
  Proof. apply T_all_nonneg. intros k Hk. apply filter_In in Hk. apply Hk. Qed.
  Lemma F_nonneg : 0 <= F. Proof. apply (FF_pos S E g GT GS LO SO RO q V). Qed.
  Definition others (N : dnet) : Z := T (filter (fun k => negb (mine (dn_net N) k)) (terms_met S g)).
  Lemma begin_count follow h N h2 : same_shape g h -> read h q AShapeX = F + T (terms_met S g) -> net_ok E g N -> net_begin S E1 follow h N = Some h2 ->
    same_shape g h2 /\ read h2 q AShapeX = F + others N.
  Proof.
    intros SH RH NO HB. assert (EX : exists ops, net_ops2 S E1 h N false = Some ops) by (unfold net_begin in HB; destruct (net_ops2 S E1 h N false); [eauto|discriminate]). destruct EX as [ops HO].
    destruct (begin_run S E1 follow g h N ops SH (stack_with E aps g ST) GS (net_ok_with N NO) HO) as (h1 & h2' & B1 & B2 & B3 & B4 & (h3 & B5 & B6 & B7) & SF & OF).
    rewrite HB in B1. injection B1 as <-. split; [exact B4|]. rewrite B5.
    rewrite (miss_run q AShapeX); [|apply (valid_shape g h3 q B6), V|eapply Forall_impl; [|exact SF]; intros o; apply op_safe_shape, B6|apply off_hit, OF].
    rewrite (read_same h1 h3 q AShapeX); [|eapply same_shape_trans; [apply same_shape_sym, B3|exact B6]|exact B7].
    assert (RR : read (resetStatus h) q AShapeX = F + T (terms_met S g)) by (rewrite (read_same h (resetStatus h)); [exact RH|apply reset_shape|reflexivity]).
    pose proof (T_split (dn_net N)) as TS. pose proof (filter_nonneg (fun k => negb (mine (dn_net N) k))) as NN. pose proof F_nonneg. unfold others.
    rewrite B2. rewrite (subs_run q AShapeX eq_refl).
    - rewrite (ops1_net N false), RR. lia.
    - apply (valid_shape h (resetStatus h) q (reset_shape h)), (valid_shape g h q SH), V.
    - apply ops1_safe.
    - exact (ops1_only N false).
    - rewrite (ops1_net N false), RR. lia.
  Qed.
  Lemma end_count follow h N h2 : same_shape g h -> read h q AShapeX = F + others N -> net_ok E g N -> net_end S E1 follow h N = Some h2 ->
    same_shape g h2 /\ read h2 q AShapeX = F + T (terms_met S g).
  Proof.
    intros SH RH NO HB. assert (EX : exists ops, net_ops2 S E1 h N true = Some ops) by (unfold net_end in HB; destruct (net_ops2 S E1 h N true); [eauto|discriminate]). destruct EX as [ops HO].
    destruct (end_run S E1 follow g h N ops SH (stack_with E aps g ST) GS (net_ok_with N NO) HO) as (h1 & h2' & B1 & B2 & B3 & B4 & (h3 & B5 & B6 & B7) & SF & OF).
    rewrite HB in B1. injection B1 as <-. split; [exact B4|]. rewrite B5.
    rewrite (miss_run q AShapeX); [|apply (valid_shape g h3 q B6), V|eapply Forall_impl; [|exact SF]; intros o; apply op_safe_shape, B6|apply off_hit, OF].
    rewrite (read_same h1 h3 q AShapeX); [|eapply same_shape_trans; [apply same_shape_sym, B3|exact B6]|exact B7].
    pose proof (T_split (dn_net N)) as TS. pose proof few_sum. unfold others in RH.
    rewrite B2. rewrite (adds_run q AShapeX eq_refl).
    - rewrite (ops1_net N true), RH. lia.
    - apply (valid_shape g h q SH), V.
    - apply ops1_safe.
    - exact (ops1_only N true).
    - rewrite (ops1_net N true), RH. lia.
  Qed.
  Lemma search_count h H : same_shape g h -> search_ok g H -> same_shape g (grun h H) /\ read (grun h H) q AShapeX = read h q AShapeX.
  Proof.
    intros SH [SF OF]. assert (SF' : Forall (op_safe h) H) by (eapply Forall_impl; [|exact SF]; intros o; apply op_safe_shape, SH). split.
    - eapply same_shape_trans; [exact SH|]. apply grun_shape, SF'.
    - apply miss_run; [apply (valid_shape g h q SH), V|exact SF'|]. intros (o & I & HT). apply hits_true in HT as [_ HT]. apply (OF o I). congruence.
  Qed.
  Lemma rounds_count follow : forall l h h', Forall (fun NH => net_ok E g (fst NH) /\ search_ok g (snd NH)) l -> same_shape g h -> read h q AShapeX = F + T (terms_met S g) ->
    rounds S E1 follow h l = Some h' -> same_shape g h' /\ read h' q AShapeX = F + T (terms_met S g).
  Proof.
    induction l as [|[N H] l IH]; intros h h' OK SH RH HR; cbn [rounds] in HR; [injection HR as <-; auto|].
    inversion OK as [|? ? [O1 O2] O3]; subst. cbn [fst snd] in *. destruct (net_begin S E1 follow h N) as [h1|] eqn:HB; [|discriminate].
    destruct (begin_count follow h N h1 SH RH O1 HB) as [S1 R1]. destruct (search_count h1 H S1 O2) as [S2 R2]. rewrite R1 in R2.
    destruct (net_end S E1 follow (grun h1 H) N) as [h2|] eqn:HE; [|discriminate]. destruct (end_count follow _ N h2 S2 R2 O1 HE) as [S3 R3]. exact (IH h2 h' O3 S3 R3 HR).
  Qed.
  Lemma others_pos N : F + others N <> 0 <-> fixed_near S E g q \/ exists n t, n <> dn_net N /\ term_found S g n t /\ pin_near S E g q t.
  Proof.
    destruct (FF_pos S E g GT GS LO SO RO q V) as [F1 F2]. fold F in F1, F2.
    assert (O1 : 0 <= others N) by apply filter_nonneg.
    assert (O2 : 0 < others N <-> exists n t, n <> dn_net N /\ term_found S g n t /\ pin_near S E g q t).
    { unfold others, T, TT. rewrite zsum_pos.
      - split.
        + intros ([n t] & Hk & P). apply filter_In in Hk as [Hk C]. cbn [snd] in P. apply met_found in Hk. apply (tnet_pos S E g GT GS LO RO q V n t Hk) in P. exists n, t. split; [|auto].
          unfold mine in C. cbn [fst] in C. apply negb_true_iff, Z.eqb_neq in C. exact C.
        + intros (n & t & C & Hk & P). exists (n, t). split; [apply filter_In; split; [apply met_found, Hk|unfold mine; cbn [fst]; apply negb_true_iff, Z.eqb_neq, C]|]. cbn [snd]. apply (tnet_pos S E g GT GS LO RO q V n t Hk), P.
      - intros [n t] Hk. apply filter_In in Hk as [Hk _]. apply (tnet_pos S E g GT GS LO RO q V n t). apply met_found, Hk. }
    rewrite <- F2, <- O2. lia.
  Qed.
End Wires.
