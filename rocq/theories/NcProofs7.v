(* Proofs about the costs while one net is routed: the effect of begin and end on flags and on costs of wires. *)
From Coq Require Import Permutation.
From Verif Require Import Base Stl GeomModel GeomSpec GeomProofs GridModel GridSpec GridProofs GridProofs2 CostModel CostSpec CostProofs CostProofs2 CostProofs3 CostProofs4 SetupModel SetupSpec SetupProofs SetupProofs2 SetupProofs3 SetupProofs4 SetupProofs5 SetupProofs6 NcModel NcSpec NcProofs NcProofs2 NcProofs3 NcProofs4 NcProofs5 NcProofs6.

Lemma flag_run q a v : forall ops g, valid g q -> Forall (op_safe g) ops ->
  (forall o, In o ops -> hits o q a = true -> op_enabled g o /\ forall x, op_value o x = v) ->
  (hit_in q a ops -> read (grun g ops) q a = v) /\ (~ hit_in q a ops -> read (grun g ops) q a = read g q a).
Proof.
  induction ops as [|o ops IH]; intros g V HS HV; [split; [intros (o & [] & _)|reflexivity]|]. cbn [grun fold_left]. change (fold_left gstep ops (gstep g o)) with (grun (gstep g o) ops).
  inversion HS as [|? ? S1 S2]; subst. assert (EN : forall h o', same_shape g h -> op_enabled g o' -> op_enabled h o').
  { clear. intros h o' SH. pose proof (fun p => proj1 (valid_shape g h p SH)) as VS. destruct o'; cbn [op_enabled op_point]; try solve [auto]; try solve [intros [A B]; split; auto]; intros [A B]; (split; [exact A|]).
    - destruct B as (B1 & B2 & B). unfold edge_allowed. rewrite <- !(point_shape g h _ SH). auto.
    - destruct B; auto. }
  destruct (IH (gstep g o)) as [I1 I2]; [apply valid_after; auto|apply safe_after; auto| |].
  { intros o' I T. destruct (HV o' (or_intror I) T) as [A B]. split; [apply (EN _ o' (gstep_shape g o S1) A)|exact B]. }
  destruct (hit_dec q a ops) as [Y|N].
  - split; [intros _; apply I1, Y|]. intros C. exfalso. apply C. destruct Y as (x & Hx & T). exists x. split; [right; exact Hx|exact T].
  - rewrite (I2 N). destruct (hits o q a) eqn:T.
    + split; [|intros C; exfalso; apply C; exists o; split; [left; reflexivity|exact T]]. intros _. destruct (HV o (or_introl eq_refl) T) as [A B]. pose proof (gstep_ok g o S1) as (_ & GV & _). apply hits_true in T as [-> ->]. rewrite (GV A). apply B.
    + split; [|intros _; apply step_miss; auto]. intros (x & [<-|Hx] & T'); [congruence|]. exfalso. apply N. exists x. auto.
Qed.
Definition gattr (d : dir) : attr := by_dir AGridE AGridN AGridU d.
Lemma gattr_battr d e : gattr d = gattr e <-> battr d = battr e.
Proof. unfold gattr, battr. destruct d, e; cbn; split; congruence. Qed.
Lemma end_gkey p d q e : d <> DUnk -> e <> DUnk -> (owner q e = owner p d /\ gattr e = gattr d) <-> at_end p d q e.
Proof. intros D E. rewrite <- (end_key p d q e D E), gattr_battr. split; intros [A B]; auto. Qed.
Lemma hit_line x e add d pts : e <> DUnk -> d <> DUnk ->
  (hit_in (owner x e) (gattr e) (line_ops add d pts) <-> exists q e', In q pts /\ (e' = d \/ e' = DD \/ e' = DU) /\ at_end x e q e').
Proof.
  intros NE ND. unfold hit_in, line_ops. split.
  - intros (o & I & T). apply in_flat_map in I as (q & Hq & I). apply hits_true in T as [T1 T2].
    assert (C : exists e', (e' = d \/ e' = DD \/ e' = DU) /\ op_point o = owner q e' /\ op_attr o = gattr e').
    { destruct add; destruct I as [<-|[<-|[<-|[]]]]; cbn [op_point op_attr]; eexists; (split; [|split; reflexivity]); auto. }
    destruct C as (e' & C & P & Q). exists q, e'. split; [exact Hq|]. split; [exact C|]. apply end_gkey; [exact NE|destruct C as [->|[->| ->]]; [exact ND|discriminate|discriminate]|]. split; congruence.
  - intros (q & e' & Hq & C & AE). apply end_gkey in AE as [P Q]; [|exact NE|destruct C as [->|[->| ->]]; [exact ND|discriminate|discriminate]].
    exists (if add then SetGridCost q e' else ResetGridCost q e'). split.
    + apply in_flat_map. exists q. split; [exact Hq|]. destruct add; destruct C as [->|[->| ->]]; cbn; auto.
    + apply hits_true. destruct add; cbn [op_point op_attr]; fold (gattr e'); split; congruence.
Qed.
Lemma hit_items_line g add x e : grid_sorted g -> e <> DUnk -> forall its ops, (forall p d len, In (Line p d len) its -> planar d = true /\ 0 <= len) -> item_ops g add its = Some ops ->
  (hit_in (owner x e) (gattr e) ops <-> exists p d len q e', In (Line p d len) its /\ in_line g p d len q /\ (e' = d \/ e' = DD \/ e' = DU) /\ at_end x e q e').
Proof.
  intros GS NE. induction its as [|it its IH]; intros ops OK H; cbn [item_ops] in H.
  - injection H as <-. split; [intros (o & [] & _)|intros (p & d & len & q & e' & [] & _)].
  - specialize (fun ops => IH ops (fun p d len I => OK p d len (or_intror I))). destruct it as [p d len|p].
    + destruct (walk _ _ _ _ _ _) as [pts|] eqn:EW; [|discriminate]. destruct (item_ops g add its) as [l|]; [|discriminate]. injection H as <-. destruct (OK p d len (or_introl eq_refl)) as [PL L0].
      rewrite hit_app, (IH l eq_refl), (hit_line x e add d pts NE) by (intros ->; discriminate PL). pose proof (walk_line g p d len pts GS PL L0 EW) as W. split.
      * intros [(q & e' & Hq & C & AE)|(p' & d' & len' & q & e' & I & R)]; [exists p, d, len, q, e'; split; [left; reflexivity|]; split; [apply W, Hq|auto]|exists p', d', len', q, e'; split; [right; exact I|exact R]].
      * intros (p' & d' & len' & q & e' & [I|I] & L & C & AE); [injection I as <- <- <-; left; exists q, e'; split; [apply W, L|auto]|right; exists p', d', len', q, e'; auto].
    + destruct (item_ops g add its) as [l|]; [|discriminate]. injection H as <-. 
      assert (X : hit_in (owner x e) (gattr e) ((if add then ResetOverrideVia p else SetOverrideVia p) :: l) <-> hit_in (owner x e) (gattr e) l).
      { split; [|intros (o & I & T); exists o; split; [right; exact I|exact T]]. intros (o & [<-|I] & T); [|exists o; auto]. exfalso. apply hits_true in T as [_ T]. destruct add, e; cbn in T; congruence. }
      rewrite X, (IH l eq_refl). split; intros (p' & d' & len' & q & e' & I & R); exists p', d', len', q, e'; (split; [|exact R]); [right; exact I|destruct I as [I|I]; [discriminate|exact I]].
Qed.
Lemma hit_items_over g add q : forall its ops, Forall (item_ok g) its -> item_ops g add its = Some ops -> (hit_in q AOverride ops <-> In (Over q) its).
Proof.
  induction its as [|it its IH]; intros ops OK H; cbn [item_ops] in H.
  - injection H as <-. split; [intros (o & [] & _)|intros []].
  - inversion OK as [|? ? O1 O2]; subst. specialize (fun ops => IH ops O2). destruct it as [p d len|p].
    + destruct (walk _ _ _ _ _ _) as [pts|] eqn:EW; [|discriminate]. destruct (item_ops g add its) as [l|]; [|discriminate]. injection H as <-. rewrite hit_app, (IH l eq_refl). cbn [In].
      assert (X : ~ hit_in q AOverride (line_ops add d pts)).
      { cbn in O1. intros (o & I & T). apply hits_true in T as [_ T]. unfold line_ops in I. apply in_flat_map in I as (x & _ & I). destruct add; destruct I as [<-|[<-|[<-|[]]]]; try discriminate T; destruct d; discriminate T. }
      split; [intros [C|C]; [contradiction|right; exact C]|intros [C|C]; [discriminate|right; exact C]].
    + destruct (item_ops g add its) as [l|]; [|discriminate]. injection H as <-. cbn [In]. rewrite <- (IH l eq_refl). split.
      * intros (o & [<-|I] & T); [left; apply hits_true in T as [T _]; destruct add; cbn in T; congruence|right; exists o; auto].
      * intros [C|(o & I & T)]; [injection C as ->; exists (if add then ResetOverrideVia q else SetOverrideVia q); split; [left; reflexivity|apply hits_true; destruct add; auto]|exists o; split; [right; exact I|exact T]].
Qed.
(* values written *)
Lemma items_value g add : forall its ops, item_ops g add its = Some ops -> forall o, In o ops ->
  match o with SetGridCost _ _ | ResetOverrideVia _ => add = true | ResetGridCost _ _ | SetOverrideVia _ => add = false | _ => False end.
Proof.
  induction its as [|it its IH]; intros ops H o I; cbn [item_ops] in H; [injection H as <-; destruct I|]. destruct it as [p d len|p].
  - destruct (walk _ _ _ _ _ _) as [pts|]; [|discriminate]. destruct (item_ops g add its) as [l|]; [|discriminate]. injection H as <-. apply in_app_iff in I as [I|I]; [|exact (IH l eq_refl o I)].
    unfold line_ops in I. apply in_flat_map in I as (q & _ & I). destruct add; destruct I as [<-|[<-|[<-|[]]]]; reflexivity.
  - destruct (item_ops g add its) as [l|]; [|discriminate]. injection H as <-. destruct I as [<-|I]; [destruct add; reflexivity|exact (IH l eq_refl o I)].
Qed.
Lemma hit_app_off q a x y : off a x -> (hit_in q a (x ++ y) <-> hit_in q a y).
Proof. intros H. rewrite hit_app. pose proof (off_hit q a x H). tauto. Qed.
Lemma hit_app_off' q a x y : off a y -> (hit_in q a (x ++ y) <-> hit_in q a x).
Proof. intros H. rewrite hit_app. pose proof (off_hit q a y H). tauto. Qed.
Lemma off_shape a ops : a <> AShapeX -> a <> AShapeU -> shape_ops ops -> off a ops.
Proof. intros A B H. eapply Forall_impl; [|exact H]. intros o. destruct o; try contradiction; intros _; cbn; congruence. Qed.
Lemma ops1_off S E g N add a : a <> AShapeX -> a <> AShapeU -> off a (net_ops1 S E g N add).
Proof. intros A B. apply off_shape; auto. unfold net_ops1. apply so_flat. intros t. apply so_term. Qed.
Lemma off_mincuts S E g t a l : drc_type t -> a <> ADrcX -> a <> ADrcU -> off a (flat_map (mincut_ops S E g t) l).
Proof. intros T A B. apply off_flat. intros f _. apply off_drc; auto. destruct f; cbn [mincut_ops]; try apply dr_nil. repeat apply dr_app; apply dr_mincut, T. Qed.
Lemma in_line_shape g h p d len q : same_shape g h -> in_line h p d len q <-> in_line g p d len q.
Proof.
  intros SH. assert (A : forall r, along h d r = along g d r) by (intros r; unfold along; rewrite (point_shape g h r SH); reflexivity).
  assert (B : forall r, axis_in h d r <-> axis_in g d r) by (intros r; unfold axis_in, nx, ny; destruct SH as (-> & -> & _); reflexivity).
  unfold in_line. split; intros (k & K & Q & D); exists k; (split; [exact K|]; split; [exact Q|]); rewrite !A, B in *; exact D.
Qed.
(* a flag the access points write, through the operations of begin or end *)
Lemma flag_through S E follow g h N add h2 q a : same_shape g h -> good_stack E g -> grid_sorted g -> net_ok E g N -> valid g q ->
  (a = AOverride \/ a = AGridE \/ a = AGridN \/ a = AGridU) ->
  (if (add : bool) then net_end S E follow h N else net_begin S E follow h N) = Some h2 ->
  exists its, item_ops h add (net_items S E N) = Some its /\
    (hit_in q a its -> read h2 q a = if add then (if attr_eq_dec a AOverride then 0 else 1) else (if attr_eq_dec a AOverride then 1 else 0)) /\
    (~ hit_in q a its -> read h2 q a = read h q a).
Proof.
  intros SH ST GS NO V A H.
  assert (EX : exists ops, net_ops2 S E h N add = Some ops) by (destruct add; unfold net_end, net_begin in H; destruct (net_ops2 S E h N _); eauto; discriminate). destruct EX as [ops HO].
  assert (X : exists h1 h3, h2 = grun h3 ops /\ same_shape g h1 /\ same_shape g h3 /\ gbits h3 = gbits h1 /\ read h1 q a = read h q a /\ Forall (op_safe g) ops).
  { assert (MISS : forall hh, same_shape g hh -> read (grun hh (net_ops1 S E g N add)) q a = read hh q a).
    { intros hh SS. apply miss_run; [apply (valid_shape g hh q SS), V|apply ops1_safe|]. apply off_hit, ops1_off; destruct A as [->|[->|[->| ->]]]; discriminate. }
    destruct add.
    - destruct (end_run S E follow g h N ops SH ST GS NO HO) as (h1 & h2' & B1 & B2 & B3 & B4 & (h3 & B5 & B6 & B7) & SF & OF). rewrite H in B1. injection B1 as <-. exists h1, h3.
      split; [exact B5|]. split; [exact B3|]. split; [exact B6|]. split; [exact B7|]. split; [|exact SF]. rewrite B2. apply MISS, SH.
    - destruct (begin_run S E follow g h N ops SH ST GS NO HO) as (h1 & h2' & B1 & B2 & B3 & B4 & (h3 & B5 & B6 & B7) & SF & OF). rewrite H in B1. injection B1 as <-. exists h1, h3.
      split; [exact B5|]. split; [exact B3|]. split; [exact B6|]. split; [exact B7|]. split; [|exact SF]. rewrite B2. rewrite MISS by (eapply same_shape_trans; [exact SH|apply reset_shape]).
      apply read_same; [apply reset_shape|reflexivity]. }
  destruct X as (h1 & h3 & -> & S1 & S3 & BT & RD & SF). unfold net_ops2 in HO. destruct (item_ops h add (net_items S E N)) as [its|] eqn:EI; [|discriminate]. injection HO as <-. exists its. split; [reflexivity|].
  set (M := flat_map (mincut_ops S E h _) _) in *. set (W := flat_map (mod_path E h _) _) in *.
  assert (OM : off a M) by (apply off_mincuts; [destruct add; unfold drc_type; auto|destruct A as [->|[->|[->| ->]]]; discriminate|destruct A as [->|[->|[->| ->]]]; discriminate]).
  assert (OW : off a W) by (apply off_figs; [destruct add; unfold drc_type; auto|destruct A as [->|[->|[->| ->]]]; discriminate|destruct A as [->|[->|[->| ->]]]; discriminate]).
  assert (HI : hit_in q a (M ++ its ++ W) <-> hit_in q a its) by (rewrite (hit_app_off q a M) by exact OM; apply hit_app_off', OW).
  rewrite <- HI.
  assert (V3 : valid h3 q) by (apply (valid_shape g h3 q S3), V).
  assert (R3 : read h3 q a = read h q a).
  { rewrite <- RD. apply read_same; [|exact BT]. eapply same_shape_trans; [apply same_shape_sym, S1|exact S3]. }
  rewrite <- R3.
  apply flag_run; [exact V3|eapply Forall_impl; [|exact SF]; intros o; apply op_safe_shape, S3|].
  intros o I T. assert (IO : In o its).
  { apply in_app_iff in I as [I|I]; [exfalso; apply (off_hit q a M OM); exists o; auto|]. apply in_app_iff in I as [I|I]; [exact I|exfalso; apply (off_hit q a W OW); exists o; auto]. }
  destruct (items_ok g h add SH _ its (net_items_ok S E g N NO) EI) as [FL _]. pose proof (items_value h add _ its EI o IO) as VAL.
  unfold flag_ops in FL. rewrite Forall_forall in FL. specialize (FL o IO). apply hits_true in T as [T1 T2]. rewrite T1 in V3.
  destruct o; try contradiction; cbn [op_enabled op_point op_value op_attr] in *; subst add.
  - split; [auto|]. intros _. destruct (attr_eq_dec a AOverride) as [C|C]; [exfalso; rewrite C in T2; destruct d; discriminate T2|reflexivity].
  - split; [auto|]. intros _. destruct (attr_eq_dec a AOverride) as [C|C]; [exfalso; rewrite C in T2; destruct d; discriminate T2|reflexivity].
  - split; [exact V3|]. intros _. destruct (attr_eq_dec a AOverride) as [C|C]; [reflexivity|contradiction].
  - split; [exact V3|]. intros _. destruct (attr_eq_dec a AOverride) as [C|C]; [reflexivity|contradiction].
Qed.
