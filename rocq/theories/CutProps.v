(* Cut spacing and cut shorts: what the checker reports (C100), that it reports nothing else (C101), rules
   between two cut layers (C102). *)
From Verif Require Import Base Stl GeomModel GeomSpec GeomProofs TechModel GcModel GcSpec GcProofs GcProofs2 GcProofs3
  CostModel CutModel CutSpec CutProofs CutProofs2.

(* ---- demonstration layouts: cut layers 3 and 5, a rule file for layer 3 ---- *)
Definition demo_w (lef : list crule) (kind : Z -> nkind) (a b m : list grect) : cworker :=
  mkCW 6 (fun l => lef_layer 100 99 (if l =? 3 then lef else [])) kind
       (fun l => if l =? 3 then a else if l =? 5 then b else if l =? 4 then m else []).
Definition normal_b (b : box) : bool := (px (ll b) <=? px (ur b)) && (py (ll b) <=? py (ur b)).
Lemma nodup_ids xs : NoDup (map gid xs) -> NoDup xs /\ (forall r o, In r xs -> In o xs -> gid r = gid o -> r = o).
Proof.
  intros N. split; [eapply NoDup_map_inv; exact N|].
  induction xs as [|x xs IH]; [intros r o []|]. cbn in N. inversion N as [|? ? NI N']; subst.
  intros r o [<- |Ir] [<- |Io] E; auto.
  - exfalso. apply NI. rewrite E. apply in_map. exact Io.
  - exfalso. apply NI. rewrite <- E. apply in_map. exact Ir.
Qed.
Lemma demo_good lef kind a b m : forallb (fun r => normal_b (gbox r)) (a ++ b ++ m) = true ->
  NoDup (map gid (a ++ b ++ m)) -> good_worker (demo_w lef kind a b m).
Proof.
  intros F N. rewrite forallb_forall in F. destruct (nodup_ids _ N) as [ND ID].
  assert (K : forall l r, In r (q_rects (demo_w lef kind a b m) l) ->
    (l = 3 /\ In r a) \/ (l = 5 /\ In r b) \/ (l = 4 /\ In r m)).
  { intros l r. cbn. destruct (Z.eqb_spec l 3); [auto|]. destruct (Z.eqb_spec l 5); [auto|]. destruct (Z.eqb_spec l 4); [auto|intros []]. }
  assert (KI : forall l r, In r (q_rects (demo_w lef kind a b m) l) -> In r (a ++ b ++ m)).
  { intros l r I. rewrite !in_app_iff. destruct (K l r I) as [[_ ?]|[[_ ?]|[_ ?]]]; auto. }
  assert (D1 : forall x, In x a -> In x (b ++ m) -> False).
  { clear -ND. induction a as [|y ys IH]; [intros x []|]. inversion ND as [|? ? NI ND']; subst. intros x [<- |I] J.
    - apply NI, in_or_app. right. exact J.
    - eapply IH; eauto. }
  assert (ND2 : NoDup (b ++ m)). { clear -ND. induction a as [|y ys IH]; [exact ND|]. inversion ND; auto. }
  assert (D2 : forall x, In x b -> In x m -> False).
  { clear -ND2. induction b as [|y ys IH]; [intros x []|]. inversion ND2 as [|? ? NI ND']; subst. intros x [<- |I] J.
    - apply NI, in_or_app. right. exact J.
    - eapply IH; eauto. }
  split; [|split].
  - intros l r I. specialize (F r (KI l r I)). unfold normal_b in F. split; lia.
  - intros l. cbn.
    assert (NA : NoDup a). { clear -ND. induction a as [|y ys IH]; [constructor|]. inversion ND as [|? ? NI ND']; subst. constructor; [|auto]. intros J. apply NI, in_or_app. left. exact J. }
    assert (NB : NoDup b). { clear -ND2. induction b as [|y ys IH]; [constructor|]. inversion ND2 as [|? ? NI ND']; subst. constructor; [|auto]. intros J. apply NI, in_or_app. left. exact J. }
    assert (NM : NoDup m). { clear -ND2. induction b as [|y ys IH]; [exact ND2|]. inversion ND2; auto. }
    destruct (l =? 3); [assumption|]. destruct (l =? 5); [assumption|]. destruct (l =? 4); [assumption|constructor].
  - intros l k r o Ir Io E. assert (r = o) by (apply ID; eauto). subst o. split; [reflexivity|].
    assert (A1 : forall x, In x b -> In x (b ++ m)) by (intros; apply in_or_app; auto).
    assert (A2 : forall x, In x m -> In x (b ++ m)) by (intros; apply in_or_app; auto).
    destruct (K l r Ir) as [[-> P]|[[-> P]|[-> P]]]; destruct (K k r Io) as [[-> Q]|[[-> Q]|[-> Q]]]; try reflexivity; exfalso; eauto.
Qed.
Definition sq (i x y n : Z) : grect := mkGR i (mkBox (mkPt x y) (mkPt (x + 100) (y + 100))) n false.
Definition plain (i spc : Z) : crule := mkCR i spc false false None false None 0 false false None.
Definition good_rule_b (l : Z) (c : crule) : bool :=
  (0 <=? k_spc c) && match k_adj c with Some n => (1 <=? n) && (0 <=? k_within c) | None => true end &&
  match k_second c with Some s => negb (s =? l) && match k_adj c with None => true | _ => false end | None => true end &&
  match k_area c with Some a => 0 <=? a | None => true end.
Lemma good_rules l lef : forallb (good_rule_b l) lef = true -> Forall (good_rule l) lef.
Proof.
  intros H. apply Forall_forall. intros c I. rewrite forallb_forall in H. specialize (H c I). unfold good_rule_b in H.
  rewrite !andb_true_iff in H. destruct H as [[[H1 H2] H3] H4]. split; [lia|].
  split; [intros n E; rewrite E in H2; lia|].
  split; [intros s E; rewrite E in H3; destruct (k_adj c); [lia|split; [lia|reflexivity]]|intros a E; rewrite E in H4; lia].
Qed.
Definition signal (_ : Z) : nkind := KSignal false.

(* ================================================================ C100 *)
(* two cuts of a layer that break a spacing rule of the file are reported with that rule, at the place
   between them *)
Theorem C100_close_cuts_reported W rs ms l lef c r o :
  good_worker W -> cuts_of W rs -> rules_from W l lef ->
  In (l, r) rs -> In o (q_rects W l) -> o <> r -> ~ (gfixed r = true /\ gfixed o = true) ->
  ~ touching (gbox r) (gbox o) -> breaks W l lef c r o ->
  reports (check_cuts W rs ms) (mkMk (between (gbox r) (gbox o)) l (k_id c) (gnet r) (gnet o)).
Proof.
  intros GW CO RF Irs Io Ne Fx T (Ic & S2 & NB & AB & BS).
  destruct (check_cuts_grows W rs ms) as (_ & B & _). apply B. exists l, r, c. split; [exact Irs|].
  split; [eapply rule_In_all; eauto|]. apply (found_same W l lef GW RF); auto.
  split; [apply BS|]. exists o. split; [exact Io|]. split; [exact Ne|].
  split; [destruct (gfixed r), (gfixed o); cbn; tauto|]. split.
  - unfold net_binds in NB. destruct (k_same c); tauto.
  - right. split; [exact T|]. split; [|split; [exact BS|reflexivity]].
    apply spared_binds; [|exact AB]. right. exists l. eapply lef_good; eauto.
Qed.
Print Assumptions C100_close_cuts_reported.

(* touching cuts are reported as a short if a rule of the layer binds the first one *)
Theorem C100_touching_cuts_reported W rs ms l lef c r o :
  good_worker W -> cuts_of W rs -> rules_from W l lef ->
  In (l, r) rs -> In o (q_rects W l) -> o <> r -> ~ (gfixed r = true /\ gfixed o = true) ->
  touching (gbox r) (gbox o) ->
  In c lef -> k_second c = None -> crowded W l c r -> (k_same c = true \/ net_binds lef c r o) ->
  reports (check_cuts W rs ms) (mkMk (between (gbox r) (gbox o)) l (cl_short (q_layer W l)) (gnet r) (gnet o)).
Proof.
  intros GW CO RF Irs Io Ne Fx T Ic S2 Cr NB.
  destruct (check_cuts_grows W rs ms) as (_ & B & _). apply B. exists l, r, c. split; [exact Irs|].
  split; [eapply rule_In_all; eauto|]. apply (found_same W l lef GW RF); auto.
  split; [exact Cr|]. exists o. split; [exact Io|]. split; [exact Ne|].
  split; [destruct (gfixed r), (gfixed o); cbn; tauto|]. split.
  - unfold net_binds in NB. destruct (k_same c); tauto.
  - left. split; [exact T|]. reflexivity.
Qed.
Print Assumptions C100_touching_cuts_reported.

(* markers are only added *)
Theorem C100_earlier_reports_stay W rs ms : incl ms (check_cuts W rs ms).
Proof. apply check_cuts_grows. Qed.
Print Assumptions C100_earlier_reports_stay.

Example C100_applies :
  let lef := [plain 1 150; mkCR 2 250 true false None false (Some 2) 300 false false None] in
  let a := sq 1 0 0 7 in let b := sq 2 200 0 8 in let d := sq 3 0 200 9 in
  let W := demo_w lef signal [a; b; d] [] [] in
  good_worker W /\ cuts_of W [(3, a); (3, b); (3, d)] /\ rules_from W 3 lef /\
  breaks W 3 lef (plain 1 150) a b /\ breaks W 3 lef (nth 1 lef (plain 1 150)) a b /\
  length (check_cuts W [(3, a); (3, b); (3, d)] []) = 5%nat.
Proof.
  cbv zeta. set (lef := [_; _]). set (W := demo_w _ _ _ _ _).
  assert (GW : good_worker W). { apply demo_good; [reflexivity|]. vm_compute. repeat constructor; cbn; intuition discriminate. }
  assert (NoB : forall r, ~ large_obs W 3 r) by (intros r [H _]; discriminate).
  split; [exact GW|]. split. { intros l r [H|[H|[H|[]]]]; injection H as <- <-; cbn; auto. }
  split. { split; [apply good_rules; reflexivity|exists 100, 99; reflexivity]. }
  split; [|split].
  - split; [left; reflexivity|]. split; [reflexivity|]. split; [left; cbn; lia|]. split; [exact I|].
    split; [exact I|]. split; [intros [H _]; apply H; reflexivity|]. split; [discriminate|].
    exists 150. split; [right; split; [intros [H _]; apply H; reflexivity|reflexivity]|].
    exists (mkPt 100 0), (mkPt 200 0). unfold in_box; vm_compute. intuition discriminate.
  - split; [right; left; reflexivity|]. split; [reflexivity|]. split; [left; cbn; lia|]. split; [exact I|].
    split; [|split; [|split; [discriminate|]]].
    + right. right. exists [sq 2 200 0 8; sq 3 0 200 9]. split; [repeat constructor; cbn; intuition discriminate|].
      split; [cbn; lia|]. intros o [<- |[<- |[]]]; (split; [cbn; auto|]; split; [discriminate|]; vm_compute; reflexivity).
    + intros (_ & H & _). discriminate.
    + exists 250. split; [right; split; [|reflexivity]|vm_compute; reflexivity].
      intros [_ [H|H]]; eapply NoB; exact H.
  - vm_compute. reflexivity.
Qed.

(* a cut layer without a SPACING rule has no short check *)
Theorem C100_short_without_rule_refuted :
  exists W l lef r o, good_worker W /\ cuts_of W [(l, r); (l, o)] /\ rules_from W l lef /\
    In r (q_rects W l) /\ In o (q_rects W l) /\ gnet r <> gnet o /\ gfixed r = false /\
    touching (gbox r) (gbox o) /\ check_cuts W [(l, r); (l, o)] [] = [].
Proof.
  exists (demo_w [] signal [sq 1 0 0 7; sq 2 50 50 8] [] []), 3, [], (sq 1 0 0 7), (sq 2 50 50 8).
  split. { apply demo_good; [reflexivity|]. vm_compute. repeat constructor; cbn; intuition discriminate. }
  split. { intros l r [H|[H|[]]]; injection H as <- <-; cbn; auto. }
  split. { split; [constructor|]. exists 100, 99. reflexivity. }
  split; [cbn; auto|]. split; [cbn; auto|]. split; [cbn; lia|]. split; [reflexivity|]. split.
  - exists (mkPt 60 60). unfold in_box. vm_compute. intuition discriminate.
  - vm_compute. reflexivity.
Qed.
Print Assumptions C100_short_without_rule_refuted.

(* ================================================================ C101 *)
(* every new report is a short of two touching cuts, two cuts of a layer that come too close for a rule of
   the file in their shapes, or two cuts of different layers too close for the rule of the two layers *)
Theorem C101_reported_shapes W rs ms m (lefs : Z -> list crule) :
  good_worker W -> cuts_of W rs -> (forall l, rules_from W l (lefs l)) ->
  In m (check_cuts W rs ms) -> In m ms \/
  exists l r o, In (l, r) rs /\ ~ (gfixed r = true /\ gfixed o = true) /\
    ((In o (q_rects W l) /\ o <> r /\ touching (gbox r) (gbox o) /\
      m = mkMk (between (gbox r) (gbox o)) l (cl_short (q_layer W l)) (gnet r) (gnet o)) \/
     (exists c, In o (q_rects W l) /\ o <> r /\ ~ touching (gbox r) (gbox o) /\
      In c (lefs l) /\ k_second c = None /\ (k_same c = true \/ net_binds (lefs l) c r o) /\ breaks_shape W l c r o /\
      m = mkMk (between (gbox r) (gbox o)) l (k_id c) (gnet r) (gnet o)) \/
     (exists s c, In o (q_rects W s) /\ 0 <= s <= q_top W /\ between_layers (lefs l) s r o c /\
      (k_same c = true -> ~ stack_ok c r o) /\ stacked_apart (k_c2c c) (gbox r) (gbox o) (k_spc c) /\
      m = mkMk (between (gbox r) (gbox o)) l (k_id c) (gnet r) (gnet o))).
Proof.
  intros GW CO RF Im. destruct (check_cuts_grows W rs ms) as (_ & _ & C).
  destruct (C m Im) as [H|(l & r & c & Irs & Ic & Hf)]; [auto|]. right. exists l, r.
  pose proof (CO l r Irs) as Ir. destruct (all_In W l (lefs l) c (RF l) Ic) as [Il [S2|(s & Bs & S2 & G)]].
  - apply (found_same W l (lefs l) GW (RF l)) in Hf; auto. destruct Hf as (Cr & o & Io & Ne & F & NB & H). exists o.
    split; [exact Irs|]. split; [destruct (gfixed r), (gfixed o); cbn in F; intuition discriminate|].
    destruct H as [[T Em]|(T & NS & BS & Em)]; [left; auto|]. right. left. exists c.
    split; [exact Io|]. split; [exact Ne|]. split; [exact T|]. split; [exact Il|]. split; [exact S2|]. split; [|auto].
    unfold net_binds. destruct (k_same c); [auto|]. right. destruct NB as [NB|NB]; [discriminate|exact NB].
  - destruct (lef_good W l (lefs l) (RF l) c Il) as (_ & _ & GS & _). destruct (GS s S2) as [Sl _].
    apply (found_inter W l (lefs l) GW (RF l) s c r m Ir G Sl) in Hf. destruct Hf as (o & c' & Io & F & BL & ST & SA & Em).
    exists o. split; [exact Irs|]. split; [destruct (gfixed r), (gfixed o); cbn in F; intuition discriminate|].
    right. right. exists s, c'. apply filter_In in Io as [Io _]. split; [exact Io|]. split; [exact Bs|]. split; [exact BL|].
    split; [|auto]. intros Ks SO. destruct GW as (GN & _). apply stack_ok_skip in SO; eauto. congruence.
Qed.
Print Assumptions C101_reported_shapes.

(* hence no false report when the file has no same-layer SAMENET rule, no AREA and no STACK without SAMENET *)
Theorem C101_no_false_reports_partial W rs ms m (lefs : Z -> list crule) :
  good_worker W -> cuts_of W rs -> (forall l, rules_from W l (lefs l)) ->
  (forall l c, In c (lefs l) -> k_second c = None -> k_same c = false /\ k_area c = None) ->
  (forall l c, In c (lefs l) -> k_stack c = true -> k_same c = true) ->
  In m (check_cuts W rs ms) -> In m ms \/
  exists l r o, In (l, r) rs /\ ~ (gfixed r = true /\ gfixed o = true) /\
    ((In o (q_rects W l) /\ o <> r /\ touching (gbox r) (gbox o) /\
      m = mkMk (between (gbox r) (gbox o)) l (cl_short (q_layer W l)) (gnet r) (gnet o)) \/
     (exists c, In o (q_rects W l) /\ o <> r /\ ~ touching (gbox r) (gbox o) /\ breaks W l (lefs l) c r o /\
      m = mkMk (between (gbox r) (gbox o)) l (k_id c) (gnet r) (gnet o)) \/
     (exists s c, In o (q_rects W s) /\ 0 <= s <= q_top W /\ breaks_inter l s (lefs l) c r o /\
      m = mkMk (between (gbox r) (gbox o)) l (k_id c) (gnet r) (gnet o))).
Proof.
  intros GW CO RF H1 H2 Im. destruct (C101_reported_shapes W rs ms m lefs GW CO RF Im) as [H|(l & r & o & A & B & H)]; [auto|].
  right. exists l, r, o. split; [exact A|]. split; [exact B|]. destruct H as [H|[H|H]]; [auto| |].
  - right. left. destruct H as (c & Io & Ne & T & Ic & S2 & NB & BS & Em). exists c. destruct (H1 l c Ic S2) as [Ks Ka].
    split; [exact Io|]. split; [exact Ne|]. split; [exact T|]. split; [|exact Em].
    split; [exact Ic|]. split; [exact S2|]. split; [rewrite Ks in NB; destruct NB as [NB|NB]; [discriminate|exact NB]|].
    split; [unfold area_binds; rewrite Ka; exact I|exact BS].
  - right. right. destruct H as (s & c & Io & Bs & BL & ST & SA & Em). exists s, c. split; [exact Io|]. split; [exact Bs|].
    split; [|exact Em]. split; [exact BL|]. split; [|exact SA]. intros SO. apply (ST) in SO; [exact SO|].
    apply (H2 l c); [|apply SO]. destruct BL as (g & G & [[_ Fc]|[-> _]]); [eapply first_In; exact Fc|eapply first_In; exact G].
Qed.
Print Assumptions C101_no_false_reports_partial.

(* a SAMENET rule is applied to cuts of different nets *)
Theorem C101_samenet_refuted :
  exists W lefs r o m, good_worker W /\ cuts_of W [(3, r); (3, o)] /\ (forall l, rules_from W l (lefs l)) /\
    q_rects W 3 = [r; o] /\ gnet r <> gnet o /\ ~ touching (gbox r) (gbox o) /\
    In m (check_cuts W [(3, r); (3, o)] []) /\
    (forall c, ~ breaks W 3 (lefs 3) c r o) /\ (forall c, ~ breaks W 3 (lefs 3) c o r).
Proof.
  set (lef := [mkCR 1 200 false true None false None 0 false false None; plain 2 50]).
  exists (demo_w lef signal [sq 1 0 0 7; sq 2 200 0 8] [] []), (fun l => if l =? 3 then lef else []),
    (sq 1 0 0 7), (sq 2 200 0 8), (mkMk (mkBox (mkPt 100 0) (mkPt 200 100)) 3 1 7 8).
  split. { apply demo_good; [reflexivity|]. vm_compute. repeat constructor; cbn; intuition discriminate. }
  split. { intros l r [H|[H|[]]]; injection H as <- <-; cbn; auto. }
  split. { intros l. split; [|exists 100, 99; reflexivity]. destruct (Z.eqb_spec l 3) as [-> |_]; [apply good_rules; reflexivity|constructor]. }
  split; [reflexivity|]. split; [cbn; lia|]. split.
  { intros T. apply touching_iff in T; [|split; cbn; lia|split; cbn; lia]. vm_compute in T. destruct T; discriminate. }
  split; [vm_compute; auto|]. split; intros c ([<- |[<- |[]]] & _ & NB & _ & BS).
  - cbn in NB. lia.
  - destruct BS as (_ & _ & _ & v & A & H). apply asked_iff in A. subst v.
    apply nearer_iff in H; [|split; cbn; lia|split; cbn; lia]. vm_compute in H. discriminate.
  - cbn in NB. lia.
  - destruct BS as (_ & _ & _ & v & A & H). apply asked_iff in A. subst v.
    apply nearer_iff in H; [|split; cbn; lia|split; cbn; lia]. vm_compute in H. discriminate.
Qed.
Print Assumptions C101_samenet_refuted.

(* an AREA rule is applied to cuts of any size *)
Theorem C101_area_refuted :
  exists W lefs r o m, good_worker W /\ cuts_of W [(3, r); (3, o)] /\ (forall l, rules_from W l (lefs l)) /\
    q_rects W 3 = [r; o] /\ ~ touching (gbox r) (gbox o) /\
    In m (check_cuts W [(3, r); (3, o)] []) /\
    (forall c, ~ breaks W 3 (lefs 3) c r o) /\ (forall c, ~ breaks W 3 (lefs 3) c o r).
Proof.
  set (lef := [mkCR 1 200 false false None false None 0 false false (Some 1000000)]).
  exists (demo_w lef signal [sq 1 0 0 7; sq 2 200 0 8] [] []), (fun l => if l =? 3 then lef else []),
    (sq 1 0 0 7), (sq 2 200 0 8), (mkMk (mkBox (mkPt 100 0) (mkPt 200 100)) 3 1 7 8).
  split. { apply demo_good; [reflexivity|]. vm_compute. repeat constructor; cbn; intuition discriminate. }
  split. { intros l r [H|[H|[]]]; injection H as <- <-; cbn; auto. }
  split. { intros l. split; [|exists 100, 99; reflexivity]. destruct (Z.eqb_spec l 3) as [-> |_]; [apply good_rules; reflexivity|constructor]. }
  split; [reflexivity|]. split.
  { intros T. apply touching_iff in T; [|split; cbn; lia|split; cbn; lia]. vm_compute in T. destruct T; discriminate. }
  split; [vm_compute; auto|]. split; intros c ([<- |[]] & _ & _ & AB & _); vm_compute in AB; apply AB; reflexivity.
Qed.
Print Assumptions C101_area_refuted.

(* a STACK rule without SAMENET: stacked cuts of one net are reported *)
Theorem C101_stack_refuted :
  exists W lefs r o m, good_worker W /\ cuts_of W [(3, r); (5, o)] /\ (forall l, rules_from W l (lefs l)) /\
    q_rects W 3 = [r] /\ q_rects W 5 = [o] /\ gnet r = gnet o /\ gbox r = gbox o /\
    In m (check_cuts W [(3, r); (5, o)] []) /\ (forall c, ~ breaks_inter 3 5 (lefs 3) c r o).
Proof.
  set (lef := [mkCR 1 50 false false (Some 5) true None 0 false false None]).
  exists (demo_w lef signal [sq 1 0 0 7] [sq 2 0 0 7] []), (fun l => if l =? 3 then lef else []),
    (sq 1 0 0 7), (sq 2 0 0 7), (mkMk (mkBox (mkPt 0 0) (mkPt 100 100)) 3 1 7 7).
  split. { apply demo_good; [reflexivity|]. vm_compute. repeat constructor; cbn; intuition discriminate. }
  split. { intros l r [H|[H|[]]]; injection H as <- <-; cbn; auto. }
  split. { intros l. split; [|exists 100, 99; reflexivity]. destruct (Z.eqb_spec l 3) as [-> |_]; [apply good_rules; reflexivity|constructor]. }
  split; [reflexivity|]. split; [reflexivity|]. split; [reflexivity|]. split; [reflexivity|].
  split; [vm_compute; auto|]. intros c (BL & SO & _). apply SO.
  assert (Ic : In c lef). { destruct BL as (g & G & [[_ Fc]|[-> _]]); [eapply first_In; exact Fc|eapply first_In; exact G]. }
  destruct Ic as [<- |[]]. split; [reflexivity|]. split; [reflexivity|]. left. intros p H. exact H.
Qed.
Print Assumptions C101_stack_refuted.

Example C101_applies :
  let lef := [plain 1 150; mkCR 2 60 false false (Some 5) false None 0 false false None;
              mkCR 3 40 false true (Some 5) true None 0 false false None] in
  let a := sq 1 0 0 7 in let b := sq 2 200 0 8 in let d := sq 3 0 0 7 in let e := sq 4 210 10 7 in
  let W := demo_w lef signal [a; b] [d; e] [] in
  good_worker W /\ cuts_of W [(3, a); (3, b); (5, d); (5, e)] /\
  (forall l, rules_from W l (if l =? 3 then lef else [])) /\
  (forall l c, In c (if l =? 3 then lef else []) -> k_second c = None -> k_same c = false /\ k_area c = None) /\
  (forall l c, In c (if l =? 3 then lef else []) -> k_stack c = true -> k_same c = true) /\
  check_cuts W [(3, a); (3, b); (5, d); (5, e)] [] =
    [mkMk (mkBox (mkPt 100 0) (mkPt 200 100)) 3 1 7 8; mkMk (mkBox (mkPt 210 10) (mkPt 300 100)) 3 2 8 7].
Proof.
  cbv zeta. split. { apply demo_good; [reflexivity|]. vm_compute. repeat constructor; cbn; intuition discriminate. }
  split. { intros l r [H|[H|[H|[H|[]]]]]; injection H as <- <-; cbn; auto. }
  split. { intros l. split; [|exists 100, 99; reflexivity]. destruct (Z.eqb_spec l 3) as [-> |_]; [apply good_rules; reflexivity|constructor]. }
  split. { intros l c. destruct (l =? 3); [|intros []]. intros [<- |[<- |[<- |[]]]]; cbn; auto; discriminate. }
  split. { intros l c. destruct (l =? 3); [|intros []]. intros [<- |[<- |[<- |[]]]]; cbn; auto; discriminate. }
  vm_compute. reflexivity.
Qed.

(* ================================================================ C102 *)
(* cuts of two layers too close for the rule of the two layers are reported when the cut checked is on
   the layer that has the rule, and a same-net rule does not ask for more than the other *)
Theorem C102_inter_layer_reported_partial W rs ms l s lef c r o :
  good_worker W -> cuts_of W rs -> rules_from W l lef -> 0 <= s <= q_top W ->
  In (l, r) rs -> In o (q_rects W s) -> ~ (gfixed r = true /\ gfixed o = true) ->
  breaks_inter l s lef c r o ->
  (forall g, first_of false s lef g -> k_spc c <= k_spc g) ->
  reports (check_cuts W rs ms) (mkMk (between (gbox r) (gbox o)) l (k_id c) (gnet r) (gnet o)).
Proof.
  intros GW CO RF Bs Irs Io Fx (BL & SO & SA) LE. pose proof (CO l r Irs) as Ir.
  destruct BL as (g & G & BL). destruct (first_In _ _ _ _ G) as (Ig & Kg & Sg).
  destruct (lef_good W l lef RF g Ig) as (_ & _ & GS & _). destruct (GS s Sg) as [Sl _].
  destruct (check_cuts_grows W rs ms) as (_ & B & _). apply B. exists l, r, g. split; [exact Irs|]. split.
  - unfold all_rules. rewrite !in_app_iff. right. right. apply inter_In. exists s. split; [exact Bs|].
    destruct RF as (_ & w & sh & ->). apply find_first. exact G.
  - apply (found_inter W l lef GW RF s g r _ Ir G Sl). exists o, c.
    destruct GW as (GN & _ & _). pose proof (GN l r Ir) as Nr. pose proof (GN s o Io) as No.
    assert (Ic : In c lef). { destruct BL as [[_ Fc]|[-> _]]; [eapply first_In; exact Fc|exact Ig]. }
    destruct (lef_good W l lef RF c Ic) as (Pos & _).
    split; [|split; [|split; [|split]]].
    + apply filter_In. split; [exact Io|]. eapply window_meets; [exact Nr|exact No| |eapply stacked_closer; eauto].
      specialize (LE g G). lia.
    + destruct (gfixed r), (gfixed o); cbn; tauto.
    + exists g. split; [exact G|exact BL].
    + destruct (stack_skip c r o) eqn:E; [|reflexivity]. apply stack_skip_ok in E; auto. contradiction.
    + split; [exact SA|]. reflexivity.
Qed.
Print Assumptions C102_inter_layer_reported_partial.

(* for cuts of different nets nothing else is needed *)
Theorem C102_different_nets_reported W rs ms l s lef c r o :
  good_worker W -> cuts_of W rs -> rules_from W l lef -> 0 <= s <= q_top W ->
  In (l, r) rs -> In o (q_rects W s) -> ~ (gfixed r = true /\ gfixed o = true) -> gnet r <> gnet o ->
  first_of false s lef c -> stacked_apart (k_c2c c) (gbox r) (gbox o) (k_spc c) ->
  reports (check_cuts W rs ms) (mkMk (between (gbox r) (gbox o)) l (k_id c) (gnet r) (gnet o)).
Proof.
  intros GW CO RF Bs Irs Io Fx En G SA. eapply C102_inter_layer_reported_partial; eauto.
  - split; [exists c; split; [exact G|right; auto]|]. split; [|exact SA]. intros (_ & E & _). contradiction.
  - intros g G'. apply find_first in G'. apply find_first in G. assert (g = c) by congruence. subst. lia.
Qed.
Print Assumptions C102_different_nets_reported.

Example C102_applies :
  let lef := [mkCR 2 60 false false (Some 5) false None 0 false false None] in
  let a := sq 1 0 0 7 in let b := sq 2 130 0 8 in
  let W := demo_w lef signal [a] [b] [] in
  good_worker W /\ cuts_of W [(3, a)] /\ rules_from W 3 lef /\ first_of false 5 lef (nth 0 lef (plain 0 0)) /\
  stacked_apart false (gbox a) (gbox b) 60 /\ check_cuts W [(3, a)] [] <> [].
Proof.
  cbv zeta. split. { apply demo_good; [reflexivity|]. vm_compute. repeat constructor; cbn; intuition discriminate. }
  split. { intros l r [H|[]]; injection H as <- <-; cbn; auto. }
  split. { split; [apply good_rules; reflexivity|exists 100, 99; reflexivity]. }
  split; [apply find_first; reflexivity|]. split; [|vm_compute; discriminate].
  split; [intros H; vm_compute in H; intuition discriminate|]. intros _.
  exists (mkPt 100 0), (mkPt 130 0). unfold in_box; vm_compute. intuition discriminate.
Qed.

(* a same-net rule asking for more than the general rule of the two layers is not enforced in full *)
Theorem C102_larger_same_net_refuted :
  exists W lefs r o c, good_worker W /\ cuts_of W [(3, r); (5, o)] /\ (forall l, rules_from W l (lefs l)) /\
    In r (q_rects W 3) /\ In o (q_rects W 5) /\ gfixed r = false /\ breaks_inter 3 5 (lefs 3) c r o /\
    check_cuts W [(3, r); (5, o)] [] = [].
Proof.
  set (c := mkCR 2 200 false true (Some 5) false None 0 false false None).
  set (lef := [mkCR 1 50 false false (Some 5) false None 0 false false None; c]).
  exists (demo_w lef signal [sq 1 0 0 7] [sq 2 200 0 7] []), (fun l => if l =? 3 then lef else []),
    (sq 1 0 0 7), (sq 2 200 0 7), c.
  split. { apply demo_good; [reflexivity|]. vm_compute. repeat constructor; cbn; intuition discriminate. }
  split. { intros l r [H|[H|[]]]; injection H as <- <-; cbn; auto. }
  split. { intros l. split; [|exists 100, 99; reflexivity]. destruct (Z.eqb_spec l 3) as [-> |_]; [apply good_rules; reflexivity|constructor]. }
  split; [cbn; auto|]. split; [cbn; auto|]. split; [reflexivity|]. split; [|vm_compute; reflexivity].
  split; [|split].
  - exists (mkCR 1 50 false false (Some 5) false None 0 false false None). split; [apply find_first; reflexivity|]. left.
    split; [reflexivity|]. apply find_first. reflexivity.
  - intros (H & _). discriminate.
  - split; [intros H; vm_compute in H; intuition discriminate|]. intros _.
    exists (mkPt 100 0), (mkPt 200 0). unfold in_box; vm_compute. intuition discriminate.
Qed.
Print Assumptions C102_larger_same_net_refuted.

(* a SAMENET rule for a layer pair without a general rule is ignored *)
Theorem C102_same_net_only_refuted :
  exists W lefs r o c, good_worker W /\ cuts_of W [(3, r); (5, o)] /\ (forall l, rules_from W l (lefs l)) /\
    In r (q_rects W 3) /\ In o (q_rects W 5) /\ gfixed r = false /\ gnet r = gnet o /\ first_of true 5 (lefs 3) c /\
    k_stack c = false /\ stacked_apart (k_c2c c) (gbox r) (gbox o) (k_spc c) /\
    check_cuts W [(3, r); (5, o)] [] = [].
Proof.
  set (c := mkCR 2 200 false true (Some 5) false None 0 false false None).
  exists (demo_w [c] signal [sq 1 0 0 7] [sq 2 200 0 7] []), (fun l => if l =? 3 then [c] else []),
    (sq 1 0 0 7), (sq 2 200 0 7), c.
  split. { apply demo_good; [reflexivity|]. vm_compute. repeat constructor; cbn; intuition discriminate. }
  split. { intros l r [H|[H|[]]]; injection H as <- <-; cbn; auto. }
  split. { intros l. split; [|exists 100, 99; reflexivity]. destruct (Z.eqb_spec l 3) as [-> |_]; [apply good_rules; reflexivity|constructor]. }
  split; [cbn; auto|]. split; [cbn; auto|]. split; [reflexivity|]. split; [reflexivity|]. split; [apply find_first; reflexivity|].
  split; [reflexivity|]. split; [|vm_compute; reflexivity].
  split; [intros H; vm_compute in H; intuition discriminate|]. intros _.
  exists (mkPt 100 0), (mkPt 200 0). unfold in_box; vm_compute. intuition discriminate.
Qed.
Print Assumptions C102_same_net_only_refuted.

(* a check of one net finds a conflict between two layers only from the side of the layer with the rule *)
Theorem C102_one_net_refuted :
  exists W lefs r o, good_worker W /\ cuts_of W [(3, r); (5, o)] /\ (forall l, rules_from W l (lefs l)) /\
    q_rects W 3 = [r] /\ q_rects W 5 = [o] /\ gnet r <> gnet o /\
    check_cuts W [(3, r); (5, o)] [] <> [] /\ check_cuts W [(5, o)] [] = [].
Proof.
  set (lef := [mkCR 2 60 false false (Some 5) false None 0 false false None]).
  exists (demo_w lef signal [sq 1 0 0 7] [sq 2 130 0 8] []), (fun l => if l =? 3 then lef else []), (sq 1 0 0 7), (sq 2 130 0 8).
  split. { apply demo_good; [reflexivity|]. vm_compute. repeat constructor; cbn; intuition discriminate. }
  split. { intros l r [H|[H|[]]]; injection H as <- <-; cbn; auto. }
  split. { intros l. split; [|exists 100, 99; reflexivity]. destruct (Z.eqb_spec l 3) as [-> |_]; [apply good_rules; reflexivity|constructor]. }
  split; [reflexivity|]. split; [reflexivity|]. split; [cbn; lia|]. split; [vm_compute; discriminate|vm_compute; reflexivity].
Qed.
Print Assumptions C102_one_net_refuted.
