From Verif Require Import Base GeomModel TwModel TwProofs IrModel IrSpec.
Section Ir.
Variable isH : bool.
Variable brl nlay : Z.
Variable guides : list tguide.
Notation al := (along isH).
Notation nbrs := (nbr_guides brl nlay guides).

Lemma zins_in c s x : In x (zins c s) <-> x = c \/ In x s.
Proof. unfold zins. apply (kins_in Z.ltb). intros a b H1 H2. apply Z.ltb_ge in H1, H2. lia. Qed.
Lemma box_set_in x1 y1 x2 y2 p : box_contains_pt (box_set x1 y1 x2 y2) p true = true <->
  Z.min x1 x2 <= px p <= Z.max x1 x2 /\ Z.min y1 y2 <= py p <= Z.max y1 y2.
Proof.
  unfold box_contains_pt, box_set, bleft, bright, bbottom, btop. cbn [ll ur px py]. rewrite !Z.gtb_ltb. rewrite !andb_true_iff, !Z.leb_le.
  destruct (Z.ltb_spec x2 x1), (Z.ltb_spec y2 y1); lia.
Qed.
Lemma nbrs_in g p n : In n (filter (fun n => tg_net n =? tg_net g) (nbrs (tg_layer g) p)) <-> In n guides /\ meets brl nlay g n p.
Proof.
  rewrite filter_In, Z.eqb_eq. unfold nbr_guides, meets. rewrite in_app_iff.
  assert (Q : forall l, In n (query_guides guides p l) <-> In n guides /\ tg_layer n = l /\ Z.min (px (tg_b n)) (px (tg_e n)) <= px p <= Z.max (px (tg_b n)) (px (tg_e n)) /\ Z.min (py (tg_b n)) (py (tg_e n)) <= py p <= Z.max (py (tg_b n)) (py (tg_e n))).
  { intros l. unfold query_guides. rewrite filter_In, andb_true_iff, Z.eqb_eq, box_set_in. tauto. }
  destruct (Z.geb_spec (tg_layer g - 2) brl) as [H1|H1]; destruct (Z.ltb_spec (tg_layer g + 2) nlay) as [H2|H2]; rewrite ?Q; cbn [In]; split; intros H.
  - destruct H as [[H|H] E]; (split; [tauto|]); (split; [exact E|]); (split; [|tauto]); [left|right]; lia.
  - destruct H as (Hi & E & [L|L] & B); (split; [|exact E]); [left|right]; tauto.
  - destruct H as [[H|[]] E]; (split; [tauto|]); (split; [exact E|]); (split; [|tauto]); left; lia.
  - destruct H as (Hi & E & [L|L] & B); [|lia]; (split; [|exact E]); left; tauto.
  - destruct H as [[[]|H] E]; (split; [tauto|]); (split; [exact E|]); (split; [|tauto]); right; lia.
  - destruct H as (Hi & E & [L|L] & B); [lia|]; (split; [|exact E]); right; tauto.
  - destruct H as [[[]|[]] _].
  - destruct H as (Hi & E & [L|L] & B); lia.
Qed.

(* the fold over the neighbours at one end *)
Definition tracks_of (l : list tguide) : list Z := flat_map (fun n => map (fun w => al (ts_b w)) (tg_routes n)) l.
Definition via_of (n : tguide) : list (Z * Z) :=
  match tg_routes n with [] => [(tg_layer n, al (tg_b n))] | ws => map (fun w => (ts_layer w, al (ts_b w))) ws end.
Definition wl_of (cp : point) (n : tguide) : Z := (if pt_same cp (tg_b n) then 1 else 0) - (if pt_same cp (tg_e n) then 1 else 0).
Lemma add_via_spec l l' c s : ir_min (add_via l l' c s) = ir_min s /\ ir_max (add_via l l' c s) = ir_max s /\ ir_wlen (add_via l l' c s) = ir_wlen s /\
  (forall x, In x (ir_down (add_via l l' c s)) <-> (l' = l - 2 /\ x = c) \/ In x (ir_down s)) /\
  (forall x, In x (ir_up (add_via l l' c s)) <-> (l' <> l - 2 /\ x = c) \/ In x (ir_up s)).
Proof.
  unfold add_via. destruct (Z.eqb_spec l' (l - 2)); cbn; (split; [reflexivity|]); (split; [reflexivity|]); (split; [reflexivity|]); split; intros x; rewrite ?zins_in; intuition.
Qed.
Lemma nbr_segs first l ws : forall s, let r := fold_left (nbr_seg isH first l) ws s in
  ir_min r = (if first then fold_left omin (map (fun w => al (ts_b w)) ws) (ir_min s) else ir_min s) /\
  ir_max r = (if first then ir_max s else fold_left omax (map (fun w => al (ts_b w)) ws) (ir_max s)) /\
  ir_wlen r = ir_wlen s /\
  (forall x, In x (ir_down r) <-> (exists w, In w ws /\ ts_layer w = l - 2 /\ x = al (ts_b w)) \/ In x (ir_down s)) /\
  (forall x, In x (ir_up r) <-> (exists w, In w ws /\ ts_layer w <> l - 2 /\ x = al (ts_b w)) \/ In x (ir_up s)).
Proof.
  induction ws as [|w ws IH]; intros s; cbn [fold_left map].
  - destruct first; cbn; (split; [reflexivity|]); (split; [reflexivity|]); (split; [reflexivity|]); split; intros x; (split; [tauto|]); intros [(w & [] & _)|H]; exact H.
  - specialize (IH (nbr_seg isH first l s w)). cbv zeta in IH |- *. destruct IH as (I1 & I2 & I3 & I4 & I5).
    set (s1 := if first then mkIR (omin (ir_min s) (al (ts_b w))) (ir_max s) (ir_down s) (ir_up s) (ir_wlen s) else mkIR (ir_min s) (omax (ir_max s) (al (ts_b w))) (ir_down s) (ir_up s) (ir_wlen s)). pose proof (add_via_spec l (ts_layer w) (al (ts_b w)) s1) as (A1 & A2 & A3 & A4 & A5).
    assert (N : nbr_seg isH first l s w = add_via l (ts_layer w) (al (ts_b w)) s1) by reflexivity. rewrite N in *.
    rewrite I1, I2, I3, A1, A2, A3. unfold s1 in *. destruct first; cbn [ir_min ir_max ir_wlen ir_down ir_up] in *; (split; [reflexivity|]); (split; [reflexivity|]); (split; [reflexivity|]); split; intros x.
    1,3: rewrite I4, A4. 3,4: rewrite I5, A5.
    all: split; intros H.
    all: try (destruct H as [(w' & Hw & H)|[[H1 H2]|H]]; [left; exists w'; split; [right; exact Hw|exact H]|left; exists w; split; [left; reflexivity|split; assumption]|right; exact H]).
    all: destruct H as [(w' & [<-|Hw] & H)|H]; [right; left; tauto|left; exists w'; tauto|right; right; exact H].
Qed.
Lemma nbr_steps first net l cp ns : forall s, let r := fold_left (nbr_step isH first net l cp) ns s in let own := filter (fun n => tg_net n =? net) ns in
  ir_min r = (if first then fold_left omin (tracks_of own) (ir_min s) else ir_min s) /\
  ir_max r = (if first then ir_max s else fold_left omax (tracks_of own) (ir_max s)) /\
  ir_wlen r = ir_wlen s + zsum (map (wl_of cp) own) /\
  (forall x, In x (ir_down r) <-> (exists n, In n own /\ In (l - 2, x) (via_of n)) \/ In x (ir_down s)) /\
  (forall x, In x (ir_up r) <-> (exists n l', In n own /\ l' <> l - 2 /\ In (l', x) (via_of n)) \/ In x (ir_up s)).
Proof.
  induction ns as [|n ns IH]; intros s; cbv zeta in *; cbn [fold_left filter].
  - cbn [tracks_of flat_map fold_left map zsum fold_right]. destruct first; (split; [reflexivity|]); (split; [reflexivity|]); (split; [lia|]); split; intros x; (split; [tauto|]).
    1,3: intros [(n & [] & _)|H]; exact H. all: intros [(n & l' & [] & _)|H]; exact H.
  - destruct (IH (nbr_step isH first net l cp s n)) as (I1 & I2 & I3 & I4 & I5). clear IH.
    destruct (tg_net n =? net) eqn:En.
    2: { assert (N : nbr_step isH first net l cp s n = s) by (unfold nbr_step; rewrite En; reflexivity). rewrite N in *. tauto. }
    set (s1 := match tg_routes n with [] => add_via l (tg_layer n) (al (tg_b n)) s | ws => fold_left (nbr_seg isH first l) ws s end).
    assert (N : nbr_step isH first net l cp s n = mkIR (ir_min s1) (ir_max s1) (ir_down s1) (ir_up s1) (ir_wlen s1 - (if pt_same cp (tg_e n) then 1 else 0) + (if pt_same cp (tg_b n) then 1 else 0))) by (unfold nbr_step; rewrite En; reflexivity).
    rewrite N in *. clear N. cbn [ir_min ir_max ir_wlen ir_down ir_up] in *.
    assert (S1 : ir_min s1 = (if first then fold_left omin (map (fun w => al (ts_b w)) (tg_routes n)) (ir_min s) else ir_min s) /\
      ir_max s1 = (if first then ir_max s else fold_left omax (map (fun w => al (ts_b w)) (tg_routes n)) (ir_max s)) /\ ir_wlen s1 = ir_wlen s /\
      (forall x, In x (ir_down s1) <-> In (l - 2, x) (via_of n) \/ In x (ir_down s)) /\ (forall x, In x (ir_up s1) <-> (exists l', l' <> l - 2 /\ In (l', x) (via_of n)) \/ In x (ir_up s))).
    { unfold s1, via_of. destruct (tg_routes n) as [|w ws] eqn:Er.
      - pose proof (add_via_spec l (tg_layer n) (al (tg_b n)) s) as (A1 & A2 & A3 & A4 & A5). rewrite A1, A2, A3. cbn [map fold_left In]. split; [destruct first; reflexivity|]. split; [destruct first; reflexivity|]. split; [reflexivity|]. split; intros x; [rewrite A4|rewrite A5]; split; intros H.
        + destruct H as [[H1 H2]|H]; [left; left; congruence|right; exact H].
        + destruct H as [[H|[]]|H]; [left; injection H as H1 H2; auto|right; exact H].
        + destruct H as [[H1 H2]|H]; [left; exists (tg_layer n); split; [exact H1|left; congruence]|right; exact H].
        + destruct H as [(l' & N & [H|[]])|H]; [left; injection H as H1 H2; subst; auto|right; exact H].
      - rewrite <- Er. pose proof (nbr_segs first l (tg_routes n) s) as (B1 & B2 & B3 & B4 & B5). cbv zeta in *. split; [exact B1|]. split; [exact B2|]. split; [exact B3|]. split; intros x; [rewrite B4|rewrite B5]; split; intros H.
        + destruct H as [(w' & Hw & H1 & H2)|H]; [left; apply in_map_iff; exists w'; split; [congruence|exact Hw]|right; exact H].
        + destruct H as [H|H]; [left; apply in_map_iff in H as (w' & H & Hw); injection H as H1 H2; exists w'; auto|right; exact H].
        + destruct H as [(w' & Hw & H1 & H2)|H]; [left; exists (ts_layer w'); split; [exact H1|apply in_map_iff; exists w'; split; [congruence|exact Hw]]|right; exact H].
        + destruct H as [(l' & N & H)|H]; [left; apply in_map_iff in H as (w' & H & Hw); injection H as H1 H2; exists w'; subst; auto|right; exact H]. }
    destruct S1 as (S1 & S2 & S3 & S4 & S5). set (R := fold_left (nbr_step isH first net l cp) ns _) in *. clearbody R. rewrite I1, I2, I3, S1, S2, S3. cbn [tracks_of flat_map map zsum fold_right]. fold (tracks_of (filter (fun n0 => tg_net n0 =? net) ns)). rewrite !fold_left_app.
    split; [destruct first; reflexivity|]. split; [destruct first; reflexivity|]. split; [unfold wl_of at 2, zsum; lia|]. split; intros x.
    + rewrite I4, S4. cbn [In]. split; intros H.
      * destruct H as [(m & Hm & H)|[H|H]]; [left; exists m; auto|left; exists n; auto|right; exact H].
      * destruct H as [(m & [<-|Hm] & H)|H]; [right; left; exact H|left; exists m; auto|right; right; exact H].
    + rewrite I5, S5. cbn [In]. split; intros H.
      * destruct H as [(m & l' & Hm & H)|[(l' & H)|H]]; [left; exists m, l'; auto|left; exists n, l'; split; [auto|exact H]|right; exact H].
      * destruct H as [(m & l' & [<-|Hm] & H)|H]; [right; left; exists l'; exact H|left; exists m, l'; auto|right; right; exact H].
Qed.
Definition own (g : tguide) (p : point) : list tguide := filter (fun n => tg_net n =? tg_net g) (nbrs (tg_layer g) p).
Lemma nbr_all_spec g : let r := nbr_all isH brl nlay guides g in
  ir_min r = fold_left omin (tracks_of (own g (tg_b g))) None /\ ir_max r = fold_left omax (tracks_of (own g (tg_e g))) None /\
  ir_wlen r = zsum (map (wl_of (tg_b g)) (own g (tg_b g))) + zsum (map (wl_of (tg_e g)) (own g (tg_e g))) /\
  (forall x, In x (ir_down r) <-> exists n, (In n (own g (tg_b g)) \/ In n (own g (tg_e g))) /\ In (tg_layer g - 2, x) (via_of n)) /\
  (forall x, In x (ir_up r) <-> exists n l', (In n (own g (tg_b g)) \/ In n (own g (tg_e g))) /\ l' <> tg_layer g - 2 /\ In (l', x) (via_of n)).
Proof.
  cbv zeta. unfold nbr_all.
  pose proof (nbr_steps true (tg_net g) (tg_layer g) (tg_b g) (nbrs (tg_layer g) (tg_b g)) (mkIR None None [] [] 0)) as (A1 & A2 & A3 & A4 & A5).
  set (s := fold_left (nbr_step isH true _ _ _) _ _) in *.
  pose proof (nbr_steps false (tg_net g) (tg_layer g) (tg_e g) (nbrs (tg_layer g) (tg_e g)) s) as (B1 & B2 & B3 & B4 & B5). cbv zeta in *. cbn [ir_min ir_max ir_wlen ir_down ir_up In] in *.
  rewrite B1, B2, B3, A1, A2, A3. unfold own. split; [reflexivity|]. split; [reflexivity|]. split; [lia|]. split; intros x.
  - rewrite B4, A4. split; [intros [(n & H)|[(n & H)|[]]]; exists n; tauto|]. intros (n & [H|H] & V); [right; left|left]; exists n; auto.
  - rewrite B5, A5. split; [intros [(n & l' & H)|[(n & l' & H)|[]]]; exists n, l'; tauto|]. intros (n & l' & [H|H] & V); [right; left|left]; exists n, l'; auto.
Qed.
Lemma meetsb_spec g n p : meetsb brl nlay g n p = true <-> meets brl nlay g n p.
Proof. unfold meetsb, meets. rewrite !andb_true_iff, orb_true_iff, !andb_true_iff, !Z.eqb_eq, !Z.leb_le, Z.ltb_lt. tauto. Qed.
Lemma filter_filter {A} (f h : A -> bool) l : filter f (filter h l) = filter (fun x => h x && f x) l.
Proof. induction l as [|a l IH]; [reflexivity|]. cbn. destruct (h a); cbn; [destruct (f a)|]; rewrite IH; reflexivity. Qed.
Lemma zsum_app a b : zsum (a ++ b) = zsum a + zsum b.
Proof. induction a as [|x a IH]; cbn [app zsum fold_right]; [reflexivity|]. unfold zsum in *. lia. Qed.
Lemma sum_own (f : tguide -> Z) g p : zsum (map f (own g p)) = zsum (map f (met brl nlay guides g p)).
Proof.
  unfold own, nbr_guides, met. rewrite filter_app, map_app, zsum_app.
  assert (E1 : filter (fun n => tg_net n =? tg_net g) (if tg_layer g - 2 >=? brl then query_guides guides p (tg_layer g - 2) else []) =
    filter (fun n => (tg_layer g - 2 >=? brl) && ((tg_layer n =? tg_layer g - 2) && box_contains_pt (box_set (px (tg_b n)) (py (tg_b n)) (px (tg_e n)) (py (tg_e n))) p true) && (tg_net n =? tg_net g)) guides).
  { destruct (tg_layer g - 2 >=? brl); [unfold query_guides; rewrite filter_filter; reflexivity|]. cbn [andb filter]. clear. induction guides; [reflexivity|assumption]. }
  assert (E2 : filter (fun n => tg_net n =? tg_net g) (if tg_layer g + 2 <? nlay then query_guides guides p (tg_layer g + 2) else []) =
    filter (fun n => (tg_layer g + 2 <? nlay) && ((tg_layer n =? tg_layer g + 2) && box_contains_pt (box_set (px (tg_b n)) (py (tg_b n)) (px (tg_e n)) (py (tg_e n))) p true) && (tg_net n =? tg_net g)) guides).
  { destruct (tg_layer g + 2 <? nlay); [unfold query_guides; rewrite filter_filter; reflexivity|]. cbn [andb filter]. clear. induction guides; [reflexivity|assumption]. }
  rewrite E1, E2. clear E1 E2. induction guides as [|n l IH]; [reflexivity|]. cbn [filter].
  assert (M : meetsb brl nlay g n p = ((tg_layer g - 2 >=? brl) && ((tg_layer n =? tg_layer g - 2) && box_contains_pt (box_set (px (tg_b n)) (py (tg_b n)) (px (tg_e n)) (py (tg_e n))) p true) && (tg_net n =? tg_net g))
    || ((tg_layer g + 2 <? nlay) && ((tg_layer n =? tg_layer g + 2) && box_contains_pt (box_set (px (tg_b n)) (py (tg_b n)) (px (tg_e n)) (py (tg_e n))) p true) && (tg_net n =? tg_net g))).
  { apply eq_true_iff_eq. rewrite meetsb_spec, orb_true_iff, !andb_true_iff, !Z.eqb_eq, Z.geb_le, Z.ltb_lt, box_set_in. unfold meets. tauto. }
  rewrite M. destruct ((tg_layer g - 2 >=? brl) && _ && _) eqn:A1; destruct ((tg_layer g + 2 <? nlay) && _ && _) eqn:A2; cbn [orb map zsum fold_right]; unfold zsum in IH |- *; try lia.
Qed.
Lemma omin_fold l : forall o, match fold_left omin l o with
  | Some m => (In m l \/ o = Some m) /\ (forall c, In c l \/ o = Some c -> m <= c)
  | None => l = [] /\ o = None end.
Proof.
  induction l as [|a l IH]; intros o; cbn [fold_left].
  - destruct o; [split; [auto|intros c [[]|H]; injection H; lia]|auto].
  - specialize (IH (omin o a)). destruct (fold_left omin l (omin o a)) as [m|].
    + destruct IH as [I1 I2]. split.
      * destruct I1 as [I1|I1]; [left; right; exact I1|]. destruct o as [k|]; cbn in I1; injection I1 as I1; [|left; left; lia]. destruct (Z.min_spec k a) as [[_ E]|[_ E]]; [right; f_equal; lia|left; left; lia].
      * intros c [[<-|H]|H]; [|apply I2; left; exact H|subst o; specialize (I2 (Z.min c a) (or_intror eq_refl)); lia]. destruct o as [k|]; cbn in I2; [specialize (I2 (Z.min k a) (or_intror eq_refl)); lia|apply I2; right; reflexivity].
    + destruct IH as [_ IH]. destruct o; discriminate IH.
Qed.
Lemma omax_fold l : forall o, match fold_left omax l o with
  | Some m => (In m l \/ o = Some m) /\ (forall c, In c l \/ o = Some c -> c <= m)
  | None => l = [] /\ o = None end.
Proof.
  induction l as [|a l IH]; intros o; cbn [fold_left].
  - destruct o; [split; [auto|intros c [[]|H]; injection H; lia]|auto].
  - specialize (IH (omax o a)). destruct (fold_left omax l (omax o a)) as [m|].
    + destruct IH as [I1 I2]. split.
      * destruct I1 as [I1|I1]; [left; right; exact I1|]. destruct o as [k|]; cbn in I1; injection I1 as I1; [|left; left; lia]. destruct (Z.max_spec k a) as [[_ E]|[_ E]]; [left; left; lia|right; f_equal; lia].
      * intros c [[<-|H]|H]; [|apply I2; left; exact H|subst o; specialize (I2 (Z.max c a) (or_intror eq_refl)); lia]. destruct o as [k|]; cbn in I2; [specialize (I2 (Z.max k a) (or_intror eq_refl)); lia|apply I2; right; reflexivity].
    + destruct IH as [_ IH]. destruct o; discriminate IH.
Qed.
End Ir.
