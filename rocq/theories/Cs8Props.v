(* LEF 5.8 cut spacing: adjacent cuts of a class (C154), corners of the metal over and under a cut (C155). *)
From Verif Require Import Base Stl GeomModel GeomSpec GeomProofs TechModel GcModel GcSpec GcProofs GcProofs2 GcProofs3
  EolModel StepModel CornModel CostModel CutModel CutSpec CutProofs CutProofs2 CutProps Cs8Model Cs8Spec Cs8Proofs Cs8Proofs2.

Lemma near_found V l y r o k v : good_worker (w8 V) -> In r (q_rects (w8 V) l) -> In o (q_rects (w8 V) k) -> k = layer8 l y ->
  0 <= v <= reach8 y -> nearer_than (y_c2c y) (gbox r) (gbox o) v -> In o (near_rects V l y r).
Proof.
  intros GW Ir Io -> Hv N. unfold near_rects. eapply nearer_found; eauto.
  - exact (proj1 GW _ _ Ir).
  - exact (proj1 GW _ _ Io).
Qed.
Lemma gid_ne W l k r o : good_worker W -> In r (q_rects W l) -> In o (q_rects W k) -> (o <> r \/ k <> l) -> gid r <> gid o.
Proof. intros (_ & _ & GI) Ir Io Ne E. destruct (GI l k r o Ir Io E) as [-> ->]. destruct Ne; congruence. Qed.
Lemma hides_net V l r o : (gnet r = gnet o \/ no_samenet_rule V l) -> hides V l -> gnet r = gnet o.
Proof. intros [E|N] (y & I & S); [exact E|]. rewrite (N y I) in S. discriminate. Qed.

(* ================================================================ C154 *)
(* two cuts that break an adjacent-cut rule are reported with that rule, at the place between them.  Partial: for cuts of
   different nets only if no such rule of the layer is for SAMENET; rules without CUTCLASS only on layers without classes *)
Theorem C154_adjacent_cuts_reported_partial V rs ms l y r o :
  good_worker (w8 V) -> cuts_of (w8 V) rs -> classes_ok V l -> adj_rule y ->
  In (l, r) rs -> In o (q_rects (w8 V) l) -> o <> r -> ~ (gfixed r = true /\ gfixed o = true) ->
  (gnet r = gnet o \/ no_samenet_rule V l) -> breaks8 V l y r o ->
  reports (check_cuts8 V rs ms) (mkMk (between (gbox r) (gbox o)) l (y_id y) (gnet r) (gnet o)).
Proof.
  intros GW CO CK AR Irs Io Ne Fx Nt (Iy & NO & Ar & Ao & BP & v & As & Nv).
  pose proof (CO _ _ Irs) as Ir. destruct (check_cuts8_grows V rs ms) as (_ & B & _). apply B.
  exists l, r. split; [exact Irs|]. right. exists y, o. split; [exact Iy|]. split.
  - destruct AR as (S & _ & Sp & Wi & (n & En & _) & _).
    assert (L : l = layer8 l y) by (unfold layer8; rewrite S; reflexivity).
    pose proof (proj1 (asked8_iff V l y r o v n En) As) as Ev. subst v.
    exact (near_found V l y r o l _ GW Ir Io L (req8_range V l y r o Sp Wi) Nv).
  - split; [apply hides_net; exact Nt|]. split; [eapply gid_ne; eauto|]. split; [exact NO|]. left.
    apply adj_found_iff; auto. split; [exact BP|]. split; [eauto|]. split; [exact Fx|reflexivity].
Qed.
Print Assumptions C154_adjacent_cuts_reported_partial.

(* with adjacent-cut rules only, and cuts of the rules' class only, everything reported is such a pair *)
Theorem C154_reports_real_partial V l ms r m :
  good_worker (w8 V) -> classes_ok V l -> In r (q_rects (w8 V) l) ->
  (forall y, In y (w8_rules V l) -> adj_rule y /\ forall o, In o (q_rects (w8 V) l) -> about V l y o) ->
  In m (check8 V l ms r) ->
  In m ms \/
  exists y o, In o (q_rects (w8 V) l) /\ o <> r /\ ~ (gfixed r = true /\ gfixed o = true) /\ breaks8 V l y r o /\
    m = mkMk (between (gbox r) (gbox o)) l (y_id y) (gnet r) (gnet o).
Proof.
  intros GW CK Ir AR Im. destruct (check8_grows V l r ms) as (_ & _ & C). destruct (C m Im) as [H|(y & o & Iy & Io & _ & Ng & NO & H)]; [auto|].
  right. destruct (AR y Iy) as [A Ab]. assert (L : layer8 l y = l) by (unfold layer8; rewrite (proj1 A); reflexivity).
  assert (Io' : In o (q_rects (w8 V) l)). { apply filter_In in Io as [Io _]. rewrite L in Io. exact Io. }
  exists y, o. split; [exact Io'|]. split; [congruence|].
  destruct H as [H|(s & i & H & _)]; [|destruct A; congruence].
  apply adj_found_iff in H; auto. destruct H as (BP & D & F & E). split; [exact F|]. split; [|exact E].
  split; [exact Iy|]. split; [exact NO|]. split; [apply Ab; exact Ir|]. split; [apply Ab; exact Io'|]. split; assumption.
Qed.
Print Assumptions C154_reports_real_partial.
(* markers are only added *)
Theorem C154_earlier_reports_stay V rs ms : incl ms (check_cuts8 V rs ms).
Proof. apply check_cuts8_grows. Qed.
Print Assumptions C154_earlier_reports_stay.
(* what the older rules of the layer report is still reported *)
Theorem C154_older_rules_still_checked V rs ms l r m :
  In (l, r) rs -> In m (cut_check (w8 V) l [] r) -> reports (check_cuts8 V rs ms) m.
Proof.
  intros I H. destruct (check_cuts8_grows V rs ms) as (_ & B & _). apply B. exists l, r. split; [exact I|]. left.
  destruct (cut_check_grows (w8 V) l r []) as (_ & _ & C). destruct (C m H) as [[]|X]. exact X.
Qed.
Print Assumptions C154_older_rules_still_checked.

(* ---- layouts ---- *)
Definition adj8 (i spc n within : Z) (same : bool) (cls : option Z) : rule8 :=
  mkY i spc false same None false false cls false false false false None None (Some n) None within false.
Definition demo8 (ys : list rule8) (cs : list (Z * Z)) (a m : list grect) (ks : list (corner * bool)) : worker8 :=
  mkW8 (demo_w [] signal a [] m) (fun l => if l =? 3 then ys else []) (fun l => if l =? 3 then cs else []) (fun l => if l =? 4 then ks else []).
Lemma demo8_class ys cs a m ks i r :
  class_from 0 cs (box_width (gbox r)) (box_length (gbox r)) (-1) = i -> 0 <= i -> of_class (w8_classes (demo8 ys cs a m ks) 3) i r.
Proof. intros E H. apply class_iff; [exact H|]. exact E. Qed.
Lemma demo8_near (c2c : bool) a b v : normal_b a = true -> normal_b b = true ->
  ((if c2c then c2c_square a b else gap_square a b) <? v * v) = true -> nearer_than c2c a b v.
Proof. intros A B H. apply nearer_iff; [unfold normal_b in A; split; lia|unfold normal_b in B; split; lia|lia]. Qed.
Lemma demo8_free ys cs a m ks r : ~ large_obs (w8 (demo8 ys cs a m ks)) 3 r.
Proof. intros [H _]. discriminate. Qed.
Lemma demo8_good ys cs a m ks : forallb (fun r => normal_b (gbox r)) (a ++ [] ++ m) = true ->
  NoDup (map gid (a ++ [] ++ m)) -> good_worker (w8 (demo8 ys cs a m ks)).
Proof. intros. apply demo_good; assumption. Qed.

Example C154_applies :
  let y := adj8 1 150 2 300 false (Some 0) in
  let a := sq 1 0 0 7 in let b := sq 2 200 0 8 in let d := sq 3 0 200 9 in
  let V := demo8 [y] [(100, 100); (100, 200)] [a; b; d] [] [] in
  good_worker (w8 V) /\ cuts_of (w8 V) [(3, a)] /\ classes_ok V 3 /\ adj_rule y /\ no_samenet_rule V 3 /\ breaks8 V 3 y a b /\
  (forall o, In o (q_rects (w8 V) 3) -> about V 3 y o) /\ length (check_cuts8 V [(3, a)] []) = 2%nat.
Proof.
  cbv zeta. set (y := adj8 1 150 2 300 false (Some 0)). set (V := demo8 _ _ _ _ _).
  assert (Ab : forall o, In o (q_rects (w8 V) 3) -> about V 3 y o).
  { intros o [<- |[<- |[<- |[]]]]; (apply demo8_class; [reflexivity|lia]). }
  split. { apply demo8_good; [reflexivity|]. vm_compute. repeat constructor; cbn; intuition discriminate. }
  split. { intros l r [H|[]]. injection H as <- <-. left. reflexivity. }
  split. { intros y' [<- |[]]. cbn. lia. }
  split. { split; [reflexivity|]. split; [reflexivity|]. split; [cbn; lia|]. split; [cbn; lia|]. split; [exists 2; cbn; split; [reflexivity|lia]|discriminate]. }
  split. { intros y' [<- |[]]. reflexivity. }
  split; [|split; [exact Ab|vm_compute; reflexivity]].
  split; [left; reflexivity|]. split; [intros H; discriminate|].
  split; [apply Ab; cbn; auto|]. split; [apply Ab; cbn; auto|]. split.
  - left. exists 2. split; [reflexivity|]. exists [sq 2 200 0 8; sq 3 0 200 9]. split; [repeat constructor; cbn; intuition discriminate|].
    split; [cbn; lia|]. intros o [<- |[<- |[]]].
    all: split; [cbn; auto|]; split; [discriminate|]; split; [apply Ab; cbn; auto|]; apply demo8_near; reflexivity.
  - exists 150. split; [|apply demo8_near; reflexivity]. right. split; [|reflexivity].
    intros [X|X]; exact (demo8_free _ _ _ _ _ _ X).
Qed.

(* a SAMENET rule of the layer takes cuts of different nets out of all these checks: the pair above is not reported *)
Theorem C154_samenet_rule_hides_refuted :
  exists V y r o, good_worker (w8 V) /\ classes_ok V 3 /\ adj_rule y /\ breaks8 V 3 y r o /\ In r (q_rects (w8 V) 3) /\
    In o (q_rects (w8 V) 3) /\ o <> r /\ gfixed r = false /\ gnet r <> gnet o /\
    check_cuts8 V (map (fun x => (3, x)) (q_rects (w8 V) 3)) [] = [].
Proof.
  set (y := adj8 1 150 2 300 false (Some 0)). set (z := adj8 2 120 2 300 true (Some 0)).
  set (a := sq 1 0 0 7). set (b := sq 2 200 0 8). set (d := sq 3 0 200 9).
  set (V := demo8 [z; y] [(100, 100)] [a; b; d] [] []). exists V, y, a, b.
  assert (Ab : forall o, In o (q_rects (w8 V) 3) -> about V 3 y o).
  { intros o [<- |[<- |[<- |[]]]]; (apply demo8_class; [reflexivity|lia]). }
  split. { apply demo8_good; [reflexivity|]. vm_compute. repeat constructor; cbn; intuition discriminate. }
  split. { intros y' [<- |[<- |[]]]; cbn; lia. }
  split. { split; [reflexivity|]. split; [reflexivity|]. split; [cbn; lia|]. split; [cbn; lia|]. split; [exists 2; cbn; split; [reflexivity|lia]|discriminate]. }
  split.
  { split; [right; left; reflexivity|]. split; [intros H; discriminate|].
    split; [apply Ab; cbn; auto|]. split; [apply Ab; cbn; auto|]. split.
    - left. exists 2. split; [reflexivity|]. exists [b; d]. split; [repeat constructor; cbn; intuition discriminate|].
      split; [cbn; lia|]. intros o [<- |[<- |[]]].
      all: split; [cbn; auto|]; split; [discriminate|]; split; [apply Ab; cbn; auto|]; apply demo8_near; reflexivity.
    - exists 150. split; [|apply demo8_near; reflexivity]. right. split; [|reflexivity].
      intros [X|X]; exact (demo8_free _ _ _ _ _ _ X). }
  split; [cbn; auto|]. split; [cbn; auto|]. split; [discriminate|]. split; [reflexivity|]. split; [discriminate|].
  vm_compute. reflexivity.
Qed.
Print Assumptions C154_samenet_rule_hides_refuted.

(* a rule for one class is applied to cuts of another class *)
Theorem C154_other_class_refuted :
  exists V y r o, good_worker (w8 V) /\ classes_ok V 3 /\ adj_rule y /\ w8_rules V 3 = [y] /\ In r (q_rects (w8 V) 3) /\
    In o (q_rects (w8 V) 3) /\ ~ about V 3 y r /\ ~ about V 3 y o /\
    In (mkMk (between (gbox r) (gbox o)) 3 (y_id y) (gnet r) (gnet o)) (check8 V 3 [] r).
Proof.
  set (y := adj8 1 150 1 300 false (Some 1)). set (big i x yy := mkGR i (mkBox (mkPt x yy) (mkPt (x + 100) (yy + 200))) 9 false).
  set (a := sq 1 0 0 7). set (b := sq 2 200 0 8).
  set (V := demo8 [y] [(100, 100); (100, 200)] [a; b; big 3 0 200; big 4 200 200] [] []). exists V, y, a, b.
  split. { apply demo8_good; [reflexivity|]. vm_compute. repeat constructor; cbn; intuition discriminate. }
  split. { intros y' [<- |[]]; cbn; lia. }
  split. { split; [reflexivity|]. split; [reflexivity|]. split; [cbn; lia|]. split; [cbn; lia|]. split; [exists 1; cbn; split; [reflexivity|lia]|discriminate]. }
  split; [reflexivity|]. split; [cbn; auto|]. split; [cbn; auto|].
  split. { intros (w & len & _ & E & _ & H & _). vm_compute in E, H. congruence. }
  split. { intros (w & len & _ & E & _ & H & _). vm_compute in E, H. congruence. }
  vm_compute. auto.
Qed.
Print Assumptions C154_other_class_refuted.

(* a rule without CUTCLASS counts only cuts of no class *)
Theorem C154_rule_without_class_refuted :
  exists V y r o, good_worker (w8 V) /\ adj_rule y /\ breaks8 V 3 y r o /\ no_samenet_rule V 3 /\ In r (q_rects (w8 V) 3) /\
    In o (q_rects (w8 V) 3) /\ o <> r /\ gfixed r = false /\
    check_cuts8 V (map (fun x => (3, x)) (q_rects (w8 V) 3)) [] = [].
Proof.
  set (y := adj8 1 150 2 300 false None).
  set (a := sq 1 0 0 7). set (b := sq 2 200 0 8). set (d := sq 3 0 200 9).
  set (V := demo8 [y] [(100, 100)] [a; b; d] [] []). exists V, y, a, b.
  split. { apply demo8_good; [reflexivity|]. vm_compute. repeat constructor; cbn; intuition discriminate. }
  split. { split; [reflexivity|]. split; [reflexivity|]. split; [cbn; lia|]. split; [cbn; lia|]. split; [exists 2; cbn; split; [reflexivity|lia]|discriminate]. }
  split.
  { split; [left; reflexivity|]. split; [intros H; discriminate|].
    split; [exact I|]. split; [exact I|]. split.
    - left. exists 2. split; [reflexivity|]. exists [b; d]. split; [repeat constructor; cbn; intuition discriminate|].
      split; [cbn; lia|]. intros o [<- |[<- |[]]].
      all: split; [cbn; auto|]; split; [discriminate|]; split; [exact I|]; apply demo8_near; reflexivity.
    - exists 150. split; [|apply demo8_near; reflexivity]. right. split; [|reflexivity].
      intros [X|X]; exact (demo8_free _ _ _ _ _ _ X). }
  split. { intros y' [<- |[]]. reflexivity. }
  split; [cbn; auto|]. split; [cbn; auto|]. split; [discriminate|]. split; [reflexivity|]. vm_compute. reflexivity.
Qed.
Print Assumptions C154_rule_without_class_refuted.

(* ================================================================ C155 *)
(* a cut too near to a corner of the metal of its net that covers it is reported, with the rule, between the corner and the
   cut *)
Theorem C155_cut_near_corner_reported V rs ms l s y r o k fx :
  good_worker (w8 V) -> cuts_of (w8 V) rs -> classes_ok V l -> corner_rule y s -> s <> l ->
  In (l, r) rs -> In o (q_rects (w8 V) s) -> In (k, fx) (w8_corners V s) -> ~ (gfixed r = true /\ fx = true) ->
  gnet r = gnet o -> breaks_corner V l s y r o k ->
  reports (check_cuts8 V rs ms) (mkMk (between (pt_box (o_low (c_n k))) (gbox r)) l (y_id y) (gnet r) (gnet o)).
Proof.
  intros GW CO CK (S & S1 & S2 & S3 & S4 & S5 & Sp) Ne Irs Io Ik Fx Nt (Iy & NO & Ar & Ins & H).
  pose proof (CO _ _ Irs) as Ir. pose proof (proj1 GW _ _ Ir) as Nr. pose proof (proj1 GW _ _ Io) as No.
  destruct (check_cuts8_grows V rs ms) as (_ & B & _). apply B.
  exists l, r. split; [exact Irs|]. right. exists y, o. split; [exact Iy|].
  assert (R : 0 <= reach8 y) by (unfold reach8; destruct (y_adj y); lia).
  split.
  { unfold near_rects, layer8. rewrite S. eapply touch_found; eauto. exists (ll (gbox r)). destruct Nr as [N1 N2].
    assert (P : in_box (ll (gbox r)) (gbox r)) by (split; lia). split; [exact P|apply Ins; exact P]. }
  split; [intros _; exact Nt|]. split; [eapply gid_ne; eauto|]. split; [exact NO|]. right.
  destruct (y_class y) as [i|] eqn:Ei; [|congruence].
  assert (ET : edge_touches k (gbox o)).
  { destruct (y_concave y); [exact (proj1 (proj2 H))|]. destruct H as (e & _ & H). exact (proj1 (proj2 H)). }
  exists s, i. split; [exact S|]. split; [exact S1|]. split; [exact S2|]. split; [exact Ei|]. split.
  { unfold about in Ar. rewrite Ei in Ar. pose proof (CK y Iy) as C. rewrite Ei in C. apply class_iff; [lia|exact Ar]. }
  split; [exact S4|]. split; [apply contains_inside; assumption|].
  exists (k, fx). split.
  { apply filter_In. split; [exact Ik|]. apply touch_edge; assumption. }
  destruct (y_concave y) eqn:Ec.
  - left. split; [reflexivity|]. apply (proj2 (concave_iff l y r o (k, fx) _ Nr No)). split; [exact H|]. split; [exact Fx|reflexivity].
  - right. split; [reflexivity|]. split; [destruct S5; congruence|]. destruct H as (eol & Ee & H). exists eol. split; [exact Ee|].
    apply (proj2 (convex_iff l y eol r o (k, fx) _ Nr No Sp)). split; [exact H|]. split; [exact Fx|reflexivity].
Qed.
Print Assumptions C155_cut_near_corner_reported.

(* with corner rules only, everything reported is a cut near a corner of metal that covers it *)
Theorem C155_reports_real V l ms r m :
  good_worker (w8 V) -> classes_ok V l -> In r (q_rects (w8 V) l) ->
  (forall y, In y (w8_rules V l) -> 0 <= y_spc y /\ exists s, y_second y = Some s) ->
  In m (check8 V l ms r) ->
  In m ms \/
  exists y s o k fx, corner_rule y s /\ In o (q_rects (w8 V) s) /\ In (k, fx) (w8_corners V s) /\
    ~ (gfixed r = true /\ fx = true) /\ breaks_corner V l s y r o k /\
    m = mkMk (between (pt_box (o_low (c_n k))) (gbox r)) l (y_id y) (gnet r) (gnet o).
Proof.
  intros GW CK Ir AR Im. destruct (check8_grows V l r ms) as (_ & _ & C). destruct (C m Im) as [H|(y & o & Iy & Io & _ & Ng & NO & H)]; [auto|].
  right. destruct (AR y Iy) as [Sp (s & S)]. assert (L : layer8 l y = s) by (unfold layer8; rewrite S; reflexivity).
  assert (Io' : In o (q_rects (w8 V) s)). { apply filter_In in Io as [Io _]. rewrite L in Io. exact Io. }
  pose proof (proj1 GW _ _ Ir) as Nr. pose proof (proj1 GW _ _ Io') as No.
  destruct H as [[H _]|(s' & i & S' & S1 & S2 & Ei & Ci & S4 & Co & [k fx] & Ik & H)]; [congruence|].
  assert (s' = s) by congruence. subst s'. clear S'.
  apply filter_In in Ik as [Ik T]. apply (touch_edge k (gbox o) No) in T. pose proof (CK y Iy) as CI. rewrite Ei in CI.
  exists y, s, o, k, fx.
  assert (D : ~ (gfixed r = true /\ fx = true) /\
              m = mkMk (between (pt_box (o_low (c_n k))) (gbox r)) l (y_id y) (gnet r) (gnet o) /\
              (if y_concave y then near_concave y r o k else exists eol, y_eol y = Some eol /\ near_convex y eol r o k) /\
              (y_concave y = true \/ y_ext y = false)).
  { destruct H as [[Ec H]|(Ec & Ex & eol & Ee & H)]; rewrite Ec.
    - destruct (proj1 (concave_iff l y r o (k, fx) m Nr No) (conj H T)) as (A & B & E).
      split; [exact B|]. split; [exact E|]. split; [exact A|left; reflexivity].
    - destruct (proj1 (convex_iff l y eol r o (k, fx) m Nr No Sp) (conj H T)) as (A & B & E).
      split; [exact B|]. split; [exact E|]. split; [exists eol; split; [exact Ee|exact A]|right; exact Ex]. }
  destruct D as (D1 & D2 & D3 & D4). split.
  { split; [exact S|]. split; [exact S1|]. split; [exact S2|]. split; [congruence|]. split; [exact S4|]. split; [exact D4|exact Sp]. }
  split; [exact Io'|]. split; [exact Ik|]. split; [exact D1|]. split; [|exact D2].
  split; [exact Iy|]. split; [exact NO|]. split; [unfold about; rewrite Ei; apply class_iff; [lia|exact Ci]|].
  split; [apply contains_inside; assumption|exact D3].
Qed.
Print Assumptions C155_reports_real.

(* an L of metal over a cut: concave and convex corners *)
Definition lshape : list oedge :=
  let e a b c d := mkOE 7 (mkPt a b) (mkPt c d) false in
  [e 0 0 400 0; e 400 0 400 200; e 400 200 200 200; e 200 200 200 400; e 200 400 0 400; e 0 400 0 0].
Definition corner8 (i spc : Z) (concave : bool) (eol : option Z) : rule8 :=
  mkY i spc false false (Some 4) false false (Some 0) false concave false false eol None None None 0 false.
Example C155_applies :
  let y := corner8 1 80 true None in let z := corner8 2 180 false (Some 150) in
  let r := sq 1 50 50 7 in
  let o := mkGR 2 (mkBox (mkPt 0 0) (mkPt 400 200)) 7 false in let p := mkGR 3 (mkBox (mkPt 0 0) (mkPt 200 400)) 7 false in
  let V := demo8 [y; z] [(100, 100)] [r] [o; p] (map (fun k => (k, false)) (corners lshape)) in
  let k := mkK (mkOE 7 (mkPt 400 0) (mkPt 400 200) false) (mkOE 7 (mkPt 400 200) (mkPt 200 200) false)
               (mkOE 7 (mkPt 200 200) (mkPt 200 400) false) (mkOE 7 (mkPt 200 400) (mkPt 0 400) false) in
  let h := mkK (mkOE 7 (mkPt 200 400) (mkPt 0 400) false) (mkOE 7 (mkPt 0 400) (mkPt 0 0) false)
               (mkOE 7 (mkPt 0 0) (mkPt 400 0) false) (mkOE 7 (mkPt 400 0) (mkPt 400 200) false) in
  good_worker (w8 V) /\ cuts_of (w8 V) [(3, r)] /\ classes_ok V 3 /\ corner_rule y 4 /\ corner_rule z 4 /\
  In (k, false) (w8_corners V 4) /\ In (h, false) (w8_corners V 4) /\ breaks_corner V 3 4 y r o k /\ breaks_corner V 3 4 z r o h /\
  length (check_cuts8 V [(3, r)] []) = 2%nat.
Proof.
  cbv zeta. set (y := corner8 1 80 true None). set (z := corner8 2 180 false (Some 150)). set (r := sq 1 50 50 7).
  set (o := mkGR 2 _ _ _). set (p := mkGR 3 _ _ _). set (V := demo8 _ _ _ _ _). set (k := mkK _ _ _ _). set (h := mkK _ _ _ _).
  assert (GW : good_worker (w8 V)). { apply demo8_good; [reflexivity|]. vm_compute. repeat constructor; cbn; intuition discriminate. }
  assert (CR : forall x, x = y \/ x = z -> corner_rule x 4).
  { intros x [-> | ->]; (split; [reflexivity|]; split; [reflexivity|]; split; [reflexivity|]; split; [discriminate|]; split; [reflexivity|]; split; [|vm_compute; discriminate]); [left|right]; reflexivity. }
  assert (No : normalised (gbox o)) by (split; vm_compute; discriminate). assert (Nr : normalised (gbox r)) by (split; vm_compute; discriminate).
  assert (INS : inside (gbox r) (gbox o)) by (apply contains_inside; [exact Nr|reflexivity]).
  assert (AB : about V 3 y r /\ about V 3 z r) by (split; apply demo8_class; [reflexivity|lia|reflexivity|lia]).
  split; [exact GW|]. split. { intros l x [H|[]]. injection H as <- <-. left. reflexivity. }
  split. { intros y' [<- |[<- |[]]]; cbn; lia. }
  split; [apply CR; auto|]. split; [apply CR; auto|].
  split; [vm_compute; tauto|]. split; [vm_compute; tauto|].
  assert (T1 : edge_touches k (gbox o)) by (apply touch_edge; [exact No|reflexivity]).
  assert (T2 : edge_touches h (gbox o)) by (apply touch_edge; [exact No|reflexivity]).
  split.
  { split; [left; reflexivity|]. split; [intros H; discriminate|]. split; [apply AB|]. split; [exact INS|]. cbn [y_concave y corner8].
    exact (proj1 (proj1 (concave_iff 3 y r o (k, false) _ Nr No) (conj eq_refl T1))). }
  split.
  { split; [right; left; reflexivity|]. split; [intros H; discriminate|]. split; [apply AB|]. split; [exact INS|]. cbn [y_concave z corner8].
    exists 150. split; [reflexivity|].
    exact (proj1 (proj1 (convex_iff 3 z 150 r o (h, false) _ Nr No ltac:(vm_compute; discriminate)) (conj eq_refl T2))). }
  vm_compute. reflexivity.
Qed.

(* a line end is spared: the same cut at the end of a wire narrower than the given width *)
Example C155_line_end_spared :
  let z := corner8 2 180 false (Some 250) in let r := sq 1 50 50 7 in
  let e a b c d := mkOE 7 (mkPt a b) (mkPt c d) false in
  let wire := [e 0 0 900 0; e 900 0 900 200; e 900 200 0 200; e 0 200 0 0] in
  let o := mkGR 2 (mkBox (mkPt 0 0) (mkPt 900 200)) 7 false in
  let V f := demo8 [corner8 2 180 false (Some f)] [(100, 100)] [r] [o] (map (fun k => (k, false)) (corners wire)) in
  check_cuts8 (V 250) [(3, r)] [] = [] /\ length (check_cuts8 (V 200) [(3, r)] []) = 2%nat.
Proof. split; vm_compute; reflexivity. Qed.
