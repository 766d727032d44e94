From Coq Require Import Arith.
From Verif Require Import Base Stl GeomModel TechModel TechSpec TechProofs GcModel GcSpec GcProofs GcProofs2 GcProofs3 CutModel CutProofs2
  EolModel EolSpec EolProofs EolProofs3 EolProofs4 StepModel StepSpec StepProofs2 StepProofs3 StepProofs4 CornModel CornSpec CornProofs CornProofs2.

(* ---- the rule ---- *)
Definition rule_of (s : cstmt) : crule :=
  mkCR (q_id s) (q_convex s) (match q_eol s with Some w => if q_convex s then w else -1 | None => -1 end) (q_exceptnet s)
    (map (fun r => nth 0 r 0) (q_rows s)) (map (fun r => nth 1 r 0) (q_rows s)) (map (fun r => nth 1 r 0) (q_rows s)) true.
Lemma rows2_entries rows : Forall row2 rows -> exists num, entries rows = Some num /\ num <> 3.
Proof.
  intros F. unfold entries. destruct rows as [|r [|r' rest]]; [exists 0; split; [reflexivity|lia]..|].
  inversion F as [|? ? (w & d & ->) F' E]. subst. change (Z.min (Z.of_nat (length [w; d])) 3) with 2. cbv zeta.
  replace (forallb _ (removelast (r' :: rest))) with true; [exists 2; split; [reflexivity|lia]|]. symmetry. apply forallb_forall.
  intros x I. assert (Ix : In x (r' :: rest)).
  { rewrite (app_removelast_last (l := r' :: rest) []) by discriminate. apply in_app_iff. auto. }
  rewrite Forall_forall in F'. destruct (F' x Ix) as (w' & d' & ->). reflexivity.
Qed.
Lemma lef_good s : good_cstmt s -> lef_corner s = Some (rule_of s).
Proof.
  intros (_ & F & _). destruct (rows2_entries _ F) as (num & E & N). unfold lef_corner, rule_of. rewrite E.
  destruct (Z.eqb_spec num 3); [contradiction|]. reflexivity.
Qed.
Lemma find_asks s w d : good_cstmt s -> asks s w d <-> d = k_find (rule_of s) w.
Proof.
  intros (N & F & S1 & S2 & _). unfold k_find, rule_of. cbn [k_widths k_spcx].
  set (ws := map (fun r => nth 0 r 0) (q_rows s)) in *. set (ds := map (fun r => nth 1 r 0) (q_rows s)) in *.
  assert (Nw : ws <> []) by (unfold ws; destruct (q_rows s); [contradiction|discriminate]).
  destruct (find1_spec ws ds w Nw S1) as (i & L & E); [unfold ws, ds; rewrite !map_length; reflexivity|]. rewrite E.
  assert (Ed : forall j, (j < length ws)%nat -> nth 1 (nth j (q_rows s) []) 0 = nth j ds 0).
  { intros j H. unfold ds. rewrite (nth_indep (map _ _) 0 (nth 1 [] 0)) by (unfold ws in H; rewrite map_length in *; exact H).
    rewrite (map_nth (fun r => nth 1 r 0)). reflexivity. }
  unfold asks. fold ws. split.
  - intros (j & Lj & ->). rewrite (last_below_unique _ _ _ _ Lj L). apply Ed, (proj1 L).
  - intros ->. exists i. split; [exact L|]. symmetry. apply Ed, (proj1 L).
Qed.
Lemma find_le_max s w h : good_cstmt s -> k_find (rule_of s) w <= k_max (rule_of s) h.
Proof.
  intros G. pose proof (proj2 (find_asks s w _ G) eq_refl) as (i & L & E). destruct G as (N & F & S1 & S2 & _).
  rewrite E. clear E. unfold k_max, rule_of. cbn [k_spcx k_spcy]. replace (if h then map (fun r => nth 1 r 0) (q_rows s) else map (fun r => nth 1 r 0) (q_rows s)) with (map (fun r => nth 1 r 0) (q_rows s)) by (destruct h; reflexivity).
  set (ds := map (fun r => nth 1 r 0) (q_rows s)) in *. unfold find1_max.
  destruct L as (Li & _). rewrite map_length in Li. assert (Ld : length ds = length (q_rows s)) by apply map_length.
  rewrite (nth_error_nth' ds 0) by lia.
  replace (nth 1 (nth i (q_rows s) []) 0) with (nth i ds 0); [apply S2; lia|].
  unfold ds. rewrite (nth_indep (map _ _) 0 (nth 1 [] 0)) by (rewrite map_length; exact Li). rewrite (map_nth (fun r => nth 1 r 0)). reflexivity.
Qed.
Lemma fold_max_ge (f : crule -> Z) : forall l m, m <= fold_left (fun m r => Z.max m (f r)) l m /\ forall r, In r l -> f r <= fold_left (fun m r => Z.max m (f r)) l m.
Proof.
  induction l as [|x l IH]; intros m; cbn [fold_left]; [split; [lia|intros r []]|]. destruct (IH (Z.max m (f x))) as [A B].
  split; [lia|]. intros r [<- |I]; [lia|apply B, I].
Qed.
Lemma layer_in stmts s : In s stmts -> good_cstmt s -> In (rule_of s) (layer_corner stmts).
Proof. intros I G. unfold layer_corner. apply in_flat_map. exists s. split; [exact I|]. rewrite (lef_good s G). left. reflexivity. Qed.
(* three numbers after every WIDTH, at least two rows *)
Definition two_spacings (s : cstmt) : Prop := (2 <= length (q_rows s))%nat /\ Forall (fun r => length r = 3%nat) (q_rows s).
Lemma lef_two s con : two_spacings s -> lef_corner s = Some con -> k_samexy con = false.
Proof.
  intros (L & F). unfold lef_corner. destruct (entries (q_rows s)) as [num|] eqn:E; [|discriminate]. intros H. injection H as <-. cbn [k_samexy].
  unfold entries in E. destruct (q_rows s) as [|r [|r' rest]]; [cbn in L; lia..|]. inversion F as [|? ? E3 _]. rewrite E3 in E. change (Z.min (Z.of_nat 3) 3) with 3 in E. cbv zeta in E.
  destruct (forallb _ _); [|discriminate E]. injection E as <-. reflexivity.
Qed.

(* ---- routed metal ---- *)
Lemma near_routed_iff V m r : near_routed V m r = true <-> routed_near V m r.
Proof.
  unfold near_routed, routed_near. cbv zeta. set (w := box_and _ _).
  assert (W : forall x y, square_in x y w <-> square_in x y (gbox r) /\ square_in x y (my_bloat m (box_width (gbox r)))).
  { intros x y. unfold w, rwidth. generalize (my_bloat m (box_width (gbox r))) (gbox r). intros u v. unfold square_in, box_and. bx u; bx v; bxs. lia. }
  rewrite Nat.ltb_lt. unfold area_in.
  pose proof (filter_le (fun c => existsb (cell_in c) (kv_fixed V (gnet r))) (cells w)) as Le.
  pose proof (filter_all (fun c => existsb (cell_in c) (kv_fixed V (gnet r))) (cells w)) as Al.
  split.
  - intros Lt. destruct (existsb (fun c => negb (existsb (cell_in c) (kv_fixed V (gnet r)))) (cells w)) eqn:E.
    + apply existsb_exists in E as ([x y] & I & H). apply cells_square in I. apply W in I as [I1 I2]. exists x, y. split; [exact I1|]. split; [exact I2|].
      intros F. apply cover_iff in F. rewrite F in H. discriminate.
    + exfalso. assert (X : forall c, In c (cells w) -> existsb (cell_in c) (kv_fixed V (gnet r)) = true).
      { intros c I. destruct (existsb (cell_in c) (kv_fixed V (gnet r))) eqn:H; [reflexivity|]. exfalso.
        assert (existsb (fun c => negb (existsb (cell_in c) (kv_fixed V (gnet r)))) (cells w) = true); [|congruence].
        apply existsb_exists. exists c. rewrite H. auto. }
      apply Al in X. lia.
  - intros (x & y & S1 & S2 & N). assert (NE : length (filter (fun c => existsb (cell_in c) (kv_fixed V (gnet r))) (cells w)) <> length (cells w)).
    { intros E. apply (proj1 Al) with (x := (x, y)) in E; [apply cover_iff in E; exact (N E)|]. apply cells_square, W. auto. }
    lia.
Qed.

Lemma touch_point p b : inside p b -> box_overlaps (pt_box p) b true = true.
Proof.
  destruct p as [x y]. unfold inside, box_overlaps, pt_box. bx b; bxs. cbn [px py]. intros I.
  apply negb_true_iff, orb_false_iff. rewrite !orb_false_iff, Z.ltb_ge, Z.ltb_ge, !Z.gtb_ltb, !Z.ltb_ge. lia.
Qed.

(* ---- one corner, one rectangle, one rule ---- *)
Section Pair.
Variables (V : kenv) (c : list oedge) (stmts : list cstmt).
Hypothesis CO : closed_outline c.
Hypothesis Nc : c <> [].
Hypothesis GV : good_kenv V.
Hypothesis RV : kv_rules V = layer_corner stmts.
Definition guards (k : corner) (con : crule) (b : grect) : Prop :=
  (if k_convex con then c_kind k = Convex else c_kind k = Concave) /\ contains_pt (gbox b) (c_pt k) = false /\
  (k_convex con && corner_prl k (gbox b)) = false /\ corner_exempt k con = false.
Lemma corner_rect_grows k b con ms :
  grows (fun m => guards k con b /\ (exists a, In a (query_max V (pt_box (c_pt k))) /\ pair_cond V k con a b) /\ m = corner_mark V k con b) ms (corner_rect V k b ms con).
Proof.
  unfold corner_rect, guards. cbv zeta.
  destruct (match (if k_convex con then Convex else Concave) with Convex => _ | Concave => _ | Straight => _ end) eqn:E; cbn [negb].
  2: { apply grows_none. intros m ((G & _) & _). destruct (k_convex con); rewrite G in E; discriminate. }
  assert (K : if k_convex con then c_kind k = Convex else c_kind k = Concave) by (destruct (k_convex con), (c_kind k); try discriminate; reflexivity).
  destruct (contains_pt (gbox b) (c_pt k)) eqn:E1; [apply grows_none; intros m ((_ & G & _) & _); discriminate|].
  destruct (k_convex con && corner_prl k (gbox b)) eqn:E2; [apply grows_none; intros m ((_ & _ & G & _) & _); discriminate|].
  destruct (corner_exempt k con) eqn:E3; [apply grows_none; intros m ((_ & _ & _ & G) & _); discriminate|].
  eapply grows_ext; [|apply corner_loop_grows]. intros m. cbn beta. tauto.
Qed.
Lemma exempt_iff s i : let k := corner_at c i in good_cstmt s -> c_kind k = (if q_convex s then Convex else Concave) ->
  corner_exempt k (rule_of s) = false <-> (q_convex s = true -> forall w, q_eol s = Some w -> ~ at_end w (c_pp k) (c_p k) (c_n k) (c_nn k)).
Proof.
  cbv zeta. set (k := corner_at c i). intros (_ & _ & _ & _ & G) K. destruct (corner_facts c CO Nc i) as (S1 & S2 & S3 & S4 & M1 & M2 & M3). fold k in S1, S2, S3, S4, M1, M2, M3.
  unfold corner_exempt, rule_of. cbn [k_eol]. rewrite K. destruct (q_convex s); cbn [is_convex].
  2: { split; [discriminate|]. intros _. rewrite andb_false_r. reflexivity. }
  rewrite andb_true_r. destruct (q_eol s) as [w|]; [|cbn; split; [discriminate|reflexivity]].
  assert (W : 0 <= w) by (apply G; reflexivity). destruct (Z.eqb_spec w (-1)); [lia|]. cbn [negb andb]. rewrite !seg_len by assumption.
  assert (C : forall p n, straight p -> o_high p = o_low n -> is_convex (kind p n) = true <-> turns_in p n).
  { intros u v Su M. rewrite <- (kind_convex u v Su M). destruct (kind u v); cbn; split; congruence. }
  pose proof (C _ _ S3 M3) as C1. pose proof (C _ _ S1 M1) as C2. unfold at_end.
  rewrite orb_false_iff, !andb_false_iff, !Z.ltb_ge. split.
  - intros [A B] _ w' E [[T L]|[T L]]; injection E as <-.
    + destruct A as [A|A]; [apply C1 in T; congruence|lia].
    + destruct B as [B|B]; [apply C2 in T; congruence|lia].
  - intros H. specialize (H eq_refl w eq_refl). split.
    + destruct (is_convex (kind (c_n k) (c_nn k))) eqn:Q; [right|left; reflexivity]. destruct (Z.le_gt_cases w (len (c_n k))); [assumption|]. exfalso. apply H. left. split; [apply C1; reflexivity|lia].
    + destruct (is_convex (kind (c_pp k) (c_p k))) eqn:Q; [right|left; reflexivity]. destruct (Z.le_gt_cases w (len (c_p k))); [assumption|]. exfalso. apply H. right. split; [apply C2; reflexivity|lia].
Qed.
Lemma pair_iff s i b : let k := corner_at c i in In s stmts -> good_cstmt s -> In b (kv_rects V) ->
  (In b (query_max V (corner_query V k)) /\ guards k (rule_of s) b /\ exists a, In a (query_max V (pt_box (c_pt k))) /\ pair_cond V k (rule_of s) a b) <->
  exists a, In a (kv_rects V) /\ gnet a = o_net (c_n k) /\ breaks_corner s (c_pp k) (c_p k) (c_n k) (c_nn k) (gbox a) (gbox b) /\ routed_pair V (c_pt k) a b.
Proof.
  cbv zeta. set (k := corner_at c i). intros Is G Ib. destruct (corner_facts c CO Nc i) as (S1 & S2 & S3 & S4 & M1 & M2 & M3). fold k in S1, S2, S3, S4, M1, M2, M3.
  pose proof (GV b Ib) as Sb. change (solidb (gbox b)) in Sb.
  assert (Gb : gen_intersect (pt_box (c_pt k)) (gbox b) = between (pt_box (c_pt k)) (gbox b)).
  { apply gen_intersect_between; [split; cbn; lia|]. destruct Sb as [Sb1 Sb2]. unfold bleft, bright, bbottom, btop in Sb1, Sb2. split; lia. }
  pose proof (kind_convex _ _ S2 M2) as KC. pose proof (kind_concave _ _ S2 M2) as KO. fold (c_kind k) in KC, KO.
  (* the frame, once the corner has the right kind *)
  assert (FR : turns_in (c_p k) (c_n k) \/ turns_out (c_p k) (c_n k) ->
    (forall a, solidb (gbox a) -> corner_overlap k (gbox a) = true <-> at_corner (c_p k) (c_n k) (gbox a)) /\
    (corner_prl k (gbox b) = false <-> one_side (c_p k) (gbox b) /\ one_side (c_n k) (gbox b)) /\
    (forall w, (In b (query_max V (corner_query V k)) /\ Z.max (deltaX (between (pt_box (c_pt k)) (gbox b))) (deltaY (between (pt_box (c_pt k)) (gbox b))) < k_find (rule_of s) w) <->
       near (k_find (rule_of s) w) (c_p k) (c_n k) (gbox b))).
  { intros T. destruct (frame _ _ S2 S3 M2 T) as [Dd Fr]. fold (c_dir k) in Dd, Fr. set (d := c_dir k) in *. unfold c_pt. set (x0 := px (o_low (c_n k))) in *. set (y0 := py (o_low (c_n k))) in *.
    assert (Pt : o_low (c_n k) = mkPt x0 y0) by (unfold x0, y0; destruct (o_low (c_n k)); reflexivity).
    split; [|split].
    - intros a Sa. pose proof (frame_overlap d x0 y0 Dd (gbox a) Sa) as F. unfold corner_overlap, c_pt, at_corner. fold d. fold x0 y0. rewrite F, Pt. 
      split; (intros [I H]; split; [exact I|]; intros q Iq; specialize (H q Iq); destruct Fr as [Fr|Fr]; destruct (Fr q) as [E1 E2]; rewrite E1, E2 in *; tauto).
    - pose proof (frame_side_x d x0 y0 Dd (gbox b) Sb) as FX. pose proof (frame_side_y d x0 y0 Dd (gbox b) Sb) as FY.
      unfold corner_prl, c_pt. fold x0 y0. rewrite orb_false_iff, !andb_false_iff, !Z.ltb_ge. unfold one_side.
      assert (EX : (bleft (gbox b) >= x0 \/ x0 >= bright (gbox b)) <-> ~ (bleft (gbox b) < x0 /\ x0 < bright (gbox b))) by lia.
      assert (EY : (bbottom (gbox b) >= y0 \/ y0 >= btop (gbox b)) <-> ~ (bbottom (gbox b) < y0 /\ y0 < btop (gbox b))) by lia.
      rewrite FX in EX. rewrite FY in EY.
      assert (HX : (x0 <= bleft (gbox b) \/ bright (gbox b) <= x0) <-> (bleft (gbox b) >= x0 \/ x0 >= bright (gbox b))) by lia.
      assert (HY : (y0 <= bbottom (gbox b) \/ btop (gbox b) <= y0) <-> (bbottom (gbox b) >= y0 \/ y0 >= btop (gbox b))) by lia.
      rewrite HX, HY, EX, EY. clear - Fr.
      destruct Fr as [Fr|Fr].
      + split; intros [A B]; (split; intros (q & q' & I & I' & H & H'); [apply A|apply B]); exists q, q'; rewrite ?(proj1 (Fr q)), ?(proj1 (Fr q')), ?(proj2 (Fr q)), ?(proj2 (Fr q')) in *; auto.
      + split; intros [A B]; (split; intros (q & q' & I & I' & H & H'); [apply B|apply A]); exists q, q'; rewrite ?(proj1 (Fr q)), ?(proj1 (Fr q')), ?(proj2 (Fr q)), ?(proj2 (Fr q')) in *; auto.
    - intros w. assert (Lx : forall h, k_find (rule_of s) w <= max_corner V h).
      { intros h. eapply Z.le_trans; [apply (find_le_max s w h G)|]. unfold max_corner. rewrite RV. apply (proj2 (fold_max_ge (fun r => k_max r h) _ 0)). apply layer_in; assumption. }
      pose proof (frame_near d x0 y0 Dd (gbox b) _ _ _ Sb (Lx true) (Lx false)) as F.
      unfold query_max. rewrite filter_In. unfold corner_query, c_pt. fold d. fold x0 y0. fold (qbox d x0 y0 (max_corner V true) (max_corner V false)). rewrite Pt.
      unfold near. split.
      + intros [[_ O] L]. destruct (proj2 F (conj O L)) as (z & I & A & B). exists z. split; [exact I|]. destruct Fr as [Fr|Fr]; destruct (Fr z) as [E1 E2]; rewrite E1, E2; auto.
      + intros (z & I & A & B). apply and_assoc. split; [exact Ib|]. apply F. exists z. split; [exact I|]. destruct Fr as [Fr|Fr]; destruct (Fr z) as [E1 E2]; rewrite E1, E2 in *; auto. }
  assert (CP : contains_pt (gbox b) (c_pt k) = false <-> ~ inside (o_low (c_n k)) (gbox b)).
  { unfold contains_pt, inside, c_pt. rewrite !andb_false_iff, !Z.leb_gt. lia. }
  unfold guards, pair_cond, breaks_corner, routed_pair. rewrite Gb. cbn [rule_of k_convex k_samexy].
  split.
  - intros (Iq & (K & C & Pr & Ex) & a & Ia & Na & Ov & _ & L & Fx & Rt). exists a. unfold query_max in Ia. apply filter_In in Ia as [Ia _].
    split; [exact Ia|]. split; [exact Na|].
    assert (T : turns_in (c_p k) (c_n k) \/ turns_out (c_p k) (c_n k)) by (destruct (q_convex s); [left; apply KC, K|right; apply KO, K]).
    destruct (FR T) as (FO & FP & FN). pose proof (exempt_iff s i G) as XI. cbv zeta in XI. fold k in XI.
    split; [split; [|split; [apply CP, C|split; [apply FO; [exact (GV a Ia)|exact Ov]|]]]|].
    + destruct (q_convex s); [|apply KO, K]. split; [apply KC, K|]. apply FP in Pr as [P1 P2]. split; [exact P1|]. split; [exact P2|]. apply XI; auto.
    + exists (k_find (rule_of s) (rwidth a)). split; [apply find_asks; [exact G|reflexivity]|]. apply FN. split; [exact Iq|exact L].
    + split; [intros [A B]; rewrite A, B in Fx; discriminate|]. apply orb_true_iff in Rt as [Rt|Rt]; [left|right]; apply near_routed_iff, Rt.
  - intros (a & Ia & Na & (Q & C & At & d & As & Nr) & (Fx & Rt)).
    assert (T : turns_in (c_p k) (c_n k) \/ turns_out (c_p k) (c_n k)) by (destruct (q_convex s); tauto).
    destruct (FR T) as (FO & FP & FN). pose proof (exempt_iff s i G) as XI. cbv zeta in XI. fold k in XI.
    apply (find_asks s _ _ G) in As. rewrite As in Nr. apply FN in Nr as [Iq L].
    assert (K : if q_convex s then c_kind k = Convex else c_kind k = Concave) by (destruct (q_convex s); [apply KC, Q|apply KO, Q]).
    split; [exact Iq|]. split; [split; [exact K|split; [apply CP, C|split]]|].
    + destruct (q_convex s); [|reflexivity]. cbn [andb]. apply FP. tauto.
    + apply XI; destruct (q_convex s); auto; try discriminate. intros _ w. apply (proj2 (proj2 (proj2 Q))).
    + exists a. split; [|split; [exact Na|split; [apply FO; [exact (GV a Ia)|exact At]|split; [reflexivity|split; [exact L|split]]]]].
      * unfold query_max. apply filter_In. split; [exact Ia|]. apply (touch_point _ _ (proj1 At)).
      * destruct (gfixed b) eqn:F1, (gfixed a) eqn:F2; try reflexivity. exfalso. apply Fx. auto.
      * apply orb_true_iff. destruct Rt as [Rt|Rt]; [left|right]; apply near_routed_iff, Rt.
Qed.
End Pair.
