From Verif Require Import Base Stl GeomModel GeomSpec GeomProofs TechModel GcModel GcSpec GcProofs GcProofs2 GcProofs3
  CostModel CutModel CutSpec CutProofs CutProofs2 EolModel EolSpec EolProofs EolProofs2.

(* ---- metal in the gap ---- *)
Definition gap_zone (e : oedge) (m : box) : box :=
  if deltaX m * deltaY m =? 0 then
    match seg_dir e with
    | EW | EE => mkBox (mkPt (bleft m - 1) (bbottom m)) (mkPt (bright m + 1) (btop m))
    | _ => mkBox (mkPt (bleft m) (bbottom m - 1)) (mkPt (bright m) (btop m + 1))
    end
  else m.
Definition blockedb (V : oenv) (e f : oedge) : bool :=
  let b := gap_zone e (gen_intersect (edge_rect e) (edge_rect f)) in
  existsb (fun r => box_overlaps b (gbox r) true && box_overlaps b (gbox r) false) (v_rects V).
Lemma gap_zone_eq e m : straight e ->
  gap_zone e m = (if deltaX m * deltaY m =? 0 then widened e m else m).
Proof.
  intros H. unfold gap_zone, widened. destruct (_ =? 0); [|reflexivity].
  dirs e H; rewrite D; destruct (Z.eqb_spec (py (o_low e)) (py (o_high e))); try reflexivity; lia.
Qed.
Lemma no_area_iff m : no_area m <-> deltaX m * deltaY m = 0.
Proof. unfold no_area, deltaX, deltaY. rewrite Z.mul_eq_0. lia. Qed.
Lemma overlap_enters a b :
  (box_overlaps b a true && box_overlaps b a false = true <-> enters a b).
Proof. unfold box_overlaps, enters. rewrite andb_true_iff, !negb_true_iff, !orb_false_iff. bx a; bx b; bxs. lia. Qed.
Lemma blocked_iff V s e f : straight e -> straight f -> faces s e f -> (blockedb V e f = true <-> blocked V e f).
Proof.
  intros He Hf F. unfold blockedb, blocked. cbv zeta. rewrite (gap_eq s e f He Hf F), (gap_zone_eq e _ He), existsb_exists.
  destruct (Z.eqb_spec (deltaX (gap e f) * deltaY (gap e f)) 0) as [N|N]; rewrite <- no_area_iff in N;
    split; intros (r & I & H); exists r; (split; [exact I|]).
  - rewrite overlap_enters in H. tauto.
  - rewrite overlap_enters. tauto.
  - rewrite overlap_enters in H. tauto.
  - rewrite overlap_enters. tauto.
Qed.

(* ---- the loop over the edges in front ---- *)
Definition mark_of (V : oenv) (c : eolrule) (e f : oedge) : marker :=
  mkMk (gen_intersect (edge_rect e) (edge_rect f)) (v_lnum V) (n_id c) (o_net e) (o_net f).
Lemma eol_marker_grows V c e f ms :
  grows (fun m => blockedb V e f = false /\ m = mark_of V c e f) ms (eol_marker V c e f ms).
Proof.
  unfold eol_marker. cbv zeta. fold (gap_zone e (gen_intersect (edge_rect e) (edge_rect f))).
  change (existsb _ (v_rects V)) with (blockedb V e f).
  fold (mark_of V c e f). destruct (blockedb V e f).
  - split; [apply incl_refl|]. split; [intros m [? _]; discriminate|auto].
  - split; [apply add_marker_incl|]. split.
    + intros m [_ ->]. apply add_marker_reports.
    + intros m H. apply add_marker_inv in H as [H| ->]; auto.
Qed.
Definition loop_found (V : oenv) (c : eolrule) (e : oedge) (q : box) (es : list oedge) (hr : bool) (m : marker) : Prop :=
  exists pre f post, es = pre ++ f :: post /\ eol_qual e q f = true /\
    hr || existsb (fun f => eol_qual e q f && is_routed V q f) (pre ++ [f]) = true /\
    blockedb V e f = false /\ m = mark_of V c e f.
Lemma loop_found_cons V c e q f es hr m :
  loop_found V c e q (f :: es) hr m <->
  (eol_qual e q f = true /\ hr || is_routed V q f = true /\ blockedb V e f = false /\ m = mark_of V c e f) \/
  loop_found V c e q es (hr || (eol_qual e q f && is_routed V q f)) m.
Proof.
  split.
  - intros (pre & g & post & E & Q & R & B & M). destruct pre as [|x pre]; cbn [app] in *; injection E as -> ->.
    + left. cbn [existsb] in R. rewrite Q, orb_false_r in R. auto.
    + right. exists pre, g, post. cbn [existsb] in R. rewrite orb_assoc in R. auto.
  - intros [(Q & R & B & M)|(pre & g & post & -> & Q & R & B & M)].
    + exists [], f, es. cbn [app existsb]. rewrite Q, orb_false_r. auto.
    + exists (f :: pre), g, post. cbn [app existsb]. rewrite orb_assoc. auto.
Qed.
Lemma grows_trans (P Q : marker -> Prop) a b c : grows P a b -> grows Q b c -> grows (fun m => P m \/ Q m) a c.
Proof.
  intros (A1 & A2 & A3) (B1 & B2 & B3). split; [eapply incl_tran; eauto|]. split.
  - intros m [H|H]; [eapply reports_incl; [exact B1|auto]|auto].
  - intros m H. destruct (B3 m H) as [H1|H1]; [|auto]. destruct (A3 m H1); auto.
Qed.
Lemma grows_none (P : marker -> Prop) a : (forall m, ~ P m) -> grows P a a.
Proof. intros N. split; [apply incl_refl|]. split; [intros m H; destruct (N m H)|auto]. Qed.
Lemma eol_loop_grows V c e q : forall es hr ms, grows (loop_found V c e q es hr) ms (eol_loop V c e q es hr ms).
Proof.
  induction es as [|f es IH]; intros hr ms; cbn [eol_loop].
  - apply grows_none. intros m (pre & f & post & E & _). destruct pre; discriminate.
  - assert (K : forall hr', (eol_qual e q f = false \/ hr || is_routed V q f = false) ->
       hr' = (hr || (eol_qual e q f && is_routed V q f)) ->
       grows (loop_found V c e q (f :: es) hr) ms (eol_loop V c e q es hr' ms)).
    { intros hr' N ->. eapply grows_ext; [|apply IH]. intros m. rewrite loop_found_cons.
      split; [auto|]. intros [(Q & R & _)|H]; [destruct N; congruence|exact H]. }
    cbv zeta. destruct (opposite_dir (seg_dir e) (seg_dir f)) eqn:O; cbn [negb].
    2: { apply K; unfold eol_qual; rewrite O; cbn [andb]; [auto|]. rewrite orb_false_r. reflexivity. }
    destruct (box_overlaps q (edge_rect f) false) eqn:B; cbn [negb].
    2: { apply K; unfold eol_qual; rewrite O, B; cbn [andb]; [auto|]. rewrite orb_false_r. reflexivity. }
    assert (Q : eol_qual e q f = true) by (unfold eol_qual; rewrite O, B; reflexivity).
    assert (HR : (if negb hr && negb (o_fixed f) then route_area V (o_net f) (box_and q (edge_rect f)) else hr) = hr || is_routed V q f).
    { unfold is_routed. destruct hr, (o_fixed f); cbn [negb andb orb]; reflexivity. }
    rewrite HR. destruct (hr || is_routed V q f) eqn:R; cbn [negb].
    2: { apply K; [auto|]. rewrite Q. cbn [andb]. congruence. }
    eapply grows_ext; [|eapply grows_trans; [apply eol_marker_grows|apply IH]].
    intros m. cbv beta. rewrite loop_found_cons, Q. cbn [andb]. rewrite R. tauto.
Qed.

(* ---- one end ---- *)
Definition edge_found (V : oenv) (s : eolstmt) (t : oedge * oedge * oedge) (m : marker) : Prop :=
  let '(prev, e, next) := t in
  is_eol_edge (lef_eol s) prev e next = true /\
  let hr := if negb (o_fixed e) then route_area V (o_net e) (edge_rect e) else false in
  fst (has_parallel V (lef_eol s) e hr) = true /\
  loop_found V (lef_eol s) e (eol_query (lef_eol s) e) (query_oedges V (eol_query (lef_eol s) e))
    (snd (has_parallel V (lef_eol s) e hr)) m.
Lemma check_eol_edge_grows V s t ms : grows (edge_found V s t) ms (check_eol_edge V (lef_eol s) t ms).
Proof.
  destruct t as [[prev e] next]. unfold check_eol_edge, edge_found.
  destruct (is_eol_edge _ _ _ _); cbn [negb]; [|apply grows_none; intros m [H _]; discriminate H].
  cbv zeta. set (hr := if negb (o_fixed e) then _ else _).
  destruct (fst (has_parallel V (lef_eol s) e hr)); cbn [negb]; [|apply grows_none; intros m (_ & H & _); discriminate H].
  eapply grows_ext; [|apply eol_loop_grows]. intros m. cbv beta. tauto.
Qed.
Lemma n_id_eq s : n_id (lef_eol s) = t_id s.
Proof. unfold lef_eol. destruct (t_par s) as [[[? ?] ?]|]; reflexivity. Qed.
Lemma mark_of_eq V s e f : straight e -> straight f -> faces s e f -> mark_of V (lef_eol s) e f = eol_violation V s e f.
Proof. intros He Hf F. unfold mark_of, eol_violation. rewrite (gap_eq s e f He Hf F), n_id_eq. reflexivity. Qed.
Lemma edge_found_complete V s prev e next f :
  good_env V -> good_stmt s -> straight e -> o_high prev = o_low e -> o_high e = o_low next ->
  In f (v_edges V) -> breaks_eol V s prev e next f -> (end_routed V s e \/ front_routed V s e f) ->
  edge_found V s (prev, e, next) (eol_violation V s e f).
Proof.
  intros GV G He C1 C2 I (W & Bd & F & NB) R. pose proof (GV _ I) as Hf. cbn [edge_found].
  split; [apply wire_end_iff; assumption|]. cbv zeta.
  set (hr := if negb (o_fixed e) then _ else _).
  destruct (has_parallel_spec V s e hr GV He G (edge_routed V e He)) as [P1 P2].
  split; [apply P1; exact Bd|].
  assert (Iq : In f (query_oedges V (eol_query (lef_eol s) e))).
  { apply query_found; [exact Hf|exact I|]. destruct F as (_ & x & y & A & B). exists x, y.
    rewrite behind_rect in A by exact Hf. rewrite front_box in B by exact He. tauto. }
  destruct (in_split _ _ Iq) as (pre & post & E). exists pre, f, post. split; [exact E|].
  split; [apply eol_qual_iff; assumption|]. split.
  - rewrite orb_true_iff, existsb_exists. destruct R as [R|R]; [left; apply P2; exact R|]. right. exists f.
    split; [apply in_or_app; right; left; reflexivity|]. rewrite andb_true_iff. split; [apply eol_qual_iff; assumption|].
    eapply is_routed_iff; [exact Hf|intros; apply front_box; exact He|exact R].
  - split; [|rewrite mark_of_eq by assumption; reflexivity].
    destruct (blockedb V e f) eqn:B; [|reflexivity]. apply (blocked_iff V s e f He Hf F) in B. contradiction.
Qed.
Lemma edge_found_sound V s prev e next m :
  good_env V -> good_stmt s -> straight e -> o_high prev = o_low e -> o_high e = o_low next ->
  edge_found V s (prev, e, next) m ->
  exists f, In f (v_edges V) /\ breaks_eol V s prev e next f /\ m = eol_violation V s e f /\
    (end_routed V s e \/ exists f', In f' (v_edges V) /\ faces s e f' /\ front_routed V s e f').
Proof.
  intros GV G He C1 C2. cbn [edge_found]. intros (W & P & (pre & f & post & E & Q & R & B & M)).
  set (hr := if negb (o_fixed e) then _ else _) in *.
  destruct (has_parallel_spec V s e hr GV He G (edge_routed V e He)) as [P1 P2].
  assert (I : forall g, In g (pre ++ [f]) -> In g (v_edges V)).
  { intros g Ig. eapply query_sub. rewrite E. apply in_app_or in Ig as [Ig|[<- |[]]]; apply in_or_app; [left|right; left]; auto. }
  assert (If : In f (v_edges V)) by (apply I, in_or_app; right; left; reflexivity).
  pose proof (GV _ If) as Hf. apply (eol_qual_iff s e f He Hf G) in Q. exists f. split; [exact If|].
  split; [|split; [rewrite M, mark_of_eq by assumption; reflexivity|]].
  - split; [apply wire_end_iff; assumption|]. split; [apply P1; exact P|]. split; [exact Q|].
    intros BB. apply (blocked_iff V s e f He Hf Q) in BB. congruence.
  - rewrite orb_true_iff, existsb_exists in R. destruct R as [R|(g & Ig & R)]; [left; apply P2; exact R|].
    right. exists g. split; [apply I; exact Ig|]. rewrite andb_true_iff in R. destruct R as [R1 R2].
    split; [apply eol_qual_iff; auto|].
    eapply is_routed_iff; [apply GV, I, Ig|intros; apply front_box; exact He|exact R2].
Qed.

(* ---- outlines ---- *)
Lemma nth_error_combine {X Y} (a : list X) (b : list Y) i x y : 
  nth_error (combine a b) i = Some (x, y) <-> nth_error a i = Some x /\ nth_error b i = Some y.
Proof.
  revert a b. induction i as [|i IH]; intros [|u a] [|v b]; cbn [combine nth_error];
    try (split; [discriminate|intros [? ?]; discriminate]).
  - split; [intros E; injection E as -> ->; auto|intros [E1 E2]; congruence].
  - apply IH.
Qed.
Lemma removelast_nth {X} (l : list X) i : (S i < length l)%nat -> nth_error (removelast l) i = nth_error l i.
Proof.
  revert i. induction l as [|x l IH]; intros i H; [cbn in H; lia|]. destruct l as [|y l]; [cbn in H; lia|].
  cbn [removelast]. destruct i; [reflexivity|]. cbn [nth_error]. apply IH. cbn [length] in *. lia.
Qed.
Lemma last_nth {X} (l : list X) d : l <> [] -> nth_error l (length l - 1) = Some (last l d).
Proof.
  induction l as [|x l IH]; [congruence|]. intros _. destruct l as [|y l]; [reflexivity|].
  replace (length (x :: y :: l) - 1)%nat with (S (length (y :: l) - 1))%nat by (cbn [length]; lia).
  cbn [nth_error]. rewrite IH by discriminate. reflexivity.
Qed.
Lemma with_prev_nth c i : (i < length c)%nat ->
  nth_error (with_prev c) i = nth_error c (if Nat.eqb i 0 then length c - 1 else i - 1).
Proof.
  intros H. destruct c as [|e c]; [cbn in H; lia|]. unfold with_prev. destruct i as [|i]; cbn [Nat.eqb].
  - rewrite (last_nth (e :: c) e) by discriminate. reflexivity.
  - cbn [nth_error]. rewrite removelast_nth by exact H. f_equal. lia.
Qed.
Lemma with_next_nth c i : (i < length c)%nat ->
  nth_error (with_next c) i = nth_error c (if Nat.eqb (S i) (length c) then 0 else S i).
Proof.
  intros H. destruct c as [|e c]; [cbn in H; lia|]. unfold with_next. destruct (Nat.eqb_spec (S i) (length (e :: c))) as [E|E].
  - cbn [length] in E. rewrite nth_error_app2 by lia. replace (i - length c)%nat with 0%nat by lia. reflexivity.
  - cbn [length] in *. rewrite nth_error_app1 by lia. reflexivity.
Qed.
Lemma triples_In c prev e next : In (prev, e, next) (triples c) <-> consecutive c prev e next.
Proof.
  unfold triples, consecutive. split.
  - intros I. apply In_nth_error in I as [i H]. rewrite !nth_error_combine in H. destruct H as [[A B] C].
    assert (L : (i < length c)%nat) by (apply nth_error_Some; congruence).
    exists i. rewrite <- with_prev_nth, <- with_next_nth by exact L. auto.
  - intros (i & L & B & A & C). rewrite <- with_prev_nth in A by exact L. rewrite <- with_next_nth in C by exact L.
    apply nth_error_In with i. rewrite !nth_error_combine. auto.
Qed.
