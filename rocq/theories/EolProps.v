(* End-of-line spacing: which violations the checker reports (C104), that it reports nothing else (C105), and
   what this means for the ends of two wires (C106). *)
From Coq Require Import Permutation.
From Verif Require Import Base Stl GeomModel GeomSpec GeomProofs TechModel GcModel GcSpec GcProofs GcProofs2 GcProofs3
  CostModel CutModel CutSpec CutProofs CutProofs2 EolModel EolSpec EolProofs EolProofs2 EolProofs3 EolProofs4.

(* ---- a demonstration layout: rectangles, each the whole metal of its net ---- *)
Record wire := mkWire { w_net : Z; w_box : box; w_fixed : bool }.
Definition w_outline (w : wire) : list oedge := contour (fun _ _ => w_fixed w) (w_net w) (rect_points (w_box w)).
Definition demo_v (stmts : list eolstmt) (ws : list wire) : oenv :=
  mkOV 4 (map lef_eol stmts)
    (fun n => map w_box (filter (fun w => (w_net w =? n) && negb (w_fixed w)) ws))
    (flat_map w_outline ws) (map (fun w => mkGR (w_net w) (w_box w) (w_net w) (w_fixed w)) ws).
Definition solid_b (b : box) : bool := (px (ll b) <? px (ur b)) && (py (ll b) <? py (ur b)).
Lemma demo_ok stmts ws : forallb (fun w => solid_b (w_box w)) ws = true ->
  good_env (demo_v stmts ws) /\ forall w, In w ws -> closed_outline (w_outline w).
Proof.
  intros F. rewrite forallb_forall in F.
  assert (C : forall w, In w ws -> closed_outline (w_outline w)).
  { intros w I. apply contour_closed, rect_rectilinear. specialize (F w I). unfold solid_b in F. split; lia. }
  split; [|exact C]. intros e I. cbn [demo_v v_edges] in I. apply in_flat_map in I as (w & Iw & Ie). eapply C; eauto.
Qed.
Definition bx4 (a b c d : Z) : box := mkBox (mkPt a b) (mkPt c d).

(* ---- C104: every violation is reported, and stays reported ---- *)
Theorem C104_eol_reported V stmts pins ms pin c prev e next s f :
  v_rules V = map lef_eol stmts -> good_env V ->
  In pin pins -> In c pin -> closed_outline c -> consecutive c prev e next ->
  In s stmts -> good_stmt s -> In f (v_edges V) ->
  breaks_eol V s prev e next f ->
  (end_routed V s e \/ front_routed V s e f) ->
  reports (check_eol V pins ms) (eol_violation V s e f) /\ incl ms (check_eol V pins ms).
Proof.
  intros R GV Ip Ic [St Ch] Cn Is G If B Rt.
  destruct (check_eol_grows V stmts pins ms R) as (A1 & A2 & _). split; [|exact A1].
  apply A2. exists pin. split; [exact Ip|]. exists c, prev, e, next, s. split; [exact Ic|]. split; [exact Cn|]. split; [exact Is|].
  destruct (Ch _ _ _ Cn) as [C1 C2].
  apply edge_found_complete; auto. apply St. destruct Cn as (i & _ & N & _). eapply nth_error_In; exact N.
Qed.
Print Assumptions C104_eol_reported.

(* a narrow routed wire between two neighbours, its end 60 below a fixed wire; PARALLELEDGE ... TWOEDGES *)
Definition ex_s : eolstmt := mkStmt 7 100 80 20 (Some (90, 50, true)).
Definition ex_ws : list wire :=
  [mkWire 1 (bx4 0 0 60 500) false; mkWire 2 (bx4 (-300) 560 300 600) true;
   mkWire 3 (bx4 (-100) 0 (-40) 500) true; mkWire 4 (bx4 100 0 160 490) true].
Example C104_nonvacuous :
  let V := demo_v [ex_s] ex_ws in
  let w := mkWire 1 (bx4 0 0 60 500) false in
  exists prev e next f, consecutive (w_outline w) prev e next /\ In f (v_edges V) /\
    breaks_eol V ex_s prev e next f /\ end_routed V ex_s e /\ good_stmt ex_s /\ good_env V /\ closed_outline (w_outline w) /\
    check_eol V [[w_outline w]] [] = [mkMk (bx4 0 500 60 560) 4 7 1 2].
Proof.
  cbv zeta. set (V := demo_v [ex_s] ex_ws). set (w := mkWire 1 _ false).
  destruct (demo_ok [ex_s] ex_ws eq_refl) as [GV CO].
  destruct (rect_consecutive (fun _ _ => false) 1 (bx4 0 0 60 500)) as (_ & _ & C2 & _).
  assert (G : good_stmt ex_s).
  { split; [reflexivity|]. split; [discriminate|]. intros ps pw two E. injection E as <- <- <-. cbn. lia. }
  exists (edge_n (fun _ _ => false) 1 (bx4 0 0 60 500) 1), (edge_n (fun _ _ => false) 1 (bx4 0 0 60 500) 2),
    (edge_n (fun _ _ => false) 1 (bx4 0 0 60 500) 3), (edge_n (fun _ _ => true) 2 (bx4 (-300) 560 300 600) 0).
  split; [exact C2|]. split; [vm_compute; tauto|].
  assert (CW : closed_outline (w_outline w)) by (apply CO; left; reflexivity).
  assert (Wd : forall e a b c d x y, straight e -> square_in x y (wbox e a b c d) -> window e a b c d x y)
    by (intros; apply window_box; assumption).
  split; [|split; [|split; [exact G|split; [exact GV|split; [exact CW|vm_compute; reflexivity]]]]].
  - split; [vm_compute; intuition discriminate|]. split.
    + unfold binds. cbn [ex_s t_par]. split.
      * exists (edge_n (fun _ _ => true) 4 (bx4 100 0 160 490) 3). split; [vm_compute; tauto|].
        split; [vm_compute; reflexivity|]. exists 100, 480. split; apply Wd; vm_compute; intuition discriminate.
      * exists (edge_n (fun _ _ => true) 3 (bx4 (-100) 0 (-40) 500) 1). split; [vm_compute; tauto|].
        split; [vm_compute; reflexivity|]. exists (-41), 490. split; apply Wd; vm_compute; intuition discriminate.
    + split.
      * split; [vm_compute; reflexivity|]. exists 0, 560. split; apply Wd; vm_compute; intuition discriminate.
      * intros (r & I & H). cbn in I. destruct I as [<- |[<- |[<- |[<- |[]]]]]; revert H; vm_compute; intuition discriminate.
  - left. split; [reflexivity|]. exists 0, 499, (bx4 0 0 60 500). split; [apply Wd; vm_compute; intuition discriminate|].
    split; [exact I|]. split; [vm_compute; tauto|vm_compute; intuition discriminate].
Qed.

(* ---- C105: nothing else is reported ---- *)
Theorem C105_eol_reports_real V stmts pins ms m :
  v_rules V = map lef_eol stmts -> good_env V -> Forall good_stmt stmts ->
  (forall pin c, In pin pins -> In c pin -> closed_outline c) ->
  In m (check_eol V pins ms) ->
  In m ms \/
  exists pin c prev e next s f, In pin pins /\ In c pin /\ consecutive c prev e next /\ In s stmts /\ In f (v_edges V) /\
    breaks_eol V s prev e next f /\ m = eol_violation V s e f /\
    (end_routed V s e \/ exists f', In f' (v_edges V) /\ faces s e f' /\ front_routed V s e f').
Proof.
  intros R GV GS CO I. rewrite Forall_forall in GS.
  destruct (check_eol_grows V stmts pins ms R) as (_ & _ & A3). destruct (A3 m I) as [H|(pin & Ip & c & prev & e & next & s & Ic & Cn & Is & H)]; [auto|].
  right. destruct (CO _ _ Ip Ic) as [St Ch]. destruct (Ch _ _ _ Cn) as [C1 C2].
  assert (He : straight e) by (apply St; destruct Cn as (i & _ & N & _); eapply nth_error_In; exact N).
  destruct (edge_found_sound V s prev e next m GV (GS _ Is) He C1 C2 H) as (f & If & B & M & Rt).
  exists pin, c, prev, e, next, s, f. auto 10.
Qed.
Print Assumptions C105_eol_reports_real.
(* a wire with a wide end, or an end further away, is not reported *)
Example C105_nonvacuous :
  check_eol (demo_v [mkStmt 7 100 80 20 None] [mkWire 1 (bx4 0 0 80 500) false; mkWire 2 (bx4 (-300) 560 300 600) false])
    [[w_outline (mkWire 1 (bx4 0 0 80 500) false)]] [] = [] /\
  check_eol (demo_v [mkStmt 7 60 80 20 None] [mkWire 1 (bx4 0 0 60 500) false; mkWire 2 (bx4 (-300) 560 300 600) false])
    [[w_outline (mkWire 1 (bx4 0 0 60 500) false)]] [] = [] /\
  check_eol (demo_v [mkStmt 7 61 80 20 None] [mkWire 1 (bx4 0 0 60 500) false; mkWire 2 (bx4 (-300) 560 300 600) false])
    [[w_outline (mkWire 1 (bx4 0 0 60 500) false)]] [] = [mkMk (bx4 0 500 60 560) 4 7 1 2].
Proof. vm_compute. auto. Qed.

(* Two fixed shapes are reported or not, depending on the order in which the search returns the edges near
   them: a routed edge returned first makes every later pair count as routed. *)
Theorem C105_fixed_pairs_refuted :
  exists V V' pins m, v_lnum V = v_lnum V' /\ v_rules V = v_rules V' /\ v_route V = v_route V' /\ v_rects V = v_rects V' /\
    Permutation (v_edges V) (v_edges V') /\
    In m (check_eol V pins []) /\ ~ reports (check_eol V' pins []) m /\
    v_route V (msrc1 m) = [] /\ v_route V (msrc2 m) = [] /\ msrc1 m <> msrc2 m /\ msrc1 m <> 0 /\ msrc2 m <> 0.
Proof.
  set (s := mkStmt 7 100 80 20 None).
  set (w1 := mkWire 1 (bx4 0 0 50 500) true). set (w2 := mkWire 2 (bx4 (-100) 560 20 600) false). set (w3 := mkWire 3 (bx4 30 560 200 600) true).
  exists (demo_v [s] [w1; w2; w3]),
    (mkOV 4 [lef_eol s] (v_route (demo_v [s] [w1; w2; w3])) (flat_map w_outline [w1; w3; w2]) (v_rects (demo_v [s] [w1; w2; w3]))),
    [[w_outline w1]], (mkMk (bx4 30 500 50 560) 4 7 1 3).
  repeat (split; [reflexivity|]). split; [apply Permutation_flat_map; constructor; constructor|].
  split; [vm_compute; tauto|]. split; [|vm_compute; intuition discriminate].
  intros (m' & I & _ & _ & _ & H). vm_compute in I. destruct I as [<- |[]].
  destruct (H 3) as [H1 _]; [discriminate|]. cbn in H1. destruct H1 as [E|E]; [auto|discriminate|discriminate].
Qed.
Print Assumptions C105_fixed_pairs_refuted.

(* ---- C106: the end of a routed wire too close to another wire ---- *)
Theorem C106_wire_end_reported V stmts pins ms s pin fa na a fb nb b :
  v_rules V = map lef_eol stmts -> good_env V -> In s stmts -> good_stmt s -> t_par s = None ->
  solid a -> solid b -> In pin pins -> In (contour fa na (rect_points a)) pin ->
  incl (contour fb nb (rect_points b)) (v_edges V) ->
  (forall p q, fa p q = false) -> In a (v_route V na) ->
  end_to_wire s a b ->
  (forall r, In r (v_rects V) -> gbox r = a \/ gbox r = b \/ ~ enters (gbox r) (my_bloat (between a b) 1)) ->
  reports (check_eol V pins ms) (mkMk (between a b) (v_lnum V) (t_id s) na nb).
Proof.
  intros R GV Is G NP Sa Sb Ip Ic Ib Fa Ra T NBl.
  destruct (wire_pair s fa na a fb nb b Sa Sb G T) as (prev & e & next & f & Cn & If & He & Hf & W & F & Gp & N1 & N2 & Fx & (x & y & B1 & B2) & NE).
  replace (mkMk (between a b) (v_lnum V) (t_id s) na nb) with (eol_violation V s e f)
    by (unfold eol_violation; rewrite Gp, N1, N2; reflexivity).
  destruct (C104_eol_reported V stmts pins ms pin (contour fa na (rect_points a)) prev e next s f) as [K _]; auto.
  - apply contour_closed, rect_rectilinear. exact Sa.
  - split; [exact W|]. split; [unfold binds; rewrite NP; exact I|]. split; [exact F|].
    intros (r & Ir & H). rewrite Gp in H.
    assert (E : enters (gbox r) (my_bloat (between a b) 1)).
    { destruct H as [[_ H]|[_ H]]; revert H; unfold widened, enters, my_bloat; [|destruct (_ =? _)];
        generalize (between a b); intros z; bx z; destruct (gbox r) as [[? ?] [? ?]]; bxs; lia. }
    assert (Z2 : enters (gbox r) (between a b) \/ enters (gbox r) (widened e (between a b))) by tauto.
    destruct (NBl r Ir) as [Eq|[Eq|N]]; [| |contradiction].
    + rewrite Eq in Z2. destruct Z2 as [Z2|Z2]; [exact (proj1 (NE _ (or_introl eq_refl)) Z2)|exact (proj1 (NE _ (or_intror eq_refl)) Z2)].
    + rewrite Eq in Z2. destruct Z2 as [Z2|Z2]; [exact (proj2 (NE _ (or_introl eq_refl)) Z2)|exact (proj2 (NE _ (or_intror eq_refl)) Z2)].
  - left. left. split; [rewrite Fx; apply Fa|]. exists x, y, a. rewrite N1. auto.
Qed.
Print Assumptions C106_wire_end_reported.
(* two wires end to end, 50 apart, another one 20 above the gap *)
Example C106_nonvacuous :
  let s := mkStmt 7 80 80 20 None in
  let ws := [mkWire 1 (bx4 0 0 500 60) false; mkWire 2 (bx4 550 70 900 130) true; mkWire 3 (bx4 0 200 900 260) true] in
  let V := demo_v [s] ws in
  good_stmt s /\ good_env V /\ end_to_wire s (bx4 0 0 500 60) (bx4 550 70 900 130) /\
  In (bx4 0 0 500 60) (v_route V 1) /\ incl (w_outline (mkWire 2 (bx4 550 70 900 130) true)) (v_edges V) /\
  (forall r, In r (v_rects V) -> gbox r = bx4 0 0 500 60 \/ gbox r = bx4 550 70 900 130 \/
     ~ enters (gbox r) (my_bloat (between (bx4 0 0 500 60) (bx4 550 70 900 130)) 1)) /\
  In (mkMk (bx4 500 60 550 70) 4 7 1 2) (check_eol V [[w_outline (mkWire 1 (bx4 0 0 500 60) false)]] []).
Proof.
  cbv zeta. split; [split; [reflexivity|split; [discriminate|discriminate]]|].
  split; [apply demo_ok; reflexivity|]. split; [left; vm_compute; intuition discriminate|].
  split; [vm_compute; tauto|]. split; [intros e He; cbn [demo_v v_edges flat_map]; rewrite !in_app_iff; auto|].
  split; [|vm_compute; tauto].
  intros r I. cbn in I. destruct I as [<- |[<- |[<- |[]]]]; [auto|auto|]. right; right. vm_compute. intuition discriminate.
Qed.
