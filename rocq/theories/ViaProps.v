(* Default vias. *)
From Verif Require Import Base GeomModel GcModel TwModel TwProofs ViaModel ViaSpec ViaProofs ViaProofs2.
From Coq Require Import Sorted String.
From Coq Require Import List.
Open Scope list_scope.

Section C133.
Variable dir : Z -> ldir.
Variable is_cut : Z -> bool.
Variable lname : Z -> string.
Variables bottom top brl : Z.
Notation init g := (init_default_vias dir is_cut lname bottom top brl g).
(* a via has its cuts on layer l *)
Definition cuts_on (l : Z) (v : vdef) : Prop := exists b r, v_cut v = (l, b) :: r.

Lemma on_layer_spec l v : on_layer l v = true <-> cuts_on l v.
Proof.
  unfold on_layer, layer_of, cuts_on. destruct (v_cut v) as [|[k b] r]; cbn; [split; [discriminate|intros (b & r & H); discriminate H]|]. rewrite Z.eqb_eq.
  split; [intros ->; eauto|intros (b' & r' & H); injection H as -> _ _; reflexivity].
Qed.
Lemma single_on l v : single_cut l v -> cuts_on l v.
Proof. intros [b H]. exists b, []. exact H. Qed.
Lemma lv_in vs l v : In v (layer_vias vs l) <-> In v vs /\ cuts_on l v.
Proof. unfold layer_vias. rewrite filter_In, on_layer_spec. reflexivity. Qed.
Lemma not_bad_complete vs l : is_cut l = true -> ~ bad dir is_cut brl vs l -> forall v, In v vs -> cuts_on l v -> complete v.
Proof.
  intros C B v Hv Hc. unfold bad in B. destruct (forallb all_shapes (layer_vias vs l)) eqn:E; [|exfalso; apply B; auto]. rewrite forallb_forall in E.
  apply complete_shapes, E, (proj2 (lv_in vs l v)). split; [exact Hv|exact Hc].
Qed.

(* C133 *)
(* Every cut layer from the bottom routing layer on has a default via: the best single-cut via of the layer, the last one of
   equally good ones, or a via made from it. *)
Theorem C133_default_is_best gen vs t : init gen vs = Some t -> forall l, bottom <= l <= top -> is_cut l = true -> brl <= l ->
  exists v, In v vs /\ single_cut l v /\ (forall w, In w vs -> single_cut l w -> ~ preferred dir w v) /\
    (exists pre post, vs = pre ++ v :: post /\ forall w, In w post -> single_cut l w -> preferred dir v w) /\
    match (if gen then gen_via dir lname l v else None) with
    | Some g => t_default t l = Some g /\ In g (t_vias t)
    | None => t_default t l = Some v
    end.
Proof.
  intros H l Hl C Bl. destruct (init_some _ _ _ _ _ _ _ _ _ H) as (_ & Ok & V & D & _). pose proof (not_bad_complete vs l C (Ok l Hl)) as Cm.
  assert (Cm' : forall w, In w vs -> single_cut l w -> complete w) by (intros w Hw Sw; apply Cm; [exact Hw|apply single_on, Sw]).
  destruct (ranked dir vs l 1) as [|v r] eqn:R; [exfalso; apply (Ok l Hl); split; [exact C|right; auto]|].
  destruct (ranked_head dir vs l v r R Cm') as (A1 & A2 & A3 & A4 & A5). exists v. split; [exact A1|]. split; [exact A2|]. split; [exact A4|]. split; [exact A5|].
  rewrite (D l Hl). unfold dflt, made. rewrite C, R. replace (l >=? brl) with true by lia. rewrite andb_true_r. destruct (if gen then gen_via dir lname l v else None) as [g|] eqn:M; [|reflexivity]. split; [reflexivity|].
  rewrite V. apply in_or_app. right. apply in_flat_map. exists l. split; [unfold layer_range; rewrite zrange_in; lia|]. unfold gens, made. rewrite C, R. replace (l >=? brl) with true by lia. rewrite andb_true_r, M. now left.
Qed.

(* Reading stops with an error exactly if a via lacks shapes or a routing cut layer has no single-cut via. *)
Theorem C133_stops_exactly gen vs : init gen vs = None <->
  (exists v, In v vs /\ v_cut v = []) \/
  (exists l, bottom <= l <= top /\ is_cut l = true /\
    ((exists v, In v vs /\ cuts_on l v /\ ~ complete v) \/ (brl <= l /\ forall v, In v vs -> ~ single_cut l v))).
Proof.
  rewrite init_none. split; (intros [(v & Hv & H)|(l & Hl & H)]; [left; exists v; split; [exact Hv|]|right; exists l; split; [exact Hl|]]).
  - unfold has_cut in H. destruct (v_cut v); [reflexivity|discriminate H].
  - destruct H as [C [H|[H B]]]; (split; [exact C|]).
    + left. assert (exists v, In v (layer_vias vs l) /\ all_shapes v = false) as (v & Hv & K).
      { clear -H. induction (layer_vias vs l) as [|v r IH]; cbn in H; [discriminate H|]. destruct (all_shapes v) eqn:E; [|exists v; split; [now left|exact E]]. destruct (IH H) as (w & Hw & K). exists w. split; [now right|exact K]. }
      apply lv_in in Hv as [Hv Hc]. exists v. split; [exact Hv|]. split; [exact Hc|]. intros Cv. apply complete_shapes in Cv. congruence.
    + destruct (forallb all_shapes (layer_vias vs l)) eqn:E.
      * right. split; [exact B|]. intros v Hv Sv. rewrite forallb_forall in E. assert (Cv : complete v) by (apply complete_shapes, E, (proj2 (lv_in vs l v)); split; [exact Hv|apply single_on, Sv]).
        destruct (ranked_all dir vs l v Hv Sv Cv) as (u & Hu & _). rewrite H in Hu. destruct Hu.
      * left. assert (exists v, In v (layer_vias vs l) /\ all_shapes v = false) as (v & Hv & K).
        { clear -E. induction (layer_vias vs l) as [|v r IH]; cbn in E; [discriminate E|]. destruct (all_shapes v) eqn:F; [|exists v; split; [now left|exact F]]. destruct (IH E) as (w & Hw & K). exists w. split; [now right|exact K]. }
        apply lv_in in Hv as [Hv Hc]. exists v. split; [exact Hv|]. split; [exact Hc|]. intros Cv. apply complete_shapes in Cv. congruence.
  - unfold has_cut. rewrite H. reflexivity.
  - destruct H as [C [(v & Hv & Hc & K)|[B K]]]; (split; [exact C|]).
    + left. apply not_true_is_false. intros E. rewrite forallb_forall in E. apply K, complete_shapes, E, (proj2 (lv_in vs l v)). split; [exact Hv|exact Hc].
    + right. split; [|exact B]. destruct (ranked dir vs l 1) as [|v r] eqn:R; [reflexivity|]. exfalso. destruct (ranked_in dir vs l v) as (A1 & A2 & _); [rewrite R; now left|]. exact (K v A1 A2).
Qed.
End C133.
Print Assumptions C133_default_is_best.
Print Assumptions C133_stops_exactly.

Lemma turn_upright b : upright b -> turn b = mkBox (mkPt (bbottom b) (bleft b)) (mkPt (btop b) (bright b)).
Proof. intros [A B]. unfold turn, box_set. rewrite !Z.gtb_ltb. replace (btop b <? bbottom b) with false by lia. replace (bright b <? bleft b) with false by lia. reflexivity. Qed.
Lemma gen_inv dir lname l v g : via_upright v -> complete v -> cuts_on l v -> gen_via dir lname l v = Some g ->
  exists b1 b2, v_l1 g = [(layer1 v, b1)] /\ v_l2 g = [(layer2 v, b2)] /\ v_cut g = [(l, bbox_of (v_cut v))] /\
    v_name g = (lname l ++ "_FR")%string /\ v_gen g = true /\ v_class g = None /\
    (b1 = bbox_of (v_l1 v) \/ mirrored (bbox_of (v_l1 v)) b1) /\ (b2 = bbox_of (v_l2 v) \/ mirrored (bbox_of (v_l2 v)) b2) /\
    lies_along (dir (layer1 v)) (v_l1 g) /\ lies_along (dir (layer2 v)) (v_l2 g).
Proof.
  intros U [C1 C2] (cb & cr & Ec). unfold gen_via, layer_of, layer1, layer2. rewrite Ec. destruct (v_l1 v) as [|[k1 x1] r1] eqn:E1; [contradiction|]. destruct (v_l2 v) as [|[k2 x2] r2] eqn:E2; [contradiction|]. cbn [fst].
  assert (U1 : upright (bbox_of ((k1, x1) :: r1))) by (apply bbox_upright; intros f Hf; apply U; rewrite E1; apply in_or_app; now left).
  assert (U2 : upright (bbox_of ((k2, x2) :: r2))) by (apply bbox_upright; intros f Hf; apply U; rewrite E2; apply in_or_app; right; apply in_or_app; now left).
  unfold enc_horz. set (B1 := bbox_of ((k1, x1) :: r1)) in *. set (B2 := bbox_of ((k2, x2) :: r2)) in *. rewrite (turn_upright B1 U1), (turn_upright B2 U2).
  destruct (negb (Bool.eqb (deltaX B1 >? deltaY B1) (is_dirH (dir k1))) || negb (Bool.eqb (deltaX B2 >? deltaY B2) (is_dirH (dir k2)))) eqn:T; [|discriminate]. intros H. injection H as <-. cbn [v_l1 v_l2 v_cut v_name v_gen v_class].
  eexists. eexists. split; [reflexivity|]. split; [reflexivity|]. split; [reflexivity|]. split; [reflexivity|]. split; [reflexivity|]. split; [reflexivity|].
  assert (M : forall b, mirrored b (mkBox (mkPt (bbottom b) (bleft b)) (mkPt (btop b) (bright b)))) by (intros b; unfold mirrored, bleft, bright, bbottom, btop; cbn; auto).
  assert (L : forall d k B, lies_along d [(k, if negb (Bool.eqb (deltaX B >? deltaY B) (is_dirH d)) then mkBox (mkPt (bbottom B) (bleft B)) (mkPt (btop B) (bright B)) else B)]).
  { intros d k B. unfold lies_along, bbox_of. cbn [fold_left snd]. rewrite Z.gtb_ltb. destruct B as [[xl yl] [xh yh]]. unfold deltaX, deltaY, bleft, bright, bbottom, btop. cbn [ll ur px py]. destruct (_ <? _) eqn:Q; destruct d; cbn [is_dirH Bool.eqb negb ll ur px py]; lia. }
  split; [destruct (negb _); [right; apply M|now left]|]. split; [destruct (negb (Bool.eqb (deltaX B2 >? deltaY B2) _)); [right; apply M|now left]|]. split; apply L.
Qed.
Lemma gen_none dir lname l v : complete v -> cuts_on l v -> gen_via dir lname l v = None -> lies_along (dir (layer1 v)) (v_l1 v) /\ lies_along (dir (layer2 v)) (v_l2 v).
Proof.
  intros [C1 C2] (cb & cr & Ec). unfold gen_via, layer_of, layer1, layer2. rewrite Ec. destruct (v_l1 v) as [|[k1 x1] r1] eqn:E1; [contradiction|]. destruct (v_l2 v) as [|[k2 x2] r2] eqn:E2; [contradiction|]. cbn [fst].
  unfold enc_horz. rewrite !Z.gtb_ltb. set (B1 := bbox_of ((k1, x1) :: r1)) in *. set (B2 := bbox_of ((k2, x2) :: r2)) in *.
  destruct (negb (Bool.eqb (deltaY B1 <? deltaX B1) (is_dirH (dir k1))) || negb (Bool.eqb (deltaY B2 <? deltaX B2) (is_dirH (dir k2)))) eqn:T; [discriminate|]. intros _. apply orb_false_iff in T as [T1 T2].
  apply negb_false_iff, Bool.eqb_prop in T1. apply negb_false_iff, Bool.eqb_prop in T2. unfold lies_along. fold B1 B2.
  split; [destruct (dir k1)|destruct (dir k2)]; cbn [is_dirH] in T1, T2; lia.
Qed.

(* With via generation on, the metal of every default via lies along its layers. *)
Theorem C133_default_lies_along dir is_cut lname bottom top brl vs t : init_default_vias dir is_cut lname bottom top brl true vs = Some t -> Forall via_upright vs ->
  forall l g, bottom <= l <= top -> is_cut l = true -> brl <= l -> t_default t l = Some g ->
    single_cut l g /\ lies_along (dir (layer1 g)) (v_l1 g) /\ lies_along (dir (layer2 g)) (v_l2 g).
Proof.
  intros H U l g Hl C B D. rewrite Forall_forall in U. destruct (C133_default_is_best dir is_cut lname bottom top brl true vs t H l Hl C B) as (v & Hv & Sv & _ & _ & K).
  destruct (init_some _ _ _ _ _ _ _ _ _ H) as (_ & Ok & _ & Df & _). pose proof (not_bad_complete dir is_cut brl vs l C (Ok l Hl) v Hv (single_on l v Sv)) as Cv.
  destruct (gen_via dir lname l v) as [g'|] eqn:G.
  - destruct K as [K _]. rewrite D in K. injection K as <-. destruct (gen_inv dir lname l v g (U v Hv) Cv (single_on l v Sv) G) as (b1 & b2 & L1 & L2 & Lc & _ & _ & _ & _ & _ & A1 & A2).
    split; [exists (bbox_of (v_cut v)); exact Lc|]. unfold layer1 at 1, layer2 at 1. rewrite L1, L2 in *. auto.
  - rewrite D in K. injection K as <-. split; [exact Sv|]. apply (gen_none dir lname l g Cv (single_on l g Sv) G).
Qed.
Print Assumptions C133_default_lies_along.

(* The vias of the technology stay; each via added is the default via of a cut layer, made from a via of the layer: the same cut,
   each metal box as it was or mirrored at the diagonal. *)
Theorem C133_added_vias dir is_cut lname bottom top brl gen vs t : init_default_vias dir is_cut lname bottom top brl gen vs = Some t -> Forall via_upright vs ->
  exists new, t_vias t = vs ++ new /\ (gen = false -> new = []) /\
    forall g, In g new -> exists l v, bottom <= l <= top /\ is_cut l = true /\ brl <= l /\ t_default t l = Some g /\ In v vs /\ single_cut l v /\
      v_cut g = v_cut v /\ v_name g = (lname l ++ "_FR")%string /\ v_gen g = true /\
      exists b1 b2, v_l1 g = [(layer1 v, b1)] /\ v_l2 g = [(layer2 v, b2)] /\
        (b1 = bbox_of (v_l1 v) \/ mirrored (bbox_of (v_l1 v)) b1) /\ (b2 = bbox_of (v_l2 v) \/ mirrored (bbox_of (v_l2 v)) b2).
Proof.
  intros H U. rewrite Forall_forall in U. destruct (init_some _ _ _ _ _ _ _ _ _ H) as (_ & Ok & V & D & _). eexists. split; [exact V|]. split.
  - intros ->. clear. induction (layer_range bottom top) as [|l r IH]; cbn [flat_map]; [reflexivity|]. rewrite IH, app_nil_r. unfold gens, made. cbn [andb]. destruct (is_cut l); [|reflexivity]. destruct (ranked dir vs l 1); reflexivity.
  - intros g Hg. apply in_flat_map in Hg as (l & Hl & Hg). unfold layer_range in Hl. rewrite zrange_in in Hl. unfold gens in Hg. destruct (is_cut l) eqn:C; [|destruct Hg]. destruct (ranked dir vs l 1) as [|v r] eqn:R; [destruct Hg|].
    destruct (made dir lname brl gen l v) as [g'|] eqn:M; [|destruct Hg]. destruct Hg as [->|[]]. exists l, v. destruct (ranked_in dir vs l v) as (Iv & Sv & Cv); [rewrite R; now left|].
    pose proof M as M'. unfold made in M'. destruct gen; [|discriminate M']. cbn [andb] in M'. destruct (l >=? brl) eqn:B; [|discriminate M'].
    split; [lia|]. split; [exact C|]. split; [lia|]. split; [rewrite (D l) by lia; unfold dflt; rewrite C, R, M; reflexivity|]. split; [exact Iv|]. split; [exact Sv|].
    destruct (gen_inv dir lname l v g (U v Iv) Cv (single_on l v Sv) M') as (b1 & b2 & L1 & L2 & Lc & N & G & _ & M1 & M2 & _).
    split; [destruct Sv as [b Eb]; rewrite Lc, Eb; reflexivity|]. split; [exact N|]. split; [exact G|]. exists b1, b2. auto.
Qed.
Print Assumptions C133_added_vias.

(* A via made by the router covers its cut if the cut is a square centred like its metal (mirror-symmetric about the diagonal). *)
Theorem C133_cut_stays_covered dir lname l v g b : via_upright v -> complete v -> v_cut v = [(l, b)] -> mirrored b b ->
  contains_box (bbox_of (v_l1 v)) b -> contains_box (bbox_of (v_l2 v)) b -> gen_via dir lname l v = Some g ->
  v_cut g = [(l, b)] /\ contains_box (bbox_of (v_l1 g)) b /\ contains_box (bbox_of (v_l2 g)) b.
Proof.
  intros U C E S C1 C2 G. destruct (gen_inv dir lname l v g U C (ex_intro _ b (ex_intro _ [] E)) G) as (b1 & b2 & L1 & L2 & Lc & _ & _ & _ & M1 & M2 & _).
  rewrite L1, L2, Lc, E. cbn [bbox_of fold_left snd]. split; [reflexivity|]. unfold mirrored, contains_box in *. split; [destruct M1 as [->|M]|destruct M2 as [->|M]]; lia.
Qed.
Print Assumptions C133_cut_stays_covered.

(* The vias tried at access points: single-cut vias of the layer in strict order of preference; every single-cut via is in the
   full list or an equally good one is. *)
Theorem C133_access_vias dir vs l : (forall w, In w vs -> single_cut l w -> complete w) ->
  exists full, trial_vias dir vs l = firstn 2 full /\ StronglySorted (preferred dir) full /\ NoDup full /\
    (forall v, In v full -> In v vs /\ single_cut l v) /\
    (forall w, In w vs -> single_cut l w -> exists v, In v full /\ ~ preferred dir v w /\ ~ preferred dir w v).
Proof.
  intros Cm. exists (ranked dir vs l 1). split; [reflexivity|]. pose proof (ranked_sorted dir vs l) as S. split; [exact S|]. split; [|split].
  - assert (Cf : forall v, In v (ranked dir vs l 1) -> complete v) by (intros v Hv; apply (ranked_in dir vs l v Hv)). clear Cm. induction S as [|v r S IH F]; [constructor|]. constructor; [|apply IH; intros u Hu; apply Cf; now right].
    intros Hv. rewrite Forall_forall in F. apply (raw_not_preferred dir v v); [apply Cf; now left|apply Cf; now left|reflexivity|apply F, Hv].
  - intros v Hv. destruct (ranked_in dir vs l v Hv) as (A & B & _). auto.
  - intros w Hw Sw. destruct (ranked_all dir vs l w Hw Sw (Cm w Hw Sw)) as (v & Hv & E). exists v. split; [exact Hv|]. destruct (ranked_in dir vs l v Hv) as (_ & _ & Cv). pose proof (Cm w Hw Sw) as Cw.
    split; apply raw_not_preferred; auto.
Qed.
Print Assumptions C133_access_vias.

(* A cut layer without a width in the LEF gets the shorter side of the cut of its default via. *)
Theorem C133_cut_width dir is_cut lname bottom top brl gen vs t w : init_default_vias dir is_cut lname bottom top brl gen vs = Some t -> Forall via_upright vs ->
  forall l, bottom <= l <= top -> is_cut l = true -> brl <= l ->
    (w l <> 0 /\ cut_width is_cut brl w t l = Some (w l)) \/
    (w l = 0 /\ exists v b, In v vs /\ v_cut v = [(l, b)] /\ (forall u, In u vs -> single_cut l u -> ~ preferred dir u v) /\
      cut_width is_cut brl w t l = Some (Z.min (bright b - bleft b) (btop b - bbottom b))).
Proof.
  intros H U l Hl C B. rewrite Forall_forall in U. unfold cut_width. rewrite C. cbn [negb]. destruct (Z.eqb_spec (w l) 0) as [E|E]; [right|left; auto]. split; [exact E|].
  destruct (C133_default_is_best dir is_cut lname bottom top brl gen vs t H l Hl C B) as (v & Hv & [b Sv] & Best & _ & K). exists v, b. split; [exact Hv|]. split; [exact Sv|]. split; [exact Best|].
  destruct (init_some _ _ _ _ _ _ _ _ _ H) as (_ & Ok & _ & _ & _). assert (Sg : single_cut l v) by (exists b; exact Sv). pose proof (not_bad_complete dir is_cut brl vs l C (Ok l Hl) v Hv (single_on l v Sg)) as Cv.
  destruct (if gen then gen_via dir lname l v else None) as [g|] eqn:G.
  - destruct K as [-> _]. destruct gen; [|discriminate G]. destruct (gen_inv dir lname l v g (U v Hv) Cv (single_on l v Sg) G) as (_ & _ & _ & _ & Lc & _). rewrite Lc, Sv. reflexivity.
  - rewrite K, Sv. reflexivity.
Qed.
Print Assumptions C133_cut_width.

(* layers: 1, 3 cut; 2 horizontal, 4 vertical.  Two single-cut vias and a double-cut via on layer 3, with the lower metal across *)
Definition vw_dir (l : Z) : ldir := if l =? 2 then DirH else if l =? 4 then DirV else DirNone.
Definition vw_cut (l : Z) : bool := (l =? 1) || (l =? 3).
Definition vw_name (l : Z) : string := if l =? 3 then "via1"%string else "other"%string.
Definition vw_sq (h : Z) : box := mkBox (mkPt (- h) (- h)) (mkPt h h).
Definition vw_rect (x y : Z) : box := mkBox (mkPt (- x) (- y)) (mkPt x y).
Definition vw_via (n : string) (x1 y1 x2 y2 : Z) : vdef := mkVD n false [(2, vw_rect x1 y1)] [(4, vw_rect x2 y2)] [(3, vw_sq 5)] None false.
Definition vw_vias : list vdef :=
  [vw_via "wide" 12 9 8 12; mkVD "two" false [(2, vw_rect 30 7)] [(4, vw_rect 7 30)] [(3, vw_sq 5); (3, vw_rect 5 5)] None false; vw_via "tall" 7 10 7 10].
Example C133_nonvacuous :
  Forall via_upright vw_vias /\
  option_map (fun t => (map v_name (t_vias t), option_map v_l1 (t_default t 3), option_map v_l2 (t_default t 3))) (init_default_vias vw_dir vw_cut vw_name 0 4 2 true vw_vias) =
    Some (["wide"; "two"; "tall"; "via1_FR"]%string, Some [(2, vw_rect 10 7)], Some [(4, vw_rect 7 10)]) /\
  map v_name (trial_vias vw_dir vw_vias 3) = ["tall"; "wide"]%string.
Proof.
  split; [|split; vm_compute; reflexivity]. unfold vw_vias. repeat apply Forall_cons; try apply Forall_nil; intros f Hf; cbn in Hf; repeat (destruct Hf as [<-|Hf]; [unfold upright; cbn; lia|]); destruct Hf.
Qed.

(* Two single-cut vias that are equally good: only the later one is tried, although two may be tried. *)
Theorem C133_all_vias_tried_refuted : exists dir vs l v w, vs = [v; w] /\ v <> w /\ single_cut l v /\ single_cut l w /\ trial_vias dir vs l = [w].
Proof.
  exists vw_dir, [vw_via "left" 12 9 8 12; mkVD "right" false [(2, mkBox (mkPt (-8) (-9)) (mkPt 16 9))] [(4, vw_rect 8 12)] [(3, vw_sq 5)] None false], 3. eexists. eexists.
  split; [reflexivity|]. split; [discriminate|]. split; [eexists; reflexivity|]. split; [eexists; reflexivity|]. vm_compute. reflexivity.
Qed.
(* A via made by the router may leave part of its cut uncovered: the cut is not turned with the metal. *)
Theorem C133_cut_covered_refuted : exists dir lname l v g, via_upright v /\ complete v /\ single_cut l v /\ contains_box (bbox_of (v_l1 v)) (bbox_of (v_cut v)) /\
  contains_box (bbox_of (v_l2 v)) (bbox_of (v_cut v)) /\ gen_via dir lname l v = Some g /\ ~ contains_box (bbox_of (v_l1 g)) (bbox_of (v_cut g)).
Proof.
  exists vw_dir, vw_name, 3, (mkVD "bar" false [(2, vw_rect 7 20)] [(4, vw_rect 7 20)] [(3, vw_rect 5 15)] (Some 1) false). eexists.
  split; [intros f Hf; cbn in Hf; repeat (destruct Hf as [<-|Hf]; [unfold upright; cbn; lia|]); destruct Hf|]. split; [split; discriminate|]. split; [eexists; reflexivity|].
  split; [unfold contains_box; cbn; lia|]. split; [unfold contains_box; cbn; lia|]. split; [reflexivity|]. unfold contains_box. cbn. lia.
Qed.
(* It also loses the cut class of the via it is made from. *)
Theorem C133_cut_class_refuted : exists dir lname l v g, single_cut l v /\ gen_via dir lname l v = Some g /\ v_class g <> v_class v.
Proof.
  exists vw_dir, vw_name, 3, (mkVD "bar" false [(2, vw_rect 7 20)] [(4, vw_rect 7 20)] [(3, vw_rect 5 15)] (Some 1) false). eexists. split; [eexists; reflexivity|]. split; [reflexivity|]. discriminate.
Qed.
