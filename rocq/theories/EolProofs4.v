From Verif Require Import Base Stl GeomModel GeomSpec GeomProofs TechModel GcModel GcSpec GcProofs GcProofs2 GcProofs3
  CostModel CutModel CutSpec CutProofs CutProofs2 EolModel EolSpec EolProofs EolProofs2 EolProofs3.

(* ---- contours ---- *)
Lemma edges_from_nth fx n first : forall pts bp i e,
  nth_error (edges_from fx n first bp pts) i = Some e <->
  exists p q, nth_error (bp :: pts) i = Some p /\ nth_error (pts ++ [first]) i = Some q /\ e = mk_edge fx n p q.
Proof.
  induction pts as [|x pts IH]; intros bp i e; cbn [edges_from app].
  - destruct i as [|i]; cbn [nth_error].
    + split; [intros E; injection E as <-; eauto|]. intros (p & q & E1 & E2 & ->). congruence.
    + split; [destruct i; discriminate|]. intros (p & q & E1 & _). destruct i; discriminate.
  - destruct i as [|i]; cbn [nth_error].
    + split; [intros E; injection E as <-; eauto|]. intros (p & q & E1 & E2 & ->). congruence.
    + apply IH.
Qed.
Lemma edges_from_length fx n first : forall pts bp, length (edges_from fx n first bp pts) = S (length pts).
Proof. induction pts; intros bp; cbn; auto. Qed.
Lemma contour_length fx n pts : length (contour fx n pts) = length pts.
Proof. destruct pts as [|p pts]; [reflexivity|]. cbn [contour]. rewrite edges_from_length. reflexivity. Qed.
Lemma contour_nth fx n pts i e :
  nth_error (contour fx n pts) i = Some e <->
  exists p q, nth_error pts i = Some p /\ nth_error pts (if Nat.eqb (S i) (length pts) then 0 else S i)%nat = Some q /\
    e = mk_edge fx n p q.
Proof.
  destruct pts as [|x pts]; cbn [contour].
  - split; [destruct i; discriminate|]. intros (p & q & E & _). destruct i; discriminate.
  - rewrite edges_from_nth.
    assert (K : forall p, nth_error (x :: pts) i = Some p ->
      nth_error (pts ++ [x]) i = nth_error (x :: pts) (if Nat.eqb (S i) (length (x :: pts)) then 0 else S i)%nat).
    { intros p E. assert (L : (i < length (x :: pts))%nat) by (apply nth_error_Some; congruence).
      cbn [length] in *. destruct (Nat.eqb_spec (S i) (S (length pts))) as [E1|E1].
      - rewrite nth_error_app2 by lia. replace (i - length pts)%nat with 0%nat by lia. reflexivity.
      - rewrite nth_error_app1 by lia. reflexivity. }
    split; intros (p & q & E1 & E2 & E3); exists p, q; (split; [exact E1|split; [|exact E3]]).
    + rewrite <- (K p E1). exact E2.
    + rewrite (K p E1). exact E2.
Qed.
Lemma contour_closed fx n pts : rectilinear pts -> closed_outline (contour fx n pts).
Proof.
  intros R. split.
  - intros e I. apply In_nth_error in I as [i H]. apply contour_nth in H as (p & q & E1 & E2 & ->).
    unfold straight, mk_edge. cbn [o_low o_high]. eapply R; eauto.
  - intros prev e next (i & L & He & Hp & Hn). rewrite contour_length in *.
    apply contour_nth in He as (p & q & E1 & E2 & ->). apply contour_nth in Hp as (p' & q' & P1 & P2 & ->).
    apply contour_nth in Hn as (p'' & q'' & N1 & N2 & ->). unfold mk_edge. cbn [o_low o_high]. split; [|congruence].
    assert (X : (if Nat.eqb (S (if Nat.eqb i 0 then length pts - 1 else i - 1)) (length pts) then 0
                 else S (if Nat.eqb i 0 then length pts - 1 else i - 1))%nat = i).
    { destruct (Nat.eqb_spec i 0) as [->|Ni].
      - destruct (Nat.eqb_spec (S (length pts - 1)) (length pts)); lia.
      - destruct (Nat.eqb_spec (S (i - 1)) (length pts)); lia. }
    rewrite X in P2. congruence.
Qed.

(* ---- all pins ---- *)
Definition pin_found (V : oenv) (stmts : list eolstmt) (pin : list (list oedge)) (m : marker) : Prop :=
  exists c prev e next s, In c pin /\ consecutive c prev e next /\ In s stmts /\ edge_found V s (prev, e, next) m.
Lemma fold_left_map {X Y Z} (f : Z -> Y -> Z) (g : X -> Y) : forall l a,
  fold_left f (map g l) a = fold_left (fun a x => f a (g x)) l a.
Proof. induction l as [|x l IH]; intros a; cbn; auto. Qed.
Lemma check_eol_pin_grows V stmts pin ms : v_rules V = map lef_eol stmts ->
  grows (pin_found V stmts pin) ms (check_eol_pin V pin ms).
Proof.
  intros R. unfold check_eol_pin. eapply grows_ext.
  2: { apply (fold_grows _ (fun c m => exists t, In t (triples c) /\ exists s, In s stmts /\ edge_found V s t m)).
       intros c ms1. apply fold_grows. intros t ms2. rewrite R, fold_left_map. apply fold_grows.
       intros s ms3. apply check_eol_edge_grows. }
  intros m. unfold pin_found. split.
  - intros (c & Ic & [[prev e] next] & It & s & Is & H). apply triples_In in It. exists c, prev, e, next, s. auto.
  - intros (c & prev & e & next & s & Ic & It & Is & H). exists c. split; [exact Ic|]. exists (prev, e, next).
    rewrite triples_In. eauto.
Qed.
Lemma check_eol_grows V stmts pins ms : v_rules V = map lef_eol stmts ->
  grows (fun m => exists pin, In pin pins /\ pin_found V stmts pin m) ms (check_eol V pins ms).
Proof. intros R. unfold check_eol. apply fold_grows. intros pin ms1. apply check_eol_pin_grows. exact R. Qed.

(* ---- wires ---- *)
Lemma rect_rectilinear b : solid b -> rectilinear (rect_points b).
Proof.
  intros [S1 S2] i p q. unfold rect_points. bx b. bxs.
  destruct i as [|[|[|[|i]]]]; cbn [length Nat.eqb nth_error]; try (intros E1 E2; injection E1 as <-; injection E2 as <-; cbn [px py]; lia).
  intros E. destruct i; discriminate.
Qed.
Definition edge_n (fx : point -> point -> bool) (n : Z) (b : box) (k : nat) : oedge :=
  match k with
  | 0%nat => mk_edge fx n (mkPt (bleft b) (bbottom b)) (mkPt (bright b) (bbottom b))
  | 1%nat => mk_edge fx n (mkPt (bright b) (bbottom b)) (mkPt (bright b) (btop b))
  | 2%nat => mk_edge fx n (mkPt (bright b) (btop b)) (mkPt (bleft b) (btop b))
  | _ => mk_edge fx n (mkPt (bleft b) (btop b)) (mkPt (bleft b) (bbottom b))
  end.
Lemma edge_n_dir fx n b k : solid b ->
  let e := edge_n fx n b k in
  straight e /\
  match k with
  | 0%nat => seg_dir e = EE /\ sx e = 1 /\ sy e = 0
  | 1%nat => seg_dir e = EN /\ sx e = 0 /\ sy e = 1
  | 2%nat => seg_dir e = EW /\ sx e = -1 /\ sy e = 0
  | _ => seg_dir e = ES /\ sx e = 0 /\ sy e = -1
  end.
Proof.
  intros [S1 S2] e. assert (H : straight e).
  { subst e. unfold straight. bx b. bxs. destruct k as [|[|[|k]]]; cbn [edge_n mk_edge o_low o_high px py]; bxs; lia. }
  split; [exact H|].
  destruct (straight_cases e H) as [(D & X & Y & E & L)|[(D & X & Y & E & L)|[(D & X & Y & E & L)|(D & X & Y & E & L)]]];
  subst e; bx b; bxs; destruct k as [|[|[|k]]]; cbn [edge_n mk_edge o_low o_high px py] in *; bxs; try lia; auto.
Qed.
Lemma rect_consecutive fx n b :
  consecutive (contour fx n (rect_points b)) (edge_n fx n b 3) (edge_n fx n b 0) (edge_n fx n b 1) /\
  consecutive (contour fx n (rect_points b)) (edge_n fx n b 0) (edge_n fx n b 1) (edge_n fx n b 2) /\
  consecutive (contour fx n (rect_points b)) (edge_n fx n b 1) (edge_n fx n b 2) (edge_n fx n b 3) /\
  consecutive (contour fx n (rect_points b)) (edge_n fx n b 2) (edge_n fx n b 3) (edge_n fx n b 0).
Proof.
  split; [exists 0%nat|split; [exists 1%nat|split; [exists 2%nat|exists 3%nat]]]; (split; [cbn; lia|]); split; try reflexivity; split; reflexivity.
Qed.
Lemma rect_edges_In fx n b k : In (edge_n fx n b k) (contour fx n (rect_points b)).
Proof.
  unfold rect_points. cbn [contour edges_from In]. destruct k as [|[|[|k]]]; cbn [edge_n]; tauto.
Qed.
Ltac edge_facts fa na a k :=
  let H := fresh "H" in let S := fresh "St" in let D := fresh "Dr" in let X := fresh "Xs" in let Y := fresh "Ys" in
  match goal with Sa : solid a |- _ => pose proof (edge_n_dir fa na a k Sa) as H; cbv zeta beta iota in H; destruct H as (S & D & X & Y) end.
Lemma wire_pair s fa na a fb nb b : solid a -> solid b -> good_stmt s -> end_to_wire s a b ->
  exists prev e next f, consecutive (contour fa na (rect_points a)) prev e next /\ In f (contour fb nb (rect_points b)) /\
    straight e /\ straight f /\ wire_end s prev e next /\ faces s e f /\ gap e f = between a b /\
    o_net e = na /\ o_net f = nb /\ o_fixed e = fa (o_low e) (o_high e) /\
    (exists x y, behind e x y /\ square_in x y a) /\
    (forall z, z = between a b \/ z = widened e (between a b) -> ~ enters a z /\ ~ enters b z).
Proof.
  intros Sa Sb (G1 & G2 & _) T. destruct (rect_consecutive fa na a) as (C0 & C1 & C2 & C3).
  assert (K : forall ka kb prev next,
    consecutive (contour fa na (rect_points a)) prev (edge_n fa na a ka) next ->
    wire_end s prev (edge_n fa na a ka) next -> faces s (edge_n fa na a ka) (edge_n fb nb b kb) ->
    gap (edge_n fa na a ka) (edge_n fb nb b kb) = between a b ->
    (exists x y, behind (edge_n fa na a ka) x y /\ square_in x y a) ->
    (forall z, z = between a b \/ z = widened (edge_n fa na a ka) (between a b) -> ~ enters a z /\ ~ enters b z) ->
    exists prev e next f, consecutive (contour fa na (rect_points a)) prev e next /\ In f (contour fb nb (rect_points b)) /\
    straight e /\ straight f /\ wire_end s prev e next /\ faces s e f /\ gap e f = between a b /\
    o_net e = na /\ o_net f = nb /\ o_fixed e = fa (o_low e) (o_high e) /\
    (exists x y, behind e x y /\ square_in x y a) /\
    (forall z, z = between a b \/ z = widened e (between a b) -> ~ enters a z /\ ~ enters b z)).
  { intros ka kb prev next C W F Gp B N. exists prev, (edge_n fa na a ka), next, (edge_n fb nb b kb).
    split; [exact C|]. split; [apply rect_edges_In|]. split; [apply edge_n_dir; exact Sa|]. split; [apply edge_n_dir; exact Sb|].
    split; [exact W|]. split; [exact F|]. split; [exact Gp|].
    split; [destruct ka as [|[|[|ka]]]; reflexivity|]. split; [destruct kb as [|[|[|kb]]]; reflexivity|].
    split; [destruct ka as [|[|[|ka]]]; reflexivity|split; [exact B|exact N]]. }
  unfold end_to_wire in T. cbv zeta in T. destruct T as [(W & [Y1 Y2] & X1)|[(W & [Y1 Y2] & X1)|[(W & [Y1 Y2] & X1)|(W & [Y1 Y2] & X1)]]].
  - edge_facts fa na a 1%nat. edge_facts fb nb b 3%nat.
    apply (K 1%nat 3%nat _ _ C1); clear K C0 C1 C2 C3.
    + unfold wire_end, len. rewrite !along_eq, !ahead_eq, Xs, Ys. destruct Sa. bx a. bxs. cbn [edge_n mk_edge o_low o_high px py]. bxs. lia.
    + split; [rewrite !along_eq, Xs, Ys; destruct Sb; bx a; bx b; bxs; cbn [edge_n mk_edge o_low o_high px py]; bxs; lia|].
      exists (bleft b), (Z.max (bbottom b) (bbottom a - t_within s)). unfold behind, front. rewrite !window_box by assumption.
      unfold wbox, square_in, len. rewrite Dr, Dr0, !along_eq, Xs, Ys, Xs0, Ys0. destruct Sa, Sb. bx a; bx b; bxs. cbn [edge_n mk_edge o_low o_high px py]; bxs. lia.
    + unfold gap, between, span. destruct Sa, Sb. bx a; bx b; bxs. cbn [edge_n mk_edge o_low o_high px py]; bxs. f_equal; f_equal; clear Dr Dr0 Xs Ys Xs0 Ys0 St St0; lia.
    + exists (bright a - 1), (bbottom a). unfold behind. rewrite !window_box by assumption.
      unfold wbox, square_in, len. rewrite Dr, !along_eq, Xs, Ys. destruct Sa. bx a; bxs. cbn [edge_n mk_edge o_low o_high px py]; bxs. lia.
    + clear - X1 Y1 Y2 Sa Sb. intros z Hz. destruct Sa, Sb. unfold enters, widened, between in *. bx a; bx b; bxs. cbn [edge_n mk_edge o_low o_high px py] in Hz; bxs.
      destruct Hz as [-> | ->]; [|match goal with |- context [?u =? ?v] => destruct (Z.eqb_spec u v); [|try lia] end]; bxs; try lia.
  - edge_facts fa na a 3%nat. edge_facts fb nb b 1%nat.
    apply (K 3%nat 1%nat _ _ C3); clear K C0 C1 C2 C3.
    + unfold wire_end, len. rewrite !along_eq, !ahead_eq, Xs, Ys. destruct Sa. bx a. bxs. cbn [edge_n mk_edge o_low o_high px py]. bxs. lia.
    + split; [rewrite !along_eq, Xs, Ys; destruct Sb; bx a; bx b; bxs; cbn [edge_n mk_edge o_low o_high px py]; bxs; lia|].
      exists (bright b - 1), (Z.max (bbottom b) (bbottom a - t_within s)). unfold behind, front. rewrite !window_box by assumption.
      unfold wbox, square_in, len. rewrite Dr, Dr0, !along_eq, Xs, Ys, Xs0, Ys0. destruct Sa, Sb. bx a; bx b; bxs. cbn [edge_n mk_edge o_low o_high px py]; bxs. lia.
    + unfold gap, between, span. destruct Sa, Sb. bx a; bx b; bxs. cbn [edge_n mk_edge o_low o_high px py]; bxs. f_equal; f_equal; clear Dr Dr0 Xs Ys Xs0 Ys0 St St0; lia.
    + exists (bleft a), (bbottom a). unfold behind. rewrite !window_box by assumption.
      unfold wbox, square_in, len. rewrite Dr, !along_eq, Xs, Ys. destruct Sa. bx a; bxs. cbn [edge_n mk_edge o_low o_high px py]; bxs. lia.
    + clear - X1 Y1 Y2 Sa Sb. intros z Hz. destruct Sa, Sb. unfold enters, widened, between in *. bx a; bx b; bxs. cbn [edge_n mk_edge o_low o_high px py] in Hz; bxs.
      destruct Hz as [-> | ->]; [|match goal with |- context [?u =? ?v] => destruct (Z.eqb_spec u v); [|try lia] end]; bxs; try lia.
  - edge_facts fa na a 2%nat. edge_facts fb nb b 0%nat.
    apply (K 2%nat 0%nat _ _ C2); clear K C0 C1 C2 C3.
    + unfold wire_end, len. rewrite !along_eq, !ahead_eq, Xs, Ys. destruct Sa. bx a. bxs. cbn [edge_n mk_edge o_low o_high px py]. bxs. lia.
    + split; [rewrite !along_eq, Xs, Ys; destruct Sb; bx a; bx b; bxs; cbn [edge_n mk_edge o_low o_high px py]; bxs; lia|].
      exists (Z.max (bleft b) (bleft a - t_within s)), (bbottom b). unfold behind, front. rewrite !window_box by assumption.
      unfold wbox, square_in, len. rewrite Dr, Dr0, !along_eq, Xs, Ys, Xs0, Ys0. destruct Sa, Sb. bx a; bx b; bxs. cbn [edge_n mk_edge o_low o_high px py]; bxs. lia.
    + unfold gap, between, span. destruct Sa, Sb. bx a; bx b; bxs. cbn [edge_n mk_edge o_low o_high px py]; bxs. f_equal; f_equal; clear Dr Dr0 Xs Ys Xs0 Ys0 St St0; lia.
    + exists (bleft a), (btop a - 1). unfold behind. rewrite !window_box by assumption.
      unfold wbox, square_in, len. rewrite Dr, !along_eq, Xs, Ys. destruct Sa. bx a; bxs. cbn [edge_n mk_edge o_low o_high px py]; bxs. lia.
    + clear - X1 Y1 Y2 Sa Sb. intros z Hz. destruct Sa, Sb. unfold enters, widened, between in *. bx a; bx b; bxs. cbn [edge_n mk_edge o_low o_high px py] in Hz; bxs.
      destruct Hz as [-> | ->]; [|match goal with |- context [?u =? ?v] => destruct (Z.eqb_spec u v); [|try lia] end]; bxs; try lia.
  - edge_facts fa na a 0%nat. edge_facts fb nb b 2%nat.
    apply (K 0%nat 2%nat _ _ C0); clear K C0 C1 C2 C3.
    + unfold wire_end, len. rewrite !along_eq, !ahead_eq, Xs, Ys. destruct Sa. bx a. bxs. cbn [edge_n mk_edge o_low o_high px py]. bxs. lia.
    + split; [rewrite !along_eq, Xs, Ys; destruct Sb; bx a; bx b; bxs; cbn [edge_n mk_edge o_low o_high px py]; bxs; lia|].
      exists (Z.max (bleft b) (bleft a - t_within s)), (btop b - 1). unfold behind, front. rewrite !window_box by assumption.
      unfold wbox, square_in, len. rewrite Dr, Dr0, !along_eq, Xs, Ys, Xs0, Ys0. destruct Sa, Sb. bx a; bx b; bxs. cbn [edge_n mk_edge o_low o_high px py]; bxs. lia.
    + unfold gap, between, span. destruct Sa, Sb. bx a; bx b; bxs. cbn [edge_n mk_edge o_low o_high px py]; bxs. f_equal; f_equal; clear Dr Dr0 Xs Ys Xs0 Ys0 St St0; lia.
    + exists (bleft a), (bbottom a). unfold behind. rewrite !window_box by assumption.
      unfold wbox, square_in, len. rewrite Dr, !along_eq, Xs, Ys. destruct Sa. bx a; bxs. cbn [edge_n mk_edge o_low o_high px py]; bxs. lia.
    + clear - X1 Y1 Y2 Sa Sb. intros z Hz. destruct Sa, Sb. unfold enters, widened, between in *. bx a; bx b; bxs. cbn [edge_n mk_edge o_low o_high px py] in Hz; bxs.
      destruct Hz as [-> | ->]; [|match goal with |- context [?u =? ?v] => destruct (Z.eqb_spec u v); [|try lia] end]; bxs; try lia.
Qed.
