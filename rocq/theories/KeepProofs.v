From Verif Require Import Base GeomModel GeomSpec ClipModel ClipSpec ClipProofs BpModel BpSpec BpProofs2 KeepModel KeepSpec.
From Verif Require ConnModel ConnSpec SubnetModel SubnetSpec.

(* integer points on a wire *)
Definition onw (w : wire) (k : point * Z) : Prop :=
  snd k = wl w /\ px (wb w) <= px (fst k) <= px (we w) /\ py (wb w) <= py (fst k) <= py (we w).
Definition endw (w : wire) (k : point * Z) : Prop := k = (wb w, wl w) \/ k = (we w, wl w).
Definition truncw (w : wire) (k : point * Z) : Prop :=
  (trunc (bSty (ws w)) = true /\ k = (wb w, wl w)) \/ (trunc (eSty (ws w)) = true /\ k = (we w, wl w)).

Section G.
Variable b : box.
Variable lw : Z -> Z.
Hypothesis sol : solid b.
Definition inb (p : point) : Prop := bleft b <= px p <= bright b /\ bbottom b <= py p <= btop b.

Lemma onw_line w k : onw w k <-> wl w = snd k /\ on_line w (2 * px (fst k)) (2 * py (fst k)).
Proof. unfold onw, on_line. split; intros (A & B & C); (split; [congruence|lia]). Qed.
Lemma inb_box2 p : inb p <-> in_box2 b (2 * px p) (2 * py p).
Proof. unfold inb, in_box2. lia. Qed.

(* ---- raw pieces ---- *)
Lemma fin_in w s c : In (s, FSeg c) (load_fig false b lw (FSeg w)) <->
  exists s0, In (s0, c) (load_seg false b lw w) /\ fst (final_side b (s0, c)) = s.
Proof.
  unfold load_fig. rewrite in_map_iff. split.
  - intros ([s0 c0] & E & H). exists s0.
    assert (F : snd (final_side b (s0, c0)) = c0) by (unfold final_side; cbn [fst snd]; destruct s0; [destruct (_ && _)|]; reflexivity).
    rewrite F in E. injection E as E1 E2. subst c0. auto.
  - intros (s0 & H & E). exists (s0, c). split; [|exact H].
    assert (F : snd (final_side b (s0, c)) = c) by (unfold final_side; cbn [fst snd]; destruct s0; [destruct (_ && _)|]; reflexivity).
    rewrite F, E. reflexivity.
Qed.
Lemma contains_inb p : box_contains_pt b p true = true <-> inb p.
Proof. unfold box_contains_pt, inb, bleft, bright, bbottom, btop. lia. Qed.
Lemma raw_route w c : In (Route, c) (load_seg false b lw w) ->
  (inb (wb c) /\ inb (we c) /\ In (Route, FSeg c) (load_fig false b lw (FSeg w))) \/
  (~ (inb (wb c) /\ inb (we c)) /\ In (Ext, FSeg c) (load_fig false b lw (FSeg w))).
Proof.
  intros H. destruct (box_contains_pt b (wb c) true && box_contains_pt b (we c) true) eqn:E.
  - left. apply andb_true_iff in E as [E1 E2]. assert (E1' := E1). assert (E2' := E2). apply contains_inb in E1, E2. split; [exact E1|]. split; [exact E2|].
    apply fin_in. exists Route. split; [exact H|]. unfold final_side. cbn [fst snd]. rewrite E1', E2'. reflexivity.
  - right. split. { intros [A B]. apply contains_inb in A, B. rewrite A, B in E. discriminate E. }
    apply fin_in. exists Route. split; [exact H|]. unfold final_side. cbn [fst snd]. rewrite E. reflexivity.
Qed.
Lemma route_raw w c : In (Route, FSeg c) (load_fig false b lw (FSeg w)) -> In (Route, c) (load_seg false b lw w) /\ inb (wb c) /\ inb (we c).
Proof.
  intros H. apply fin_in in H as ([|] & H & E); unfold final_side in E; cbn [fst snd] in E.
  - destruct (box_contains_pt b (wb c) true && box_contains_pt b (we c) true) eqn:F; [|discriminate E].
    apply andb_true_iff in F as [F1 F2]. apply contains_inb in F1, F2. auto.
  - discriminate E.
Qed.
(* a raw fixed piece is away from the box *)
Lemma raw_ext_far w c k : proper w -> In (Ext, c) (load_seg false b lw w) -> onw c k -> ~ inb (fst k).
Proof.
  intros P H. destruct sol as [S1 S2]. unfold load_seg in H. cbv zeta in H.
  unfold onw, inb. unfold bleft, bright, bbottom, btop in *.
  destruct (px (wb w) =? px (we w)) eqn:E0.
  - destruct ((px (ll b) <=? px (wb w)) && (px (wb w) <=? px (ur b))) eqn:A.
    + apply in_app_or in H. destruct H as [H|H]; [|apply in_app_or in H; destruct H as [H|H]].
      * destruct (py (wb w) <? py (ll b)) eqn:E1; [|destruct H]. destruct (py (we w) <? py (ll b)) eqn:E2; destruct H as [H|[]]; try discriminate H.
        injection H as <-. cbn [wb we px py]. lia.
      * destruct (negb _); [|destruct H]. destruct H as [H|[]]. discriminate H.
      * destruct (py (we w) >? py (ur b)) eqn:E1; [|destruct H]. destruct (py (wb w) >? py (ur b)) eqn:E2; destruct H as [H|[]]; try discriminate H.
        injection H as <-. cbn [wb we px py]. lia.
    + destruct H as [H|[]]. injection H as <-. lia.
  - assert (Ey : py (wb w) =? py (we w) = true) by (destruct P as [P|P]; lia). rewrite Ey in H.
    destruct ((py (ll b) <=? py (wb w)) && (py (wb w) <=? py (ur b))) eqn:A.
    + apply in_app_or in H. destruct H as [H|H]; [|apply in_app_or in H; destruct H as [H|H]].
      * destruct (px (wb w) <? px (ll b)) eqn:E1; [|destruct H]. destruct (px (we w) <? px (ll b)) eqn:E2; destruct H as [H|[]]; try discriminate H.
        injection H as <-. cbn [wb we px py]. lia.
      * destruct (negb _); [|destruct H]. destruct H as [H|[]]. discriminate H.
      * destruct (px (we w) >? px (ur b)) eqn:E1; [|destruct H]. destruct (px (wb w) >? px (ur b)) eqn:E2; destruct H as [H|[]]; try discriminate H.
        injection H as <-. cbn [wb we px py]. lia.
    + destruct H as [H|[]]. injection H as <-. lia.
Qed.

(* ---- G1: a fixed piece that meets the box: a raw routable one, with a boundary pin there, its end *)
Ltac geo := unfold onw, endw, inb, low_v, mid_v, high_v, low_h, mid_h, high_h, across_v, across_h, bleft, bright, bbottom, btop in *; cbn [wl wb we ws px py] in *.
Lemma outer_meets w c k : proper w -> In (Ext, FSeg c) (load_fig false b lw (FSeg w)) -> onw c k -> inb (fst k) ->
  In (Route, c) (load_seg false b lw w) /\ In k (ext_pins1 b c) /\ endw c k /\ ~ (inb (wb c) /\ inb (we c)).
Proof.
  intros P H O I. assert (H' := H). apply fin_in in H' as ([|] & R & E).
  - split; [exact R|]. split; [destruct k as [p l]; apply (ext_pin_meets b lw sol w c p l P H); apply onw_line in O as [O1 O2]; cbn [fst snd] in *; split; [exact O1|]; split; [exact O2|apply inb_box2; exact I]|].
    split.
    + destruct (piece_cases false b lw sol w P Ext (FSeg c) H) as (c' & Ec & K). injection Ec as <-. destruct k as [[X Y] l]. destruct sol as [S1 S2].
      cut ((X = px (wb c) /\ Y = py (wb c)) \/ (X = px (we c) /\ Y = py (we c))).
      { intros [[-> ->]|[-> ->]]; destruct O as (O & _); cbn [snd] in O; subst l; [left|right]; [destruct (wb c)|destruct (we c)]; reflexivity. }
      destruct K as [(_ & -> & [[A B]|(A & A' & B)])|[(Hx & Hy & A & [(_ & -> & K)|[(Q & _)|(_ & -> & K)]])|(Hx & Hy & A & [(_ & -> & K)|[(Q & _)|(_ & -> & K)]])]]; try discriminate Q; clear H R E; geo; cbn [fst snd px py] in *; lia.
    + unfold final_side in E. cbn [fst snd] in E. intros [A B]. apply contains_inb in A, B. rewrite A, B in E. discriminate E.
  - exfalso. apply (raw_ext_far w c k P R O I).
Qed.
(* ---- G3, G4: pieces of one wire hang together *)
Lemma inner_outer w c c' : proper w -> In (Route, FSeg c) (load_fig false b lw (FSeg w)) -> In (Ext, FSeg c') (load_fig false b lw (FSeg w)) ->
  exists k, onw c k /\ onw c' k /\ inb (fst k).
Proof.
  intros P H H'. destruct (piece_cases false b lw sol w P Route (FSeg c) H) as (? & Ec & K). injection Ec as <-.
  destruct (piece_cases false b lw sol w P Ext (FSeg c') H') as (? & Ec & K'). injection Ec as <-. destruct sol as [S1 S2].
  destruct K as [(Q & _)|[(Hx & Hy & A & [(Q & _)|[(_ & -> & K)|(Q & _)]])|(Hx & Hy & A & [(Q & _)|[(_ & -> & K)|(Q & _)]])]]; try discriminate Q.
  - destruct K' as [(_ & -> & [[_ B]|(A1 & A' & B)])|[(_ & _ & _ & [(_ & -> & K')|[(Q & _)|(_ & -> & K')]])|(Hx' & Hy' & A' & _)]]; try discriminate Q; try congruence; try lia.
    + exists (mkPt (px (wb w)) (bbottom b), wl w). clear H H'. geo. cbn [fst snd px py]. lia.
    + exists (mkPt (px (wb w)) (btop b), wl w). clear H H'. geo. cbn [fst snd px py]. lia.
  - destruct K' as [(_ & -> & [[A1 B]|(A1 & A' & B)])|[(Hx' & Hy' & A' & _)|(_ & _ & _ & [(_ & -> & K')|[(Q & _)|(_ & -> & K')]])]]; try discriminate Q; try congruence; try lia.
    + exists (mkPt (bleft b) (py (wb w)), wl w). clear H H'. geo. cbn [fst snd px py]. lia.
    + exists (mkPt (bright b) (py (wb w)), wl w). clear H H'. geo. cbn [fst snd px py]. lia.
Qed.
Lemma two_outer w c c' : proper w -> In (Ext, FSeg c) (load_fig false b lw (FSeg w)) -> In (Ext, FSeg c') (load_fig false b lw (FSeg w)) ->
  c = c' \/ exists m, In (Route, FSeg m) (load_fig false b lw (FSeg w)).
Proof.
  intros P H H'. destruct (piece_cases false b lw sol w P Ext (FSeg c) H) as (? & Ec & K). injection Ec as <-.
  destruct (piece_cases false b lw sol w P Ext (FSeg c') H') as (? & Ec & K'). injection Ec as <-. destruct sol as [S1 S2].
  assert (Z1 : bleft b < bright b) by exact S1. assert (Z2 : bbottom b < btop b) by exact S2.
  destruct K as [(_ & -> & [[A1 B]|(A1 & A2 & B)])|[(Hx & Hy & A & [(_ & -> & K)|[(Q & _)|(_ & -> & K)]])|(Hx & Hy & A & [(_ & -> & K)|[(Q & _)|(_ & -> & K)]])]]; try discriminate Q;
  destruct K' as [(_ & -> & [[A1' B']|(A1' & A2' & B')])|[(Hx' & Hy' & A' & [(_ & -> & K')|[(Q & _)|(_ & -> & K')]])|(Hx' & Hy' & A' & [(_ & -> & K')|[(Q & _)|(_ & -> & K')]])]]; try discriminate Q; try congruence; auto; try lia.
  - right. exists (mid_v b lw w). apply in_mid_v; auto; lia.
  - right. exists (mid_v b lw w). apply in_mid_v; auto; lia.
  - right. exists (mid_h b lw w). apply in_mid_h; auto; lia.
  - right. exists (mid_h b lw w). apply in_mid_h; auto; lia.
Qed.
(* ---- G6 *)
Lemma on_some_piece w k : proper w -> onw w k -> exists s c, In (s, FSeg c) (load_fig false b lw (FSeg w)) /\ onw c k.
Proof.
  intros P O. apply onw_line in O as [O1 O2]. destruct (line_covered false b lw sol w P _ _ O2) as (s & c & H & O). exists s, c. split; [exact H|].
  apply onw_line. split; [|exact O]. destruct (piece_layer false b lw sol w s c P H) as (-> & _). exact O1.
Qed.
Lemma inner_inb w c k : proper w -> In (Route, FSeg c) (load_fig false b lw (FSeg w)) -> onw c k -> inb (fst k).
Proof. intros P H O. apply onw_line in O as [_ O]. apply inb_box2. apply (route_inside false b lw sol w c P H _ _ O). Qed.
Lemma piece_on_wire w s c k : proper w -> In (s, FSeg c) (load_fig false b lw (FSeg w)) -> onw c k -> onw w k.
Proof.
  intros P H O. apply onw_line in O as [O1 O2]. apply onw_line. destruct (piece_layer false b lw sol w s c P H) as (E & _). split; [congruence|].
  apply (piece_on false b lw sol w s c P H _ _ O2).
Qed.
(* ---- G5: an end of the wire in the box is an end of a raw routable piece, of the same kind *)
Lemma end_piece w k : proper w -> endw w k -> inb (fst k) ->
  exists s c, In (s, FSeg c) (load_fig false b lw (FSeg w)) /\ endw c k /\ (truncw w k -> truncw c k).
Proof.
  intros P E I. destruct sol as [S1 S2].
  assert (Z1 : bleft b < bright b) by exact S1. assert (Z2 : bbottom b < btop b) by exact S2.
  assert (Hd : wb w <> we w) by (intros Q; unfold proper in P; rewrite Q in P; lia).
  destruct P as [[Hx Hy]|[Hy Hx]].
  - assert (A : across_v false b w = true) by (destruct E as [-> | ->]; unfold across_v, inb in *; cbn [fst] in I; lia).
    destruct E as [-> | ->]; unfold inb in I; cbn [fst] in I.
    + assert (T : truncw w (wb w, wl w) -> trunc (bSty (ws w)) = true) by (intros [[T _]|[_ T]]; [exact T|congruence]).
      destruct (Z_lt_le_dec (py (wb w)) (btop b)) as [L|L].
      * destruct (Z_lt_le_dec (bbottom b) (py (we w))) as [M|M]; [|lia].
        exists Route, (mid_v b lw w). split; [apply in_mid_v; auto|].
        assert (W : wb (mid_v b lw w) = wb w) by (unfold mid_v; cbn [wb]; rewrite Z.max_l by lia; destruct (wb w); reflexivity).
        split; [left; rewrite W; reflexivity|]. intros T'. left. split; [|rewrite W; reflexivity]. apply T in T'. unfold mid_v. cbn [ws]. cbv zeta.
        destruct (py (wb w) <? bbottom b) eqn:Q; [lia|]. destruct (py (we w) >? btop b); exact T'.
      * exists Ext, (high_v b lw w). split; [apply in_high_v; auto; lia|].
        assert (W : wb (high_v b lw w) = wb w) by (unfold high_v; cbn [wb]; rewrite Z.max_l by lia; destruct (wb w); reflexivity).
        split; [left; rewrite W; reflexivity|]. intros T'. left. split; [|rewrite W; reflexivity]. apply T in T'. unfold high_v. cbn [ws].
        destruct (py (wb w) <? btop b) eqn:Q; [lia|]. exact T'.
    + assert (T : truncw w (we w, wl w) -> trunc (eSty (ws w)) = true) by (intros [[_ T]|[T _]]; [congruence|exact T]).
      destruct (Z_lt_le_dec (bbottom b) (py (we w))) as [L|L].
      * destruct (Z_lt_le_dec (py (wb w)) (btop b)) as [M|M]; [|lia].
        exists Route, (mid_v b lw w). split; [apply in_mid_v; auto|].
        assert (W : we (mid_v b lw w) = we w) by (unfold mid_v; cbn [we]; rewrite Z.min_l by lia; destruct (we w); reflexivity).
        split; [right; rewrite W; reflexivity|]. intros T'. right. split; [|rewrite W; reflexivity]. apply T in T'. unfold mid_v. cbn [ws]. cbv zeta.
        destruct (py (we w) >? btop b) eqn:Q; [lia|]. destruct (py (wb w) <? bbottom b); exact T'.
      * exists Ext, (low_v b lw w). split; [apply in_low_v; auto; lia|].
        assert (W : we (low_v b lw w) = we w) by (unfold low_v; cbn [we]; rewrite Z.min_l by lia; destruct (we w); reflexivity).
        split; [right; rewrite W; reflexivity|]. intros T'. right. split; [|rewrite W; reflexivity]. apply T in T'. unfold low_v. cbn [ws].
        destruct (py (we w) >? bbottom b) eqn:Q; [lia|]. exact T'.
  - assert (A : across_h false b w = true) by (destruct E as [-> | ->]; unfold across_h, inb in *; cbn [fst] in I; lia).
    destruct E as [-> | ->]; unfold inb in I; cbn [fst] in I.
    + assert (T : truncw w (wb w, wl w) -> trunc (bSty (ws w)) = true) by (intros [[T _]|[_ T]]; [exact T|congruence]).
      destruct (Z_lt_le_dec (px (wb w)) (bright b)) as [L|L].
      * destruct (Z_lt_le_dec (bleft b) (px (we w))) as [M|M]; [|lia].
        exists Route, (mid_h b lw w). split; [apply in_mid_h; auto|].
        assert (W : wb (mid_h b lw w) = wb w) by (unfold mid_h; cbn [wb]; rewrite Z.max_l by lia; destruct (wb w); reflexivity).
        split; [left; rewrite W; reflexivity|]. intros T'. left. split; [|rewrite W; reflexivity]. apply T in T'. unfold mid_h. cbn [ws]. cbv zeta.
        destruct (px (wb w) <? bleft b) eqn:Q; [lia|]. destruct (px (we w) >? bright b); exact T'.
      * exists Ext, (high_h b lw w). split; [apply in_high_h; auto; lia|].
        assert (W : wb (high_h b lw w) = wb w) by (unfold high_h; cbn [wb]; rewrite Z.max_l by lia; destruct (wb w); reflexivity).
        split; [left; rewrite W; reflexivity|]. intros T'. left. split; [|rewrite W; reflexivity]. apply T in T'. unfold high_h. cbn [ws].
        destruct (px (wb w) <? bright b) eqn:Q; [lia|]. exact T'.
    + assert (T : truncw w (we w, wl w) -> trunc (eSty (ws w)) = true) by (intros [[_ T]|[T _]]; [congruence|exact T]).
      destruct (Z_lt_le_dec (bleft b) (px (we w))) as [L|L].
      * destruct (Z_lt_le_dec (px (wb w)) (bright b)) as [M|M]; [|lia].
        exists Route, (mid_h b lw w). split; [apply in_mid_h; auto|].
        assert (W : we (mid_h b lw w) = we w) by (unfold mid_h; cbn [we]; rewrite Z.min_l by lia; destruct (we w); reflexivity).
        split; [right; rewrite W; reflexivity|]. intros T'. right. split; [|rewrite W; reflexivity]. apply T in T'. unfold mid_h. cbn [ws]. cbv zeta.
        destruct (px (we w) >? bright b) eqn:Q; [lia|]. destruct (px (wb w) <? bleft b); exact T'.
      * exists Ext, (low_h b lw w). split; [apply in_low_h; auto; lia|].
        assert (W : we (low_h b lw w) = we w) by (unfold low_h; cbn [we]; rewrite Z.min_l by lia; destruct (we w); reflexivity).
        split; [right; rewrite W; reflexivity|]. intros T'. right. split; [|rewrite W; reflexivity]. apply T in T'. unfold low_h. cbn [ws].
        destruct (px (we w) >? bleft b) eqn:Q; [lia|]. exact T'.
Qed.
End G.
