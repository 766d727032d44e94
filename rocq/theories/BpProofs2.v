From Verif Require Import Base GeomModel GeomSpec GCellModel GCellSpec GCellProofs GridModel BatchModel BatchProofs
  ClipModel ClipSpec ClipProofs BpModel BpSpec BpProofs.

Section N.
Variable die : box.
Variables xg yg : gpat.
Hypothesis ok : grid_ok die xg yg.
Variable size : Z.
Hypothesis pos : 0 < size.
Variable ws : list tawire.
Hypothesis real : forall w, In w ws -> real_wire die w.
Variables c1 c2 : clip.
Hypothesis in1 : In c1 (clips xg yg 0 size).
Hypothesis in2 : In c2 (clips xg yg 0 size).

Lemma both_x w p : c_j c1 = c_j c2 -> c_i c2 = c_i c1 + size -> In w ws -> crosses_x w p ->
  px p = line xg (bleft die) (bright die) (c_i c2) -> in_cells yg (bbottom die) (btop die) (c_j c1) size (py p) ->
  In (tw_net w, p, tw_layer w) (first_pins die xg yg size ws c1) /\ In (tw_net w, p, tw_layer w) (first_pins die xg yg size ws c2).
Proof.
  intros Ej Ei Hw C E Y.
  destruct (route_box_lines die xg yg ok size c1 pos in1) as (_ & _ & _ & _ & Hi1 & _).
  destruct (route_box_lines die xg yg ok size c2 pos in2) as (_ & _ & _ & _ & Hi2 & _).
  split; (apply first_exact; auto; split; [unfold on_clip_edge; rewrite E; rewrite ?Ei; auto|]; exists w; do 3 (split; [auto|]); left; split; [exact C|]; split; [|try exact Y; now rewrite <- Ej]; exists (c_i c2); split; [lia|split; [lia|exact E]]).
Qed.
Lemma both_y w p : c_i c1 = c_i c2 -> c_j c2 = c_j c1 + size -> In w ws -> crosses_y w p ->
  py p = line yg (bbottom die) (btop die) (c_j c2) -> in_cells xg (bleft die) (bright die) (c_i c1) size (px p) ->
  In (tw_net w, p, tw_layer w) (first_pins die xg yg size ws c1) /\ In (tw_net w, p, tw_layer w) (first_pins die xg yg size ws c2).
Proof.
  intros Ej Ei Hw C E Y.
  destruct (route_box_lines die xg yg ok size c1 pos in1) as (_ & _ & _ & _ & _ & Hi1).
  destruct (route_box_lines die xg yg ok size c2 pos in2) as (_ & _ & _ & _ & _ & Hi2).
  split; (apply first_exact; auto; split; [unfold on_clip_edge; rewrite E; rewrite ?Ei; auto|]; exists w; do 3 (split; [auto|]); right; split; [exact C|]; split; [|try exact Y; now rewrite <- Ej]; exists (c_j c2); split; [lia|split; [lia|exact E]]).
Qed.
Lemma agree_x n p l : c_j c1 = c_j c2 -> c_i c2 = c_i c1 + size -> px p = line xg (bleft die) (bright die) (c_i c2) ->
  (forall w, In w ws -> tw_net w = n -> tw_layer w = l -> px (tw_b w) = px (tw_e w) -> px (tw_b w) <> px p) ->
  In (n, p, l) (first_pins die xg yg size ws c1) <-> In (n, p, l) (first_pins die xg yg size ws c2).
Proof.
  intros Ej Ei E N. split; intros H; apply first_exact in H as (_ & w & Hw & <- & <- & [(C & _ & Y)|((C & C' & _) & _)]); auto;
    try (exfalso; apply (N w Hw eq_refl eq_refl C); lia).
  - apply (both_x w p); auto.
  - apply (both_x w p); auto. now rewrite Ej.
Qed.
Lemma agree_y n p l : c_i c1 = c_i c2 -> c_j c2 = c_j c1 + size -> py p = line yg (bbottom die) (btop die) (c_j c2) ->
  (forall w, In w ws -> tw_net w = n -> tw_layer w = l -> py (tw_b w) = py (tw_e w) -> py (tw_b w) <> py p) ->
  In (n, p, l) (first_pins die xg yg size ws c1) <-> In (n, p, l) (first_pins die xg yg size ws c2).
Proof.
  intros Ej Ei E N. split; intros H; apply first_exact in H as (_ & w & Hw & <- & <- & [((C & C' & _) & _)|(C & _ & Y)]); auto;
    try (exfalso; apply (N w Hw eq_refl eq_refl C); lia).
  - apply (both_y w p); auto.
  - apply (both_y w p); auto. now rewrite Ej.
Qed.
End N.

(* ---- later passes ---- *)
Section L.
Variable b : box.
Variable lw : Z -> Z.
Hypothesis sol : solid b.

Lemma loaded_in figs c : In (FSeg c) (loaded false b lw Ext figs) <->
  exists w, In (FSeg w) figs /\ In (Ext, FSeg c) (load_fig false b lw (FSeg w)).
Proof.
  unfold loaded, on_side. rewrite in_map_iff. split.
  - intros ((s & f) & E & H). cbn [snd] in E. subst f. apply filter_In in H as (H & S). apply in_flat_map in H as (f & Hf & H).
    destruct s; [discriminate S|]. destruct f as [w|o l1 l2 d|o l off].
    + exists w. auto.
    + cbn in H. destruct H as [H|[]]. discriminate H.
    + cbn in H. destruct H as [H|[]]. discriminate H.
  - intros (w & Hw & H). exists (Ext, FSeg c). split; [reflexivity|]. apply filter_In. split; [|reflexivity]. apply in_flat_map. exists (FSeg w). auto.
Qed.
Lemma ext_pin_meets w c p l : proper w -> In (Ext, FSeg c) (load_fig false b lw (FSeg w)) ->
  In (p, l) (ext_pins1 b c) <-> wl c = l /\ on_line c (2 * px p) (2 * py p) /\ in_box2 b (2 * px p) (2 * py p).
Proof.
  intros P H. destruct (piece_cases false b lw sol w P Ext (FSeg c) H) as (c' & E & K). injection E as <-.
  destruct sol as [S1 S2]. destruct p as [X Y]. cbn [px py].
  split.
  - unfold ext_pins1. intros I. unfold on_line, in_box2. unfold bleft, bright, bbottom, btop in *.
    destruct ((px (wb c) =? px (we c)) && (px (wb c) >=? px (ll b)) && (px (we c) <=? px (ur b))) eqn:E1.
    + assert (Pc : py (wb c) <= py (we c)).
      { destruct (piece_layer false b lw sol w Ext c P H) as (_ & _ & [Q|Q]); lia. }
      apply in_app_or in I. destruct I as [I|I].
      * destruct (py (wb c) =? py (ur b)) eqn:E2; [|destruct I]. destruct I as [I|[]]. injection I as I <-.
        rewrite I in *. cbn [px py] in *. split; [reflexivity|]. lia.
      * destruct (py (we c) =? py (ll b)) eqn:E2; [|destruct I]. destruct I as [I|[]]. injection I as I <-.
        rewrite I in *. cbn [px py] in *. split; [reflexivity|]. lia.
    + destruct ((py (wb c) =? py (we c)) && (py (wb c) >=? py (ll b)) && (py (we c) <=? py (ur b))) eqn:E2; [|destruct I].
      assert (Pc : px (wb c) <= px (we c)).
      { destruct (piece_layer false b lw sol w Ext c P H) as (_ & _ & [Q|Q]); lia. }
      apply in_app_or in I. destruct I as [I|I].
      * destruct (px (wb c) =? px (ur b)) eqn:E3; [|destruct I]. destruct I as [I|[]]. injection I as I <-.
        rewrite I in *. cbn [px py] in *. split; [reflexivity|]. lia.
      * destruct (px (we c) =? px (ll b)) eqn:E3; [|destruct I]. destruct I as [I|[]]. injection I as I <-.
        rewrite I in *. cbn [px py] in *. split; [reflexivity|]. lia.
  - intros (<- & O & I).
    assert (G : (X = px (wb c) /\ X = px (we c) /\ px (ll b) <= X <= px (ur b) /\ ((Y = py (wb c) /\ Y = py (ur b)) \/ (Y = py (we c) /\ Y = py (ll b)))) \/
                (Y = py (wb c) /\ Y = py (we c) /\ px (wb c) < px (we c) /\ py (ll b) <= Y <= py (ur b) /\ ((X = px (wb c) /\ X = px (ur b)) \/ (X = px (we c) /\ X = px (ll b))))).
    { destruct K as [(_ & -> & [[A B]|(A & A' & B)])|[(Hx & Hy & A & [(_ & -> & K)|[(E & _)|(_ & -> & K)]])|(Hx & Hy & A & [(_ & -> & K)|[(E & _)|(_ & -> & K)]])]]; try discriminate E;
        unfold on_line, low_v, mid_v, high_v, low_h, mid_h, high_h, across_v, across_h, in_box2, bleft, bright, bbottom, btop in *; cbn [wl wb we ws px py] in *; lia. }
    unfold ext_pins1. unfold bleft, bright, bbottom, btop in *.
    destruct G as [(E1 & E2 & E3 & G)|(E1 & E2 & E0 & E3 & G)].
    + destruct ((px (wb c) =? px (we c)) && (px (wb c) >=? px (ll b)) && (px (we c) <=? px (ur b))) eqn:F; [|lia].
      apply in_or_app. destruct G as [(G & G')|(G & G')]; [left|right].
      * destruct (py (wb c) =? py (ur b)) eqn:F1; [|lia]. left. destruct (wb c) as [u1 u2]; cbn [px py] in *; subst; reflexivity.
      * destruct (py (we c) =? py (ll b)) eqn:F1; [|lia]. left. destruct (we c) as [u1 u2]; cbn [px py] in *; subst; reflexivity.
    + destruct ((px (wb c) =? px (we c)) && (px (wb c) >=? px (ll b)) && (px (we c) <=? px (ur b))) eqn:F; [lia|].
      destruct ((py (wb c) =? py (we c)) && (py (wb c) >=? py (ll b)) && (py (we c) <=? py (ur b))) eqn:F'; [|lia].
      apply in_or_app. destruct G as [(G & G')|(G & G')]; [left|right].
      * destruct (px (wb c) =? px (ur b)) eqn:F1; [|lia]. left. destruct (wb c) as [u1 u2]; cbn [px py] in *; subst; reflexivity.
      * destruct (px (we c) =? px (ll b)) eqn:F1; [|lia]. left. destruct (we c) as [u1 u2]; cbn [px py] in *; subst; reflexivity.
Qed.
Lemma later_in exts p l : In (p, l) (later_pins b exts) <-> exists c, In (FSeg c) exts /\ In (p, l) (ext_pins1 b c).
Proof.
  unfold later_pins. rewrite in_flat_map. split.
  - intros (f & Hf & H). destruct f as [w| |]; try destruct H. exists w. auto.
  - intros (c & Hc & H). exists (FSeg c). auto.
Qed.
Lemma later_meets figs p l : (forall w, In (FSeg w) figs -> proper w) ->
  In (p, l) (later_pins b (loaded false b lw Ext figs)) <->
  lines (loaded false b lw Ext figs) l (2 * px p) (2 * py p) /\ in_box2 b (2 * px p) (2 * py p).
Proof.
  intros P. rewrite later_in. unfold lines. split.
  - intros (c & Hc & H). assert (Hc' := Hc). apply loaded_in in Hc as (w & Hw & Hl).
    apply (ext_pin_meets w c p l (P w Hw) Hl) in H as (El & O & I). split; [|exact I]. exists c. auto.
  - intros ((c & Hc & El & O) & I). exists c. split; [exact Hc|]. apply loaded_in in Hc as (w & Hw & Hl).
    apply (ext_pin_meets w c p l (P w Hw) Hl). auto.
Qed.
(* all meeting points are grid points *)
Lemma meets_even figs l x y : (forall w, In (FSeg w) figs -> proper w) ->
  lines (loaded false b lw Ext figs) l x y -> in_box2 b x y -> exists p, x = 2 * px p /\ y = 2 * py p.
Proof.
  intros P (c & Hc & El & O) I. apply loaded_in in Hc as (w & Hw & H).
  destruct (piece_cases false b lw sol w (P w Hw) Ext (FSeg c) H) as (c' & E & K). injection E as <-.
  destruct sol as [S1 S2].
  assert (G : (x = 2 * px (wb c) \/ x = 2 * px (we c)) /\ (y = 2 * py (wb c) \/ y = 2 * py (we c))).
  { destruct K as [(_ & -> & [[A B]|(A & A' & B)])|[(Hx & Hy & A & [(_ & -> & K)|[(E & _)|(_ & -> & K)]])|(Hx & Hy & A & [(_ & -> & K)|[(E & _)|(_ & -> & K)]])]]; try discriminate E;
        unfold on_line, low_v, mid_v, high_v, low_h, mid_h, high_h, across_v, across_h, in_box2, bleft, bright, bbottom, btop in *; cbn [wl wb we ws px py] in *; lia. }
  destruct G as [[-> | ->] [-> | ->]]; (eexists (mkPt _ _); cbn [px py]; split; reflexivity).
Qed.
(* the pins in terms of the wires of the net *)
Lemma later_wires figs p l : (forall w, In (FSeg w) figs -> proper w) ->
  In (p, l) (later_pins b (loaded false b lw Ext figs)) <->
  in_box p b /\ exists w, In (FSeg w) figs /\ wl w = l /\
    ((px (wb w) = px (we w) /\ px p = px (wb w) /\ ((py p = btop b /\ py (wb w) <= btop b < py (we w)) \/ (py p = bbottom b /\ py (wb w) < bbottom b <= py (we w)))) \/
     (py (wb w) = py (we w) /\ py p = py (wb w) /\ ((px p = bright b /\ px (wb w) <= bright b < px (we w)) \/ (px p = bleft b /\ px (wb w) < bleft b <= px (we w))))).
Proof.
  intros P. rewrite later_meets by exact P. assert (S := sol). destruct S as [S1 S2]. split.
  - intros ((c & Hc & El & O) & I). split; [unfold in_box, in_box2, bleft, bright, bbottom, btop in *; lia|].
    apply loaded_in in Hc as (w & Hw & H). exists w. split; [exact Hw|].
    destruct (piece_cases false b lw sol w (P w Hw) Ext (FSeg c) H) as (c' & E & K). injection E as <-.
    destruct (piece_layer false b lw sol w Ext c (P w Hw) H) as (El' & _ & _). split; [congruence|]. clear El El' H.
    destruct K as [(_ & -> & [[A B]|(A & A' & B)])|[(Hx & Hy & A & [(_ & -> & K)|[(E & _)|(_ & -> & K)]])|(Hx & Hy & A & [(_ & -> & K)|[(E & _)|(_ & -> & K)]])]]; try discriminate E;
        unfold on_line, low_v, mid_v, high_v, low_h, mid_h, high_h, across_v, across_h, in_box2, bleft, bright, bbottom, btop in *; cbn [wl wb we ws px py] in *; lia.
  - intros (I & w & Hw & <- & K). split; [|unfold in_box, in_box2, bleft, bright, bbottom, btop in *; lia].
    assert (Pw := P w Hw). unfold lines.
    assert (Q : exists c, In (Ext, FSeg c) (load_fig false b lw (FSeg w)) /\ on_line c (2 * px p) (2 * py p)).
    { destruct K as [(E & Ep & K)|(E & Ep & K)].
      - assert (A : across_v false b w = true) by (unfold across_v, in_box, bleft, bright in *; lia).
        assert (py (wb w) < py (we w)) by lia. destruct K as [(K1 & K2)|(K1 & K2)].
        + exists (high_v b lw w). split; [apply in_high_v; auto; lia|]. unfold on_line, high_v. cbn [wb we px py]. lia.
        + exists (low_v b lw w). split; [apply in_low_v; auto; lia|]. unfold on_line, low_v. cbn [wb we px py]. lia.
      - assert (A : across_h false b w = true) by (unfold across_h, in_box, bbottom, btop in *; lia).
        assert (px (wb w) < px (we w)) by lia. destruct K as [(K1 & K2)|(K1 & K2)].
        + exists (high_h b lw w). split; [apply in_high_h; auto; lia|]. unfold on_line, high_h. cbn [wb we px py]. lia.
        + exists (low_h b lw w). split; [apply in_low_h; auto; lia|]. unfold on_line, low_h. cbn [wb we px py]. lia. }
    destruct Q as (c & Hc & O). exists c. split; [apply loaded_in; eauto|]. split; [|exact O].
    apply (piece_layer false b lw sol w Ext c Pw Hc).
Qed.
End L.
