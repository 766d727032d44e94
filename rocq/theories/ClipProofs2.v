From Coq Require Import Permutation.
From Verif Require Import Base GeomModel GeomSpec ClipModel ClipSpec ClipProofs.

Ltac geo := unfold on_line, wlen, low_v, mid_v, high_v, low_h, mid_h, high_h, across_v, across_h, in_box2, in_interior2, owned, solid, bleft, bright, bbottom, btop in *; cbn [wl wb we ws px py] in *.

(* ---- lengths *)
Definition fig_len (f : fig) : Z := match f with FSeg w => wlen w | _ => 0 end.
Definition total (l : list fig) : Z := fold_right (fun f n => fig_len f + n) 0 l.
Lemma load_length isInit b lw w : solid b -> proper w -> total (map snd (load_fig isInit b lw (FSeg w))) = wlen w.
Proof.
  intros sol [[Hx Hy]|[Hy Hx]].
  - rewrite load_v by assumption. destruct (across_v isInit b w); [|cbn; lia].
    destruct sol. destruct (py (wb w) <? bbottom b) eqn:E1; destruct ((py (wb w) <? btop b) && (bbottom b <? py (we w))) eqn:E2; destruct (py (we w) >? btop b) eqn:E3;
      cbn [app map total fold_right fig_len snd]; geo; lia.
  - rewrite load_h by assumption. destruct (across_h isInit b w); [|cbn; lia].
    destruct sol. destruct (px (wb w) <? bleft b) eqn:E1; destruct ((px (wb w) <? bright b) && (bleft b <? px (we w))) eqn:E2; destruct (px (we w) >? bright b) eqn:E3;
      cbn [app map total fold_right fig_len snd]; geo; lia.
Qed.

(* ---- metal *)
Lemma metal_v w x y : px (wb w) = px (we w) -> py (wb w) <= py (we w) -> style_ok w ->
  on_metal w x y <-> 2 * (px (wb w) - Z.quot (sWid (ws w)) 2) <= x <= 2 * (px (wb w) + Z.quot (sWid (ws w)) 2) /\
                     2 * (py (wb w) - bExt (ws w)) <= y <= 2 * (py (we w) + eExt (ws w)).
Proof.
  intros Hx Hy (S1 & S2 & S3). assert (Q := Z.quot_pos (sWid (ws w)) 2 S3 ltac:(lia)).
  unfold on_metal, in_box2, seg_box. destruct (px (wb w) =? px (we w)) eqn:E; [|lia]. cbn [negb]. cbv zeta.
  unfold box_set, bleft, bright, bbottom, btop. cbn [ll ur px py]. zcases; lia.
Qed.
Lemma metal_h w x y : px (wb w) < px (we w) -> py (wb w) = py (we w) -> style_ok w ->
  on_metal w x y <-> 2 * (px (wb w) - bExt (ws w)) <= x <= 2 * (px (we w) + eExt (ws w)) /\
                     2 * (py (wb w) - Z.quot (sWid (ws w)) 2) <= y <= 2 * (py (wb w) + Z.quot (sWid (ws w)) 2).
Proof.
  intros Hx Hy (S1 & S2 & S3). assert (Q := Z.quot_pos (sWid (ws w)) 2 S3 ltac:(lia)).
  unfold on_metal, in_box2, seg_box. destruct (px (wb w) =? px (we w)) eqn:E; [lia|]. cbn [negb]. cbv zeta.
  unfold box_set, bleft, bright, bbottom, btop. cbn [ll ur px py]. zcases; lia.
Qed.
Lemma line_metal w x y : straight w -> style_ok w -> on_line w x y -> on_metal w x y.
Proof.
  intros P S O. assert (Q := Z.quot_pos (sWid (ws w)) 2 (proj2 (proj2 S)) ltac:(lia)).
  destruct (Z.eq_dec (px (wb w)) (px (we w))) as [E|E].
  - destruct P as [[_ P]|[P _]]; apply metal_v; try assumption; try lia; destruct S as (? & ? & _); unfold on_line in O; lia.
  - destruct P as [[P _]|[P P']]; [lia|]. apply metal_h; try assumption; try lia; destruct S as (? & ? & _); unfold on_line in O; lia.
Qed.
Lemma half_nonneg lw w : (forall l, 0 <= lw l) -> 0 <= half lw w.
Proof. intros L. unfold half. apply Z.quot_pos; [apply L|lia]. Qed.
Lemma piece_style isInit b lw w s c : solid b -> (forall l, 0 <= lw l) -> proper w -> style_ok w ->
  In (s, FSeg c) (load_fig isInit b lw (FSeg w)) -> style_ok c.
Proof.
  intros sol L P S H. assert (H0 := half_nonneg lw w L).
  destruct (piece_cases isInit b lw sol w P s (FSeg c) H) as (c' & E & K). injection E as <-.
  unfold style_ok in *. destruct S as (S1 & S2 & S3).
  destruct K as [(_ & -> & _)|[(_ & _ & _ & [(_ & -> & _)|[(_ & -> & _)|(_ & -> & _)]])|(_ & _ & _ & [(_ & -> & _)|[(_ & -> & _)|(_ & -> & _)]])]]; [auto|..];
    unfold low_v, mid_v, high_v, low_h, mid_h, high_h; cbn [ws]; cbv zeta; zc; cbn; auto.
Qed.
Lemma metal_covered isInit b lw w : solid b -> (forall l, 0 <= lw l) -> proper w -> style_ok w ->
  forall x y, on_metal w x y -> exists s c, In (s, FSeg c) (load_fig isInit b lw (FSeg w)) /\ on_metal c x y.
Proof.
  intros sol L P S x y M. assert (H0 := half_nonneg lw w L).
  (* the centre point nearest to the metal point *)
  set (cx := Z.max (2 * px (wb w)) (Z.min x (2 * px (we w)))). set (cy := Z.max (2 * py (wb w)) (Z.min y (2 * py (we w)))).
  assert (O : on_line w cx cy) by (unfold on_line, cx, cy; destruct P as [[? ?]|[? ?]]; lia).
  destruct P as [[Hx Hy]|[Hy Hx]].
  - assert (P : proper w) by (left; auto).
    pose proof M as M'. rewrite metal_v in M' by (try assumption; lia).
    destruct (line_covered isInit b lw sol w P cx cy O) as (s & c & I & Oc). exists s, c. split; [exact I|].
    pose proof (piece_style isInit b lw w s c sol L P S I) as Sc. destruct (piece_layer isInit b lw sol w s c P I) as (_ & Wc & Pc).
    assert (Sb : (wb c = wb w -> bExt (ws c) = bExt (ws w)) /\ (we c = we w -> eExt (ws c) = eExt (ws w))).
    { destruct (piece_cases isInit b lw sol w P s (FSeg c) I) as (c' & E & K). injection E as <-.
      destruct K as [(_ & -> & _)|[(_ & _ & _ & [(_ & -> & K)|[(_ & -> & K)|(_ & -> & K)]])|(? & ? & _)]]; [auto|..|lia];
        destruct w as [l [x0 y1] [x0' y2] st]; cbn in *; geo; split; intros E; try injection E as E; zc; try reflexivity; try (exfalso; lia). }
    destruct Sb as [Sb1 Sb2].
    assert (Hc : px (wb c) = px (wb w) /\ px (we c) = px (wb w) /\ py (wb w) <= py (wb c) /\ py (we c) <= py (we w)).
    { destruct (piece_cases isInit b lw sol w P s (FSeg c) I) as (c' & E & K). injection E as <-.
      destruct K as [(_ & -> & _)|[(_ & _ & _ & [(_ & -> & K)|[(_ & -> & K)|(_ & -> & K)]])|(? & ? & _)]]; geo; lia. }
    destruct Sc as (Sc1 & Sc2 & Sc3). destruct Pc as [[Pc1 Pc2]|[Pc1 Pc2]]; [|exfalso; lia].
    apply metal_v; [lia|lia|exact (conj Sc1 (conj Sc2 Sc3))|]. rewrite Wc. destruct Hc as (Hc1 & Hc2 & Hc3 & Hc4). rewrite Hc1.
    split; [lia|]. unfold on_line, cx, cy in Oc.
    split.
    + destruct (Z.eq_dec (py (wb c)) (py (wb w))) as [E|E]; [|lia].
      rewrite (Sb1 ltac:(destruct (wb c), (wb w); cbn in *; congruence)). lia.
    + destruct (Z.eq_dec (py (we c)) (py (we w))) as [E|E]; [|lia].
      rewrite (Sb2 ltac:(destruct (we c), (we w); cbn in *; congruence)). lia.
  - assert (P : proper w) by (right; auto).
    pose proof M as M'. rewrite metal_h in M' by (try assumption; lia).
    destruct (line_covered isInit b lw sol w P cx cy O) as (s & c & I & Oc). exists s, c. split; [exact I|].
    pose proof (piece_style isInit b lw w s c sol L P S I) as Sc. destruct (piece_layer isInit b lw sol w s c P I) as (_ & Wc & Pc).
    assert (Sb : (wb c = wb w -> bExt (ws c) = bExt (ws w)) /\ (we c = we w -> eExt (ws c) = eExt (ws w))).
    { destruct (piece_cases isInit b lw sol w P s (FSeg c) I) as (c' & E & K). injection E as <-.
      destruct K as [(_ & -> & _)|[(? & ? & _)|(_ & _ & _ & [(_ & -> & K)|[(_ & -> & K)|(_ & -> & K)]])]]; [auto|lia|..];
        destruct w as [l [x0 y1] [x0' y2] st]; cbn in *; geo; split; intros E; try injection E as E; zc; try reflexivity; try (exfalso; lia). }
    destruct Sb as [Sb1 Sb2].
    assert (Hc : py (wb c) = py (wb w) /\ py (we c) = py (wb w) /\ px (wb w) <= px (wb c) /\ px (we c) <= px (we w)).
    { destruct (piece_cases isInit b lw sol w P s (FSeg c) I) as (c' & E & K). injection E as <-.
      destruct K as [(_ & -> & _)|[(? & ? & _)|(_ & _ & _ & [(_ & -> & K)|[(_ & -> & K)|(_ & -> & K)]])]]; geo; lia. }
    destruct Sc as (Sc1 & Sc2 & Sc3). destruct Pc as [[Pc1 Pc2]|[Pc1 Pc2]]; [exfalso; lia|].
    apply metal_h; [lia|lia|exact (conj Sc1 (conj Sc2 Sc3))|]. rewrite Wc. destruct Hc as (Hc1 & Hc2 & Hc3 & Hc4). rewrite Hc1.
    split; [|lia]. unfold on_line, cx, cy in Oc.
    split.
    + destruct (Z.eq_dec (px (wb c)) (px (wb w))) as [E|E]; [|lia].
      rewrite (Sb1 ltac:(destruct (wb c), (wb w); cbn in *; congruence)). lia.
    + destruct (Z.eq_dec (px (we c)) (px (we w))) as [E|E]; [|lia].
      rewrite (Sb2 ltac:(destruct (we c), (we w); cbn in *; congruence)). lia.
Qed.
Lemma metal_not_added isInit b lw w : solid b -> (forall l, 0 <= lw l) -> proper w -> style_ok w -> roomy b (half lw w) w ->
  forall s c x y, In (s, FSeg c) (load_fig isInit b lw (FSeg w)) -> on_metal c x y -> on_metal w x y.
Proof.
  intros sol L P S R s c x y I M. assert (H0 := half_nonneg lw w L).
  pose proof (piece_style isInit b lw w s c sol L P S I) as Sc. destruct (piece_layer isInit b lw sol w s c P I) as (_ & Wc & Pc).
  destruct (piece_cases isInit b lw sol w P s (FSeg c) I) as (c' & E & K). injection E as <-.
  destruct K as [(_ & -> & _)|K]; [exact M|]. destruct K as [(Hx & Hy & _ & K)|(Hy & Hx & _ & K)].
  - assert (Hc : px (wb c) = px (we c) /\ py (wb c) <= py (we c)) by (clear - Hx Hy K sol; destruct K as [(_ & -> & K)|[(_ & -> & K)|(_ & -> & K)]]; geo; lia).
    rewrite metal_v in M by (try assumption; lia). rewrite metal_v by (try assumption; lia). rewrite Wc in M.
    assert (Rb := proj1 (R (bbottom b)) Hx (or_introl eq_refl)). assert (Rt := proj1 (R (btop b)) Hx (or_intror eq_refl)). clear R I L.
    destruct sol. destruct S as (S1 & S2 & S3).
    destruct K as [(_ & -> & K)|[(_ & -> & K)|(_ & -> & K)]]; geo; (split; [lia|]); destruct M as [_ M]; revert M; cbv zeta; clear Sc Pc Wc; zc; cbn [bExt eExt set_begin set_end]; lia.
  - assert (Hc : py (wb c) = py (we c) /\ px (wb c) < px (we c)) by (clear - Hx Hy K sol; destruct K as [(_ & -> & K)|[(_ & -> & K)|(_ & -> & K)]]; destruct sol; geo; lia).
    rewrite metal_h in M by (try assumption; lia). rewrite metal_h by (try assumption; lia). rewrite Wc in M.
    assert (Rl := proj2 (R (bleft b)) Hy (or_introl eq_refl)). assert (Rr := proj2 (R (bright b)) Hy (or_intror eq_refl)). clear R I L.
    destruct sol. destruct S as (S1 & S2 & S3).
    destruct K as [(_ & -> & K)|[(_ & -> & K)|(_ & -> & K)]]; geo; (split; [|lia]); destruct M as [M _]; revert M; cbv zeta; clear Sc Pc Wc; zc; cbn [bExt eExt set_begin set_end]; lia.
Qed.
