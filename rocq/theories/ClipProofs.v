From Verif Require Import Base GeomModel GeomSpec ClipModel ClipSpec.

Ltac zc := repeat (match goal with |- context [if ?c then _ else _] => destruct c eqn:?; try (exfalso; lia) end).

Section P.
Variable isInit : bool.
Variable b : box.
Variable lw : Z -> Z.
Hypothesis sol : solid b.

(* what a proper wire is loaded as *)
Definition low_v (w : wire) := mkW (wl w) (wb w) (mkPt (px (we w)) (Z.min (py (we w)) (bbottom b)))
  (if py (we w) >? bbottom b then set_end (ws w) StExtend (half lw w) else ws w).
Definition high_v (w : wire) := mkW (wl w) (mkPt (px (wb w)) (Z.max (py (wb w)) (btop b))) (we w)
  (if py (wb w) <? btop b then set_begin (ws w) StExtend (half lw w) else ws w).
Definition mid_v (w : wire) :=
  mkW (wl w) (mkPt (px (wb w)) (Z.max (py (wb w)) (bbottom b))) (mkPt (px (we w)) (Z.min (py (we w)) (btop b)))
    (let s := if py (wb w) <? bbottom b then set_begin (ws w) StExtend (half lw w) else ws w in
     if py (we w) >? btop b then set_end s StExtend (half lw w) else s).
Definition low_h (w : wire) := mkW (wl w) (wb w) (mkPt (Z.min (px (we w)) (bleft b)) (py (we w)))
  (if px (we w) >? bleft b then set_end (ws w) StExtend (half lw w) else ws w).
Definition high_h (w : wire) := mkW (wl w) (mkPt (Z.max (px (wb w)) (bright b)) (py (wb w))) (we w)
  (if px (wb w) <? bright b then set_begin (ws w) StExtend (half lw w) else ws w).
Definition mid_h (w : wire) :=
  mkW (wl w) (mkPt (Z.max (px (wb w)) (bleft b)) (py (wb w))) (mkPt (Z.min (px (we w)) (bright b)) (py (we w)))
    (let s := if px (wb w) <? bleft b then set_begin (ws w) StExtend (half lw w) else ws w in
     if px (we w) >? bright b then set_end s StExtend (half lw w) else s).

Definition across_v (w : wire) : bool := (bleft b <=? px (wb w)) && (if isInit then px (wb w) <? bright b else px (wb w) <=? bright b).
Definition across_h (w : wire) : bool := (bbottom b <=? py (wb w)) && (if isInit then py (wb w) <? btop b else py (wb w) <=? btop b).

Lemma load_v w : px (wb w) = px (we w) -> py (wb w) < py (we w) ->
  load_fig isInit b lw (FSeg w) =
  if across_v w then
    (if py (wb w) <? bbottom b then [(Ext, FSeg (low_v w))] else []) ++
    (if (py (wb w) <? btop b) && (bbottom b <? py (we w)) then [(Route, FSeg (mid_v w))] else []) ++
    (if py (we w) >? btop b then [(Ext, FSeg (high_v w))] else [])
  else [(Ext, FSeg w)].
Proof.
  destruct w as [l [x y1] [x' y2] s]; cbn [wb we wl ws px py]. intros <- Hy.
  unfold load_fig, load_seg, across_v, low_v, mid_v, high_v, solid, bleft, bright, bbottom, btop in *.
  cbn [wb we wl ws px py]. rewrite Z.eqb_refl.
  destruct ((px (ll b) <=? x) && (if isInit then x <? px (ur b) else x <=? px (ur b))) eqn:A; [|reflexivity].
  assert (Hx : px (ll b) <= x <= px (ur b)) by (destruct isInit; lia).
  cbv zeta.
  destruct (y1 <? py (ll b)) eqn:E1; destruct (y2 >? py (ur b)) eqn:E2; destruct (y2 <? py (ll b)) eqn:E3; destruct (y1 >? py (ur b)) eqn:E4;
    try (exfalso; lia);
    destruct (y1 >=? py (ur b)) eqn:E5; destruct (y2 <=? py (ll b)) eqn:E6; try (exfalso; lia);
    unfold half; cbn [negb orb app map final_side fst snd wb we wl];
    unfold box_contains_pt, bleft, bright, bbottom, btop; cbn [px py]; zc; try reflexivity.
Qed.
Lemma load_h w : py (wb w) = py (we w) -> px (wb w) < px (we w) ->
  load_fig isInit b lw (FSeg w) =
  if across_h w then
    (if px (wb w) <? bleft b then [(Ext, FSeg (low_h w))] else []) ++
    (if (px (wb w) <? bright b) && (bleft b <? px (we w)) then [(Route, FSeg (mid_h w))] else []) ++
    (if px (we w) >? bright b then [(Ext, FSeg (high_h w))] else [])
  else [(Ext, FSeg w)].
Proof.
  destruct w as [l [x1 y] [x2 y'] s]; cbn [wb we wl ws px py]. intros <- Hy.
  unfold load_fig, load_seg, across_h, low_h, mid_h, high_h, solid, bleft, bright, bbottom, btop in *.
  cbn [wb we wl ws px py]. destruct (x1 =? x2) eqn:E0; [exfalso; lia|]. rewrite Z.eqb_refl.
  destruct ((py (ll b) <=? y) && (if isInit then y <? py (ur b) else y <=? py (ur b))) eqn:A; [|reflexivity].
  assert (Hx : py (ll b) <= y <= py (ur b)) by (destruct isInit; lia).
  cbv zeta.
  destruct (x1 <? px (ll b)) eqn:E1; destruct (x2 >? px (ur b)) eqn:E2; destruct (x2 <? px (ll b)) eqn:E3; destruct (x1 >? px (ur b)) eqn:E4;
    try (exfalso; lia);
    destruct (x1 >=? px (ur b)) eqn:E5; destruct (x2 <=? px (ll b)) eqn:E6; try (exfalso; lia);
    unfold half; cbn [negb orb app map final_side fst snd wb we wl];
    unfold box_contains_pt, bleft, bright, bbottom, btop; cbn [px py]; zc; try reflexivity.
Qed.

(* what removal keeps: exactly the fixed pieces *)
Lemma app_eq {A} (a a' c c' : list A) : a = a' -> c = c' -> a ++ c = a' ++ c'.
Proof. intros -> ->. reflexivity. Qed.
Lemma kept_is_ext w : proper w ->
  fst (remove_fig isInit b lw (FSeg w)) = on_side Ext (load_fig isInit b lw (FSeg w)).
Proof.
  intros [[Hx Hy]|[Hy Hx]].
  - rewrite load_v by assumption. cbn [remove_fig fst]. unfold remove_seg, across_v. cbv zeta.
    destruct (px (wb w) =? px (we w)) eqn:E0; [|exfalso; lia].
    destruct ((bleft b <=? px (wb w)) && (if isInit then px (wb w) <? bright b else px (wb w) <=? bright b)) eqn:A; [|reflexivity].
    destruct sol as [S1 S2]. unfold bleft, bright, bbottom, btop in *. cbn [andb].
    unfold low_v, high_v, bleft, bright, bbottom, btop.
    destruct (negb ((py (wb w) >? py (ur b)) || (py (we w) <? py (ll b)))) eqn:B.
    + destruct (py (wb w) <? py (ll b)) eqn:E1; destruct (py (we w) >? py (ur b)) eqn:E2;
      destruct ((py (wb w) <? py (ur b)) && (py (ll b) <? py (we w))) eqn:E3; reflexivity.
    + destruct (py (wb w) <? py (ll b)) eqn:E1; destruct (py (we w) >? py (ur b)) eqn:E2;
      destruct ((py (wb w) <? py (ur b)) && (py (ll b) <? py (we w))) eqn:E3; try (exfalso; lia); cbn [app on_side filter map fst snd].
      * destruct (py (we w) >? py (ll b)) eqn:E4; [exfalso; lia|]. rewrite Z.min_l by lia. destruct w as [l [x y1] [x' y2] s]; reflexivity.
      * destruct (py (wb w) <? py (ur b)) eqn:E4; [exfalso; lia|]. rewrite Z.max_l by lia. destruct w as [l [x y1] [x' y2] s]; reflexivity.
  - rewrite load_h by assumption. cbn [remove_fig fst]. unfold remove_seg, across_h. cbv zeta.
    destruct (px (wb w) =? px (we w)) eqn:E0; [exfalso; lia|]. destruct (py (wb w) =? py (we w)) eqn:E00; [|exfalso; lia].
    destruct ((bbottom b <=? py (wb w)) && (if isInit then py (wb w) <? btop b else py (wb w) <=? btop b)) eqn:A; [|reflexivity].
    destruct sol as [S1 S2]. unfold bleft, bright, bbottom, btop in *. cbn [andb].
    unfold low_h, high_h, bleft, bright, bbottom, btop.
    destruct (negb ((px (wb w) >? px (ur b)) || (px (we w) <? px (ll b)))) eqn:B.
    + destruct (px (wb w) <? px (ll b)) eqn:E1; destruct (px (we w) >? px (ur b)) eqn:E2;
      destruct ((px (wb w) <? px (ur b)) && (px (ll b) <? px (we w))) eqn:E3; reflexivity.
    + destruct (px (wb w) <? px (ll b)) eqn:E1; destruct (px (we w) >? px (ur b)) eqn:E2;
      destruct ((px (wb w) <? px (ur b)) && (px (ll b) <? px (we w))) eqn:E3; try (exfalso; lia); cbn [app on_side filter map fst snd].
      * destruct (px (we w) >? px (ll b)) eqn:E4; [exfalso; lia|]. rewrite Z.min_l by lia. destruct w as [l [x y1] [x' y2] s]; reflexivity.
      * destruct (px (wb w) <? px (ur b)) eqn:E4; [exfalso; lia|]. rewrite Z.max_l by lia. destruct w as [l [x y1] [x' y2] s]; reflexivity.
Qed.
Lemma kept_is_ext_fig f : fig_proper f ->
  fst (remove_fig isInit b lw f) = on_side Ext (load_fig isInit b lw f).
Proof.
  destruct f as [w|o l1 l2 d|o l off]; intros P; [apply kept_is_ext; exact P| |]; cbn; destruct (origin_in isInit b o); reflexivity.
Qed.

(* the pieces of a loaded wire *)
Lemma piece_cases w : proper w -> forall s f, In (s, f) (load_fig isInit b lw (FSeg w)) ->
  exists c, f = FSeg c /\
  ( (s = Ext /\ c = w /\
      ((px (wb w) = px (we w) /\ across_v w = false) \/ (py (wb w) = py (we w) /\ px (wb w) < px (we w) /\ across_h w = false)))
  \/ (px (wb w) = px (we w) /\ py (wb w) < py (we w) /\ across_v w = true /\
      ((s = Ext /\ c = low_v w /\ py (wb w) < bbottom b) \/
       (s = Route /\ c = mid_v w /\ py (wb w) < btop b /\ bbottom b < py (we w)) \/
       (s = Ext /\ c = high_v w /\ btop b < py (we w))))
  \/ (py (wb w) = py (we w) /\ px (wb w) < px (we w) /\ across_h w = true /\
      ((s = Ext /\ c = low_h w /\ px (wb w) < bleft b) \/
       (s = Route /\ c = mid_h w /\ px (wb w) < bright b /\ bleft b < px (we w)) \/
       (s = Ext /\ c = high_h w /\ bright b < px (we w)))) ).
Proof.
  intros [[Hx Hy]|[Hy Hx]] s f.
  - rewrite load_v by assumption. destruct (across_v w) eqn:A.
    + rewrite !in_app_iff. intros [H|[H|H]].
      * destruct (py (wb w) <? bbottom b) eqn:E; [|destruct H]. destruct H as [H|[]]. injection H as <- <-. eexists. split; [reflexivity|]. right. left. repeat (split; [first [assumption|reflexivity]|]). left. repeat (split; [reflexivity|]). lia.
      * destruct ((py (wb w) <? btop b) && (bbottom b <? py (we w))) eqn:E; [|destruct H]. destruct H as [H|[]]. injection H as <- <-. eexists. split; [reflexivity|]. right. left. repeat (split; [first [assumption|reflexivity]|]). right. left. repeat (split; [reflexivity|]). lia.
      * destruct (py (we w) >? btop b) eqn:E; [|destruct H]. destruct H as [H|[]]. injection H as <- <-. eexists. split; [reflexivity|]. right. left. repeat (split; [first [assumption|reflexivity]|]). right. right. repeat (split; [reflexivity|]). lia.
    + intros [H|[]]. injection H as <- <-. eexists. split; [reflexivity|]. left. split; [reflexivity|]. split; [reflexivity|]. left. auto.
  - rewrite load_h by assumption. destruct (across_h w) eqn:A.
    + rewrite !in_app_iff. intros [H|[H|H]].
      * destruct (px (wb w) <? bleft b) eqn:E; [|destruct H]. destruct H as [H|[]]. injection H as <- <-. eexists. split; [reflexivity|]. right. right. repeat (split; [first [assumption|reflexivity]|]). left. repeat (split; [reflexivity|]). lia.
      * destruct ((px (wb w) <? bright b) && (bleft b <? px (we w))) eqn:E; [|destruct H]. destruct H as [H|[]]. injection H as <- <-. eexists. split; [reflexivity|]. right. right. repeat (split; [first [assumption|reflexivity]|]). right. left. repeat (split; [reflexivity|]). lia.
      * destruct (px (we w) >? bright b) eqn:E; [|destruct H]. destruct H as [H|[]]. injection H as <- <-. eexists. split; [reflexivity|]. right. right. repeat (split; [first [assumption|reflexivity]|]). right. right. repeat (split; [reflexivity|]). lia.
    + intros [H|[]]. injection H as <- <-. eexists. split; [reflexivity|]. left. split; [reflexivity|]. split; [reflexivity|]. right. auto.
Qed.
(* and conversely *)
Lemma in_low_v w : px (wb w) = px (we w) -> py (wb w) < py (we w) -> across_v w = true -> py (wb w) < bbottom b -> In (Ext, FSeg (low_v w)) (load_fig isInit b lw (FSeg w)).
Proof. intros Hx Hy A H. rewrite load_v, A by assumption. destruct (py (wb w) <? bbottom b) eqn:E; [|lia]. apply in_or_app. left. now left. Qed.
Lemma in_mid_v w : px (wb w) = px (we w) -> py (wb w) < py (we w) -> across_v w = true -> py (wb w) < btop b -> bbottom b < py (we w) -> In (Route, FSeg (mid_v w)) (load_fig isInit b lw (FSeg w)).
Proof. intros Hx Hy A H H'. rewrite load_v, A by assumption. apply in_or_app. right. apply in_or_app. left. destruct ((py (wb w) <? btop b) && (bbottom b <? py (we w))) eqn:E; [now left|lia]. Qed.
Lemma in_high_v w : px (wb w) = px (we w) -> py (wb w) < py (we w) -> across_v w = true -> btop b < py (we w) -> In (Ext, FSeg (high_v w)) (load_fig isInit b lw (FSeg w)).
Proof. intros Hx Hy A H. rewrite load_v, A by assumption. apply in_or_app. right. apply in_or_app. right. destruct (py (we w) >? btop b) eqn:E; [now left|lia]. Qed.
Lemma in_low_h w : py (wb w) = py (we w) -> px (wb w) < px (we w) -> across_h w = true -> px (wb w) < bleft b -> In (Ext, FSeg (low_h w)) (load_fig isInit b lw (FSeg w)).
Proof. intros Hx Hy A H. rewrite load_h, A by assumption. destruct (px (wb w) <? bleft b) eqn:E; [|lia]. apply in_or_app. left. now left. Qed.
Lemma in_mid_h w : py (wb w) = py (we w) -> px (wb w) < px (we w) -> across_h w = true -> px (wb w) < bright b -> bleft b < px (we w) -> In (Route, FSeg (mid_h w)) (load_fig isInit b lw (FSeg w)).
Proof. intros Hx Hy A H H'. rewrite load_h, A by assumption. apply in_or_app. right. apply in_or_app. left. destruct ((px (wb w) <? bright b) && (bleft b <? px (we w))) eqn:E; [now left|lia]. Qed.
Lemma in_high_h w : py (wb w) = py (we w) -> px (wb w) < px (we w) -> across_h w = true -> bright b < px (we w) -> In (Ext, FSeg (high_h w)) (load_fig isInit b lw (FSeg w)).
Proof. intros Hx Hy A H. rewrite load_h, A by assumption. apply in_or_app. right. apply in_or_app. right. destruct (px (we w) >? bright b) eqn:E; [now left|lia]. Qed.
Lemma in_whole w : proper w -> (px (wb w) = px (we w) -> across_v w = false) -> (py (wb w) = py (we w) -> across_h w = false) -> In (Ext, FSeg w) (load_fig isInit b lw (FSeg w)).
Proof. intros [[Hx Hy]|[Hy Hx]] A B; [rewrite load_v, A by assumption|rewrite load_h, B by assumption]; now left. Qed.

Ltac geo := unfold on_line, wlen, low_v, mid_v, high_v, low_h, mid_h, high_h, across_v, across_h, in_box2, in_interior2, owned, solid, bleft, bright, bbottom, btop in *; cbn [wl wb we ws px py] in *.

Lemma piece_layer w s c : proper w -> In (s, FSeg c) (load_fig isInit b lw (FSeg w)) -> wl c = wl w /\ sWid (ws c) = sWid (ws w) /\ proper c.
Proof.
  intros P H. destruct (piece_cases w P s (FSeg c) H) as (c' & E & K). injection E as <-.
  unfold proper. destruct K as [(-> & -> & _)|[(Hx & Hy & A & [(-> & -> & K)|[(-> & -> & K)|(-> & -> & K)]])|(Hx & Hy & A & [(-> & -> & K)|[(-> & -> & K)|(-> & -> & K)]])]];
    (split; [reflexivity|]; split; [|try exact P; geo; lia]); try reflexivity; unfold low_v, mid_v, high_v, low_h, mid_h, high_h; cbn [ws]; cbv zeta; zc; reflexivity.
Qed.
Lemma piece_on w s c : proper w -> In (s, FSeg c) (load_fig isInit b lw (FSeg w)) -> forall x y, on_line c x y -> on_line w x y.
Proof.
  intros P H x y. destruct (piece_cases w P s (FSeg c) H) as (c' & E & K). injection E as <-.
  destruct K as [(-> & -> & _)|[(Hx & Hy & A & [(-> & -> & K)|[(-> & -> & K)|(-> & -> & K)]])|(Hx & Hy & A & [(-> & -> & K)|[(-> & -> & K)|(-> & -> & K)]])]]; auto; geo; lia.
Qed.
Lemma line_covered w : proper w -> forall x y, on_line w x y -> exists s c, In (s, FSeg c) (load_fig isInit b lw (FSeg w)) /\ on_line c x y.
Proof.
  intros P x y O. destruct P as [[Hx Hy]|[Hy Hx]].
  - destruct (across_v w) eqn:A.
    + destruct (Z_lt_le_dec (py (wb w)) (bbottom b)) as [L|L]; [destruct (Z_le_gt_dec y (2 * bbottom b)) as [M|M]|].
      * exists Ext, (low_v w). split; [apply in_low_v; assumption|]. geo. lia.
      * destruct (Z_le_gt_dec y (2 * btop b)) as [N|N].
        -- exists Route, (mid_v w). split; [apply in_mid_v; try assumption; geo; lia|]. geo. lia.
        -- exists Ext, (high_v w). split; [apply in_high_v; try assumption; geo; lia|]. geo. lia.
      * destruct (Z_lt_le_dec (py (wb w)) (btop b)) as [L'|L'].
        -- destruct (Z_le_gt_dec y (2 * btop b)) as [N|N].
           ++ exists Route, (mid_v w). split; [apply in_mid_v; try assumption; geo; lia|]. geo. lia.
           ++ exists Ext, (high_v w). split; [apply in_high_v; try assumption; geo; lia|]. geo. lia.
        -- exists Ext, (high_v w). split; [apply in_high_v; try assumption; geo; lia|]. geo. lia.
    + exists Ext, w. split; [|exact O]. apply in_whole; [left; auto|auto|]. intros; lia.
  - destruct (across_h w) eqn:A.
    + destruct (Z_lt_le_dec (px (wb w)) (bleft b)) as [L|L]; [destruct (Z_le_gt_dec x (2 * bleft b)) as [M|M]|].
      * exists Ext, (low_h w). split; [apply in_low_h; assumption|]. geo. lia.
      * destruct (Z_le_gt_dec x (2 * bright b)) as [N|N].
        -- exists Route, (mid_h w). split; [apply in_mid_h; try assumption; geo; lia|]. geo. lia.
        -- exists Ext, (high_h w). split; [apply in_high_h; try assumption; geo; lia|]. geo. lia.
      * destruct (Z_lt_le_dec (px (wb w)) (bright b)) as [L'|L'].
        -- destruct (Z_le_gt_dec x (2 * bright b)) as [N|N].
           ++ exists Route, (mid_h w). split; [apply in_mid_h; try assumption; geo; lia|]. geo. lia.
           ++ exists Ext, (high_h w). split; [apply in_high_h; try assumption; geo; lia|]. geo. lia.
        -- exists Ext, (high_h w). split; [apply in_high_h; try assumption; geo; lia|]. geo. lia.
    + exists Ext, w. split; [|exact O]. apply in_whole; [right; auto| |auto]. intros; lia.
Qed.
Lemma route_inside w c : proper w -> In (Route, FSeg c) (load_fig isInit b lw (FSeg w)) -> forall x y, on_line c x y -> in_box2 b x y.
Proof.
  intros P H x y. destruct (piece_cases w P Route (FSeg c) H) as (c' & E & K). injection E as <-.
  destruct K as [(E & _)|[(Hx & Hy & A & [(E & _)|[(_ & -> & K)|(E & _)]])|(Hx & Hy & A & [(E & _)|[(_ & -> & K)|(E & _)]])]]; try discriminate E; intros O; geo; destruct isInit; lia.
Qed.
Lemma ext_outside w c : proper w -> In (Ext, FSeg c) (load_fig isInit b lw (FSeg w)) -> forall x y, on_line c x y -> ~ in_interior2 x y b.
Proof.
  intros P H x y. destruct (piece_cases w P Ext (FSeg c) H) as (c' & E & K). injection E as <-.
  destruct K as [(_ & -> & [[A B]|(A & A' & B)])|[(Hx & Hy & A & [(_ & -> & K)|[(E & _)|(_ & -> & K)]])|(Hx & Hy & A & [(_ & -> & K)|[(E & _)|(_ & -> & K)]])]]; try discriminate E; intros O I; geo; destruct isInit; lia.
Qed.
Lemma ext_one_owned w c : proper w -> In (Ext, FSeg c) (load_fig isInit b lw (FSeg w)) ->
  forall x y x' y', on_line c x y -> on_line c x' y' -> owned isInit b x y -> owned isInit b x' y' -> x = x' /\ y = y'.
Proof.
  intros P H x y x' y'. destruct (piece_cases w P Ext (FSeg c) H) as (c' & E & K). injection E as <-.
  destruct sol as [S1 S2].
  destruct K as [(_ & -> & [[A B]|(A & A' & B)])|[(Hx & Hy & A & [(_ & -> & K)|[(E & _)|(_ & -> & K)]])|(Hx & Hy & A & [(_ & -> & K)|[(E & _)|(_ & -> & K)]])]]; try discriminate E; intros O O' [I J] [I' J']; geo; destruct isInit; try specialize (J eq_refl); try specialize (J' eq_refl); clear H; try (split; lia).
Qed.
End P.
