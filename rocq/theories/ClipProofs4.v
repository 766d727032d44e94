From Coq Require Import Permutation.
From Verif Require Import Base GeomModel GeomSpec ClipModel ClipSpec ClipProofs ClipProofs2 ClipProofs3.

Ltac geo := unfold on_line, wlen, low_v, mid_v, high_v, low_h, mid_h, high_h, across_v, across_h, in_box2, in_interior2, owned, solid, bleft, bright, bbottom, btop in *; cbn [wl wb we ws px py] in *.

Definition vert (w : wire) : bool := px (wb w) =? px (we w).
Definition at_ (w : wire) (c : Z) : point := if vert w then mkPt (px (wb w)) c else mkPt c (py (wb w)).
Definition b0 (w : wire) : Z := if vert w then py (wb w) else px (wb w).
Definition e0 (w : wire) : Z := if vert w then py (we w) else px (we w).
Definition from_ (w : wire) (f : option Z) : point := match f with None => wb w | Some c => at_ w c end.
Definition to_ (w : wire) (t : option Z) : point := match t with None => we w | Some c => at_ w c end.
Definition sub (h : Z) (w : wire) (f t : option Z) : wire :=
  mkW (wl w) (from_ w f) (to_ w t)
    (mkSt (match f with None => bSty (ws w) | Some _ => StExtend end) (match f with None => bExt (ws w) | Some _ => h end)
          (match t with None => eSty (ws w) | Some _ => StExtend end) (match t with None => eExt (ws w) | Some _ => h end) (sWid (ws w))).
Fixpoint chain (h : Z) (w : wire) (f : option Z) (cs : list Z) : list wire :=
  match cs with [] => [sub h w f None] | c :: r => sub h w f (Some c) :: chain h w (Some c) r end.
Lemma sub_whole h w : sub h w None None = w.
Proof. destruct w as [l p q [a x c y e]]. reflexivity. Qed.

Definition cuts (isInit : bool) (b : box) (w : wire) : list Z :=
  if vert w then if across_v isInit b w then
    (if (py (wb w) <? bbottom b) && (bbottom b <? py (we w)) then [bbottom b] else []) ++
    (if (py (wb w) <? btop b) && (btop b <? py (we w)) then [btop b] else []) else []
  else if across_h isInit b w then
    (if (px (wb w) <? bleft b) && (bleft b <? px (we w)) then [bleft b] else []) ++
    (if (px (wb w) <? bright b) && (bright b <? px (we w)) then [bright b] else []) else [].

Lemma load_chain isInit b lw w : solid b -> proper w ->
  map snd (load_fig isInit b lw (FSeg w)) = map FSeg (chain (half lw w) w None (cuts isInit b w)).
Proof.
  intros sol P. destruct P as [[Hx Hy]|[Hy Hx]].
  - rewrite load_v by assumption. unfold cuts. assert (V : vert w = true) by (unfold vert; lia). rewrite V.
    destruct (across_v isInit b w); [|cbn; now rewrite sub_whole].
    destruct sol as [S1 S2]. change (px (ll b)) with (bleft b) in *. change (px (ur b)) with (bright b) in *. change (py (ll b)) with (bbottom b) in *. change (py (ur b)) with (btop b) in *.
    destruct w as [l [x y1] [x' y2] [sa xa sc xc wd]]. cbn [wb we wl ws px py] in *. subst x'.
    destruct (y1 <? bbottom b) eqn:E1; destruct (bbottom b <? y2) eqn:E2; destruct (y1 <? btop b) eqn:E3; destruct (btop b <? y2) eqn:E4; try (exfalso; lia);
      destruct (y2 >? btop b) eqn:E5; try (exfalso; lia); cbn [andb app map snd chain]; unfold sub, from_, to_, at_, low_v, mid_v, high_v; rewrite ?V; cbn [wb we wl ws px py]; cbv zeta;
      rewrite ?E1, ?E3, ?E5; destruct (y2 >? bbottom b) eqn:E6; try (exfalso; lia);
      rewrite ?(Z.min_l y2 (bbottom b)), ?(Z.min_r y2 (bbottom b)), ?(Z.max_l y1 (bbottom b)), ?(Z.max_r y1 (bbottom b)), ?(Z.min_l y2 (btop b)), ?(Z.min_r y2 (btop b)), ?(Z.max_l y1 (btop b)), ?(Z.max_r y1 (btop b)) by lia; reflexivity.
  - rewrite load_h by assumption. unfold cuts. assert (V : vert w = false) by (unfold vert; lia). rewrite V.
    destruct (across_h isInit b w); [|cbn; now rewrite sub_whole].
    destruct sol as [S1 S2]. change (px (ll b)) with (bleft b) in *. change (px (ur b)) with (bright b) in *. change (py (ll b)) with (bbottom b) in *. change (py (ur b)) with (btop b) in *.
    destruct w as [l [x1 y] [x2 y'] [sa xa sc xc wd]]. cbn [wb we wl ws px py] in *. subst y'.
    destruct (x1 <? bleft b) eqn:E1; destruct (bleft b <? x2) eqn:E2; destruct (x1 <? bright b) eqn:E3; destruct (bright b <? x2) eqn:E4; try (exfalso; lia);
      destruct (x2 >? bright b) eqn:E5; try (exfalso; lia); cbn [andb app map snd chain]; unfold sub, from_, to_, at_, low_h, mid_h, high_h; rewrite ?V; cbn [wb we wl ws px py]; cbv zeta;
      rewrite ?E1, ?E3, ?E5; destruct (x2 >? bleft b) eqn:E6; try (exfalso; lia);
      rewrite ?(Z.min_l x2 (bleft b)), ?(Z.min_r x2 (bleft b)), ?(Z.max_l x1 (bleft b)), ?(Z.max_r x1 (bleft b)), ?(Z.min_l x2 (bright b)), ?(Z.min_r x2 (bright b)), ?(Z.max_l x1 (bright b)), ?(Z.max_r x1 (bright b)) by lia; reflexivity.
Qed.
(* increasing cuts strictly inside the wire, at most two *)
Definition cuts_ok (w : wire) (cs : list Z) : Prop :=
  match cs with [] => True | [c] => b0 w < c < e0 w | [c; d] => b0 w < c /\ c < d /\ d < e0 w | _ => False end.
Lemma cuts_are_ok isInit b w : solid b -> cuts_ok w (cuts isInit b w).
Proof.
  intros [S1 S2]. unfold cuts, cuts_ok, b0, e0. geo. destruct (vert w); zc; cbn; try exact I; lia.
Qed.
Lemma filter_cuts w cs g : cuts_ok w cs -> cuts_ok w (filter g cs).
Proof. destruct cs as [|c [|d [|]]]; cbn; try tauto; destruct (g c); try destruct (g d); cbn; lia || tauto. Qed.
Lemma cut_inside isInit b w c : solid b -> In c (cuts isInit b w) -> b0 w < c < e0 w.
Proof. intros sol H. pose proof (cuts_are_ok isInit b w sol) as K. destruct (cuts isInit b w) as [|x [|y [|]]]; cbn in H, K; try tauto; destruct H as [<-|H]; try lia; destruct H as [<-|[]]; lia. Qed.

Lemma at_on_line w c : proper w -> b0 w <= c <= e0 w -> on_line w (2 * px (at_ w c)) (2 * py (at_ w c)).
Proof. unfold proper, b0, e0, at_, on_line, vert. destruct (px (wb w) =? px (we w)) eqn:E; cbn [px py]; lia. Qed.
Lemma at_inj w c d : at_ w c = at_ w d -> c = d.
Proof. unfold at_. destruct (vert w); intros E; injection E; auto. Qed.
Lemma at_begin w : proper w -> at_ w (b0 w) = wb w.
Proof. unfold at_, b0, vert. destruct w as [l [x y] [x' y'] s]. unfold proper. cbn. intros P. destruct (x =? x'); f_equal; lia. Qed.
Lemma at_end w : proper w -> at_ w (e0 w) = we w.
Proof. unfold at_, e0, vert. destruct w as [l [x y] [x' y'] s]. unfold proper. cbn. intros P. destruct (x =? x') eqn:E; f_equal; lia. Qed.
Lemma len_pos w : proper w -> b0 w < e0 w.
Proof. unfold proper, b0, e0, vert. destruct (px (wb w) =? px (we w)) eqn:E; lia. Qed.

(* boundary points of a removed wire: its cuts, or one of its ends *)
Lemma remove_pts isInit b lw w p l : solid b -> proper w -> In (p, l) (snd (remove_fig isInit b lw (FSeg w))) ->
  l = wl w /\ on_line w (2 * px p) (2 * py p) /\ ((exists c, In c (cuts isInit b w) /\ p = at_ w c) \/ p = wb w \/ p = we w).
Proof.
  intros sol P. cbn [remove_fig snd]. unfold remove_seg. cbv zeta. destruct sol as [S1 S2].
  destruct P as [[Hx Hy]|[Hy Hx]].
  - assert (V : vert w = true) by (unfold vert; lia). unfold cuts, at_. rewrite V. unfold across_v.
    destruct (px (wb w) =? px (we w)) eqn:E; [|lia].
    destruct ((bleft b <=? px (wb w)) && (if isInit then px (wb w) <? bright b else px (wb w) <=? bright b)) eqn:A; [|intros []].
    cbn [andb]. destruct (negb ((py (wb w) >? btop b) || (py (we w) <? bbottom b))) eqn:B; [|intros []].
    cbn [snd]. intros H. apply in_app_or in H as [H|H].
    + destruct (py (wb w) <? bbottom b) eqn:E1; [|destruct H]. cbn [snd] in H. destruct (py (we w) >=? bbottom b) eqn:E2; [|destruct H].
      destruct H as [H|[]]. injection H as <- <-. split; [reflexivity|]. split; [geo; lia|].
      destruct (bbottom b <? py (we w)) eqn:E3.
      * left. exists (bbottom b). split; [cbn; now left|]. f_equal; lia.
      * right. right. rewrite Z.min_l by lia. destruct (we w); reflexivity.
    + destruct (py (we w) >? btop b) eqn:E1; [|destruct H]. cbn [snd] in H. destruct (py (wb w) <=? btop b) eqn:E2; [|destruct H].
      destruct H as [H|[]]. injection H as <- <-. split; [reflexivity|]. split; [geo; lia|].
      destruct (py (wb w) <? btop b) eqn:E3.
      * left. exists (btop b). split; [|f_equal; lia]. apply in_or_app. right. destruct (btop b <? py (we w)) eqn:E4; [now left|lia].
      * right. left. rewrite Z.max_l by lia. destruct (wb w); reflexivity.
  - assert (V : vert w = false) by (unfold vert; lia). unfold cuts, at_. rewrite V. unfold across_h.
    destruct (px (wb w) =? px (we w)) eqn:E; [lia|]. destruct (py (wb w) =? py (we w)) eqn:E'; [|lia].
    destruct ((bbottom b <=? py (wb w)) && (if isInit then py (wb w) <? btop b else py (wb w) <=? btop b)) eqn:A; [|intros []].
    cbn [andb]. destruct (negb ((px (wb w) >? bright b) || (px (we w) <? bleft b))) eqn:B; [|intros []].
    cbn [snd]. intros H. apply in_app_or in H as [H|H].
    + destruct (px (wb w) <? bleft b) eqn:E1; [|destruct H]. cbn [snd] in H. destruct (px (we w) >=? bleft b) eqn:E2; [|destruct H].
      destruct H as [H|[]]. injection H as <- <-. split; [reflexivity|]. split; [geo; lia|].
      destruct (bleft b <? px (we w)) eqn:E3.
      * left. exists (bleft b). split; [cbn; now left|]. f_equal; lia.
      * right. right. rewrite Z.min_l by lia. destruct (we w); reflexivity.
    + destruct (px (we w) >? bright b) eqn:E1; [|destruct H]. cbn [snd] in H. destruct (px (wb w) <=? bright b) eqn:E2; [|destruct H].
      destruct H as [H|[]]. injection H as <- <-. split; [reflexivity|]. split; [geo; lia|].
      destruct (px (wb w) <? bright b) eqn:E3.
      * left. exists (bright b). split; [|f_equal; lia]. apply in_or_app. right. destruct (bright b <? px (we w)) eqn:E4; [now left|lia].
      * right. left. rewrite Z.max_l by lia. destruct (wb w); reflexivity.
Qed.
Lemma cut_is_pt isInit b lw w c : solid b -> proper w -> In c (cuts isInit b w) -> In (at_ w c, wl w) (snd (remove_fig isInit b lw (FSeg w))).
Proof.
  intros [S1 S2] P. cbn [remove_fig snd]. unfold remove_seg. cbv zeta. change (px (ll b)) with (bleft b) in *. change (px (ur b)) with (bright b) in *. change (py (ll b)) with (bbottom b) in *. change (py (ur b)) with (btop b) in *.
  destruct P as [[Hx Hy]|[Hy Hx]].
  - assert (V : vert w = true) by (unfold vert; lia). unfold cuts, at_. rewrite V. unfold across_v.
    destruct (px (wb w) =? px (we w)) eqn:E; [|lia].
    destruct ((bleft b <=? px (wb w)) && (if isInit then px (wb w) <? bright b else px (wb w) <=? bright b)) eqn:A; [|intros []].
    cbn [andb]. intros H. apply in_app_or in H as [H|H].
    + destruct ((py (wb w) <? bbottom b) && (bbottom b <? py (we w))) eqn:E1; [destruct H as [<-|[]]|destruct H].
      destruct (negb ((py (wb w) >? btop b) || (py (we w) <? bbottom b))) eqn:B; [|lia]. cbn [snd]. apply in_or_app. left.
      destruct (py (wb w) <? bbottom b) eqn:E2; [|lia]. cbn [snd]. destruct (py (we w) >=? bbottom b) eqn:E3; [|lia]. left. do 2 f_equal; lia.
    + destruct ((py (wb w) <? btop b) && (btop b <? py (we w))) eqn:E1; [destruct H as [<-|[]]|destruct H].
      destruct (negb ((py (wb w) >? btop b) || (py (we w) <? bbottom b))) eqn:B; [|lia]. cbn [snd]. apply in_or_app. right.
      destruct (py (we w) >? btop b) eqn:E2; [|lia]. cbn [snd]. destruct (py (wb w) <=? btop b) eqn:E3; [|lia]. left. do 2 f_equal; lia.
  - assert (V : vert w = false) by (unfold vert; lia). unfold cuts, at_. rewrite V. unfold across_h.
    destruct (px (wb w) =? px (we w)) eqn:E; [lia|]. destruct (py (wb w) =? py (we w)) eqn:E'; [|lia].
    destruct ((bbottom b <=? py (wb w)) && (if isInit then py (wb w) <? btop b else py (wb w) <=? btop b)) eqn:A; [|intros []].
    cbn [andb]. intros H. apply in_app_or in H as [H|H].
    + destruct ((px (wb w) <? bleft b) && (bleft b <? px (we w))) eqn:E1; [destruct H as [<-|[]]|destruct H].
      destruct (negb ((px (wb w) >? bright b) || (px (we w) <? bleft b))) eqn:B; [|lia]. cbn [snd]. apply in_or_app. left.
      destruct (px (wb w) <? bleft b) eqn:E2; [|lia]. cbn [snd]. destruct (px (we w) >=? bleft b) eqn:E3; [|lia]. left. do 2 f_equal; lia.
    + destruct ((px (wb w) <? bright b) && (bright b <? px (we w))) eqn:E1; [destruct H as [<-|[]]|destruct H].
      destruct (negb ((px (wb w) >? bright b) || (px (we w) <? bleft b))) eqn:B; [|lia]. cbn [snd]. apply in_or_app. right.
      destruct (px (we w) >? bright b) eqn:E2; [|lia]. cbn [snd]. destruct (px (wb w) <=? bright b) eqn:E3; [|lia]. left. do 2 f_equal; lia.
Qed.
