(* Proofs about the DEF writer and reader. *)
From Verif Require Import Base GeomModel GeomSpec ClipModel ClipSpec IoModel IoSpec.
From Coq Require Import Permutation String.
From Coq Require Import List.
Open Scope list_scope.

(* ---- metal of a wire *)
Lemma wire_metal lw w : 0 <= lw (wl w) -> proper w -> standard lw w -> forall x y,
  on_metal w x y <->
  ((px (wb w) = px (we w) /\ 2 * (px (wb w) - half_w lw (wl w)) <= x <= 2 * (px (wb w) + half_w lw (wl w)) /\
     reaches (py (wb w)) (py (we w)) (bExt (ws w)) (eExt (ws w)) y) \/
   (py (wb w) = py (we w) /\ 2 * (py (wb w) - half_w lw (wl w)) <= y <= 2 * (py (wb w) + half_w lw (wl w)) /\
     reaches (px (wb w)) (px (we w)) (bExt (ws w)) (eExt (ws w)) x)).
Proof.
  destruct w as [l [x1 y1] [x2 y2] [bs be es ee wd]]. unfold standard, proper, on_metal, in_box2, seg_box, half_w, reaches.
  cbn [wl wb we ws px py bSty bExt eSty eExt sWid]. intros L P (-> & Hb & He) x y.
  assert (Q : 0 <= Z.quot (lw l) 2) by (apply Z.quot_pos; lia).
  assert (B : 0 <= be) by (destruct bs; cbn in Hb; lia). assert (E : 0 <= ee) by (destruct es; cbn in He; lia).
  set (h := Z.quot (lw l) 2) in *. clearbody h. clear Hb He.
  unfold box_set, bleft, bright, bbottom, btop.
  destruct (x1 =? x2) eqn:D; cbn [negb ll ur px py]; zcases; lia.
Qed.

Section W.
Variable lname : Z -> string.
Variable lnum : string -> option Z.
Variable lw : Z -> Z.
Variable vname : Z -> string.
Variable vdef : string -> option Z.
Variable vl1 vl2 : Z -> Z.

Definition fig_named (f : fig) : Prop := match f with
    | FSeg w => lnum (lname (wl w)) = Some (wl w)
    | FVia _ _ _ d => lnum (lname (vl1 d)) = Some (vl1 d) /\ vname d <> ""%string /\ vdef (vname d) = Some d
    | FPatch _ l _ => lnum (lname l) = Some l
    end.
Definition end_ext (s : estyle) (e : Z) : option Z := match s with StExtend => None | StTruncate => Some 0 | StVariable => Some e end.

Lemma path_step l last p s e r : std_end (half_w lw l) s e ->
  path_from lw vdef vl1 vl2 l last (write_end p s e :: r) =
  option_map (app (to_point l last p e)) (path_from lw vdef vl1 vl2 l (Some (p, e)) r).
Proof. destruct p as [x y]. destruct s; cbn; intros H; subst; reflexivity. Qed.

(* what a figure is in the file *)
Definition shape_of (f : fig) : dshape :=
  match f with
  | FSeg w => DWire (wl w) (wb w) (we w) (bExt (ws w)) (eExt (ws w))
  | FVia o _ _ d => DVia d o
  | FPatch o l off => DRect l o (bleft off) (bbottom off) (bright off) (btop off)
  end.
Lemma write_means f : fig_named f -> fig_std lw f ->
  path_means lnum lw vdef vl1 vl2 (write_fig lname vname vl1 f) = Some [shape_of f].
Proof.
  destruct f as [w|o l1 l2 d|o l off]; cbn [fig_named fig_std write_fig path_means shape_of].
  - intros -> (_ & B & E). rewrite (path_step _ _ _ _ _ _ B), (path_step _ _ _ _ _ _ E). reflexivity.
  - destruct o as [x y]. intros (-> & _ & H) _. cbn. rewrite H. reflexivity.
  - destruct o as [x y]. intros -> _. reflexivity.
Qed.
Lemma shape_covers_fig vshapes f : (forall l, 0 <= lw l) -> fig_proper f -> fig_std lw f ->
  forall l x y, shape_covers lw vshapes (shape_of f) l x y <-> fig_covers vshapes f l x y.
Proof.
  destruct f as [w|o l1 l2 d|o l off]; intros L P S l' x y; cbn [shape_of shape_covers fig_covers]; [|tauto|unfold in_box2; lia].
  split; intros (<- & H); (split; [reflexivity|]); apply (wire_metal lw w (L _) P S); assumption.
Qed.
Lemma paths_mean_map fs : Forall fig_named fs -> Forall (fig_std lw) fs ->
  paths_mean lnum lw vdef vl1 vl2 (map (write_fig lname vname vl1) fs) = Some (map shape_of fs).
Proof.
  induction 1 as [|f fs H _ IH]; intros S; [reflexivity|]. inversion S; subst.
  cbn [map paths_mean]. rewrite write_means, IH by assumption. reflexivity.
Qed.
End W.

Lemma fill_perm figs : Permutation figs (fill_conn figs).
Proof.
  unfold fill_conn. induction figs as [|f r IH]; [constructor|]. destruct f; cbn [filter is_seg is_via is_patch].
  - constructor. exact IH.
  - etransitivity; [apply perm_skip, IH|]. apply Permutation_middle.
  - etransitivity; [apply perm_skip, IH|]. rewrite !app_assoc. apply Permutation_middle.
Qed.
Lemma write_net_concat lname vname vl1 figs : List.concat (write_net lname vname vl1 figs) = map (write_fig lname vname vl1) (fill_conn figs).
Proof. unfold write_net. destruct (fill_conn figs); [reflexivity|]. cbn [List.concat]. apply app_nil_r. Qed.
Lemma Forall_perm {A} (P : A -> Prop) l l' : Permutation l l' -> Forall P l -> Forall P l'.
Proof. intros H F. rewrite Forall_forall in *. intros x I. apply F. apply (Permutation_in _ (Permutation_sym H) I). Qed.

(* ---- reading *)
Section R.
Variable lname : Z -> string.
Variable lnum : string -> option Z.
Variable lw : Z -> Z.
Variable vname : Z -> string.
Variable vdef : string -> option Z.
Variable vl1 vl2 : Z -> Z.
Hypothesis Lnz : forall l, 0 < lw l.

Definition ext_of (e : option Z) : Z := match e with Some e => e | None => -1 end.
Definition ext_len (l : Z) (e : option Z) : Z := match e with Some e => e | None => half_w lw l end.
Definition ext_sty (e : option Z) : estyle := match e with None => StExtend | Some e => if e =? 0 then StTruncate else StVariable end.
Lemma read_style_ok l e : (match e with Some v => 0 <= v | None => True end) ->
  read_style (ext_of e) (lw l) = (ext_sty e, ext_len l e).
Proof. destruct e as [e|]; cbn; intros H; unfold read_style; [|reflexivity]. zcases; try reflexivity; lia. Qed.

Lemma end_point_step st t p e : end_point t p e -> ps_step lnum st t = Some (ps_point st p e).
Proof. destruct t; cbn; try tauto; intros (-> & H); [subst; reflexivity|]. destruct H as (-> & _). reflexivity. Qed.
Lemma end_point_nn t p e : end_point t p e -> match e with Some v => 0 <= v | None => True end.
Proof. destruct t; cbn; try tauto; intros (-> & H); [subst; exact I|]. destruct H as (-> & H). exact H. Qed.
Lemma end_point_means l last t p e r : end_point t p e ->
  path_from lw vdef vl1 vl2 l last (t :: r) =
  option_map (app (to_point l last p (ext_len l e))) (path_from lw vdef vl1 vl2 l (Some (p, ext_len l e)) r).
Proof. destruct t; cbn [end_point]; try tauto; intros (-> & H); [subst; reflexivity|]. destruct H as (-> & _). reflexivity. Qed.

(* the wire the reader makes of two points *)
Definition rd_wire (l : Z) (p1 : point) (e1 : option Z) (p2 : point) (e2 : option Z) : wire :=
  if (px p1 >? px p2) || (py p1 >? py p2)
  then mkW l p2 p1 (mkSt (ext_sty e2) (ext_len l e2) (ext_sty e1) (ext_len l e1) (lw l))
  else mkW l p1 p2 (mkSt (ext_sty e1) (ext_len l e1) (ext_sty e2) (ext_len l e2) (lw l)).
Lemma rd_wire_ok l p1 e1 p2 e2 : p2 <> p1 -> (px p2 = px p1 \/ py p2 = py p1) ->
  match e1 with Some v => 0 <= v | None => True end -> match e2 with Some v => 0 <= v | None => True end ->
  proper (rd_wire l p1 e1 p2 e2) /\ standard lw (rd_wire l p1 e1 p2 e2) /\ wl (rd_wire l p1 e1 p2 e2) = l.
Proof.
  intros N A H1 H2. destruct p1 as [x1 y1], p2 as [x2 y2]. cbn [px py] in *.
  assert (x1 <> x2 \/ y1 <> y2) as D by (destruct (Z.eq_dec x1 x2); destruct (Z.eq_dec y1 y2); subst; try tauto; congruence).
  assert (E1 : std_end (half_w lw l) (ext_sty e1) (ext_len l e1)) by (destruct e1 as [e|]; cbn; [|reflexivity]; destruct (e =? 0) eqn:?; cbn; lia).
  assert (E2 : std_end (half_w lw l) (ext_sty e2) (ext_len l e2)) by (destruct e2 as [e|]; cbn; [|reflexivity]; destruct (e =? 0) eqn:?; cbn; lia).
  unfold rd_wire. cbn [px py]. destruct ((x1 >? x2) || (y1 >? y2)) eqn:C; unfold proper, standard; cbn [wl wb we ws px py sWid bSty bExt eSty eExt];
    (split; [lia|]); (split; [|reflexivity]); split; [reflexivity|split; assumption|reflexivity|split; assumption].
Qed.
Lemma rd_wire_metal vshapes l p1 e1 p2 e2 : p2 <> p1 -> (px p2 = px p1 \/ py p2 = py p1) ->
  match e1 with Some v => 0 <= v | None => True end -> match e2 with Some v => 0 <= v | None => True end ->
  forall l' x y, fig_covers vshapes (FSeg (rd_wire l p1 e1 p2 e2)) l' x y <->
                 shape_covers lw vshapes (DWire l p1 p2 (ext_len l e1) (ext_len l e2)) l' x y.
Proof.
  intros N A H1 H2 l' x y. destruct (rd_wire_ok l p1 e1 p2 e2 N A H1 H2) as (P & S & W).
  cbn [fig_covers shape_covers]. rewrite W.
  assert (L0 : 0 <= lw (wl (rd_wire l p1 e1 p2 e2))) by (specialize (Lnz (wl (rd_wire l p1 e1 p2 e2))); lia).
  split; intros (<- & H); (split; [reflexivity|]).
  - apply (wire_metal lw _ L0 P S) in H. rewrite W in H. revert H. unfold rd_wire.
    destruct ((px p1 >? px p2) || (py p1 >? py p2)) eqn:C; cbn [wl wb we ws px py bExt eExt]; [|tauto].
    assert (p1 <> p2 -> px p1 <> px p2 \/ py p1 <> py p2) as D by (destruct p1 as [a c], p2 as [a' c']; cbn; intros Q; destruct (Z.eq_dec a a'); destruct (Z.eq_dec c c'); subst; try tauto; congruence).
    specialize (D (fun q => N (eq_sym q))). clear - C D A. unfold reaches. lia.
  - apply (wire_metal lw _ L0 P S). rewrite W. revert H. unfold rd_wire.
    destruct ((px p1 >? px p2) || (py p1 >? py p2)) eqn:C; cbn [wl wb we ws px py bExt eExt]; [|tauto].
    assert (p1 <> p2 -> px p1 <> px p2 \/ py p1 <> py p2) as D by (destruct p1 as [a c], p2 as [a' c']; cbn; intros Q; destruct (Z.eq_dec a a'); destruct (Z.eq_dec c c'); subst; try tauto; congruence).
    specialize (D (fun q => N (eq_sym q))). clear - C D A. unfold reaches. lia.
Qed.

(* what the reader does on the four forms of a plain path *)
Lemma wire_read s vn l p1 e1 p2 e2 : lnum s = Some l ->
  match e1 with Some v => 0 <= v | None => True end -> match e2 with Some v => 0 <= v | None => True end ->
  finish_path lnum lw vdef vl1 vl2 (mkPS s vn (Some p1) (Some p2) (ext_of e1) (ext_of e2) false 0) =
  Some (FSeg (rd_wire l p1 e1 p2 e2) :: if String.eqb vn "" then [] else match vdef vn with None => [] | Some d => [FVia p2 (vl1 d) (vl2 d) d] end).
Proof.
  intros Hs H1 H2. unfold finish_path, rd_wire. cbn [p_begin p_layer p_via p_end p_bext p_eext p_rect p_width coord]. rewrite Hs.
  cbv zeta. destruct ((px p1 >? px p2) || (py p1 >? py p2)); rewrite Z.eqb_refl, !read_style_ok by assumption; reflexivity.
Qed.
Lemma read_plain s l t1 p1 e1 t2 v figs ss vshapes : lnum s = Some l -> end_point t1 p1 e1 ->
  (t2 = [] \/ exists t p e, t2 = [t] /\ end_point t p e /\ p <> p1 /\ (px p = px p1 \/ py p = py p1)) ->
  (v = [] \/ exists n d, v = [TVia n] /\ n <> ""%string /\ vdef n = Some d) ->
  read_path lnum lw vdef vl1 vl2 (TLayer s :: t1 :: t2 ++ v) = figs ->
  path_means lnum lw vdef vl1 vl2 (TLayer s :: t1 :: t2 ++ v) = ss ->
  exists fs gs, figs = Some fs /\ ss = Some gs /\ Forall fig_proper fs /\ Forall (fig_std lw) fs /\
    Forall (via_layers vl1 vl2) fs /\ Forall2 (fun f g => forall l x y, fig_covers vshapes f l x y <-> shape_covers lw vshapes g l x y) fs gs.
Proof.
  intros Hs H1 H2 Hv <- <-.
  unfold read_path. cbn [ps_run]. unfold ps_step at 1. rewrite Hs. cbn iota. cbn [path_means]. rewrite Hs.
  cbn [ps_run]. rewrite (end_point_step _ _ _ _ H1). cbn iota. rewrite (end_point_means _ _ _ _ _ _ H1). cbn [to_point].
  unfold ps_point at 1; cbn [p_begin p_layer p_via p_end p_bext p_eext p_rect p_width ps0].
  assert (E1 : (match e1 with Some e => e | None => -1 end) = ext_of e1) by reflexivity. rewrite E1. clear E1.
  pose proof (end_point_nn _ _ _ H1) as N1.
  destruct H2 as [-> | (t & p & e & -> & Ht & Np & Ap)]; destruct Hv as [-> | (n & d & -> & Hn & Hd)].
  - cbn. unfold finish_path. cbn. rewrite Hs. exists [], []. repeat split; constructor.
  - assert (En : String.eqb n "" = false) by (apply String.eqb_neq; assumption).
    cbn. unfold finish_path. cbn. rewrite Hs, En, Hd. exists [FVia p1 (vl1 d) (vl2 d) d], [DVia d p1].
    repeat split; repeat constructor; cbn; tauto.
  - pose proof (end_point_nn _ _ _ Ht) as N2.
    cbn [app ps_run]. rewrite (end_point_step _ _ _ _ Ht). cbn iota. rewrite (end_point_means _ _ _ _ _ _ Ht). cbn [to_point path_from].
    unfold ps_point; cbn [p_begin p_layer p_via p_end p_bext p_eext p_rect p_width].
    assert (E2 : (match e with Some e => e | None => -1 end) = ext_of e) by reflexivity. rewrite E2. clear E2.
    rewrite (wire_read s _ l p1 e1 p e Hs N1 N2).
    exists [FSeg (rd_wire l p1 e1 p e)], [DWire l p1 p (ext_len l e1) (ext_len l e)].
    destruct (rd_wire_ok l p1 e1 p e Np Ap N1 N2) as (P & S & _).
    split; [reflexivity|]. split; [reflexivity|]. split; [constructor; [exact P|constructor]|]. split; [constructor; [exact S|constructor]|]. split; [repeat constructor|].
    constructor; [|constructor]. apply rd_wire_metal; assumption.
  - pose proof (end_point_nn _ _ _ Ht) as N2. assert (En : String.eqb n "" = false) by (apply String.eqb_neq; assumption).
    cbn [app ps_run]. rewrite (end_point_step _ _ _ _ Ht). cbn iota. rewrite (end_point_means _ _ _ _ _ _ Ht). cbn [to_point path_from].
    unfold ps_point; cbn [ps_step p_begin p_layer p_via p_end p_bext p_eext p_rect p_width].
    assert (E2 : (match e with Some e => e | None => -1 end) = ext_of e) by reflexivity. rewrite E2. clear E2.
    rewrite (wire_read s _ l p1 e1 p e Hs N1 N2). rewrite En, Hd.
    exists [FSeg (rd_wire l p1 e1 p e); FVia p (vl1 d) (vl2 d) d], [DWire l p1 p (ext_len l e1) (ext_len l e); DVia d p].
    destruct (rd_wire_ok l p1 e1 p e Np Ap N1 N2) as (P & S & _).
    split; [reflexivity|]. split; [reflexivity|]. split; [constructor; [exact P|repeat constructor]|]. split; [constructor; [exact S|repeat constructor]|]. split; [repeat constructor|].
    constructor; [apply rd_wire_metal; assumption|]. constructor; [|constructor]. cbn. tauto.
Qed.

(* ---- a written figure read again *)
Lemma write_end_point p s e h : std_end h s e -> end_point (write_end p s e) p (match s with StExtend => None | StTruncate => Some 0 | StVariable => Some e end).
Proof. destruct p. destruct s; cbn; intros; repeat split; lia. Qed.
Lemma read_write_fig f : fig_named lname lnum vname vdef vl1 f -> fig_proper f -> fig_std lw f -> via_layers vl1 vl2 f ->
  exists fs, read_path lnum lw vdef vl1 vl2 (write_fig lname vname vl1 f) = Some fs /\
    if is_patch f then fs = [] else exists g, fs = [g] /\ same_fig f g.
Proof.
  destruct f as [w|o l1 l2 d|o l off]; cbn [fig_named fig_proper fig_std via_layers write_fig is_patch].
  - intros Hs P (Sw & B & E) _. pose proof (write_end_point (wb w) _ _ _ B) as T1. pose proof (write_end_point (we w) _ _ _ E) as T2.
    set (e1 := match bSty (ws w) with StExtend => None | StTruncate => Some 0 | StVariable => Some (bExt (ws w)) end) in *.
    set (e2 := match eSty (ws w) with StExtend => None | StTruncate => Some 0 | StVariable => Some (eExt (ws w)) end) in *.
    pose proof (end_point_nn _ _ _ T1) as N1. pose proof (end_point_nn _ _ _ T2) as N2.
    unfold read_path. cbn [ps_run]. unfold ps_step at 1. rewrite Hs. cbn iota.
    cbn [ps_run]. rewrite (end_point_step _ _ _ _ T1). cbn iota. cbn [ps_run]. rewrite (end_point_step _ _ _ _ T2). cbn iota.
    unfold ps_point; cbn [p_begin p_layer p_via p_end p_bext p_eext p_rect p_width coord ps0].
    assert (E1 : forall e, (match e with Some e => e | None => -1 end) = ext_of e) by reflexivity. rewrite !E1.
    rewrite (wire_read _ _ (wl w) (wb w) e1 (we w) e2 Hs N1 N2). cbn [String.eqb app].
    exists [FSeg (rd_wire (wl w) (wb w) e1 (we w) e2)]. split; [reflexivity|]. eexists. split; [reflexivity|].
    assert (C : (px (wb w) >? px (we w)) || (py (wb w) >? py (we w)) = false) by (unfold proper in P; lia).
    unfold rd_wire. rewrite C. cbn [same_fig wl wb we ws sWid bSty bExt eSty eExt].
    split; [reflexivity|]. split; [reflexivity|]. split; [reflexivity|]. split; [exact Sw|]. subst e1 e2. split.
    + destruct (bSty (ws w)) eqn:T; cbn [ext_sty ext_len std_end] in *; unfold same_end; rewrite ?Z.eqb_refl; [tauto|tauto|].
      destruct (bExt (ws w) =? 0) eqn:Z0; [|tauto]. split; [reflexivity|]. right. repeat split; lia.
    + destruct (eSty (ws w)) eqn:T; cbn [ext_sty ext_len std_end] in *; unfold same_end; rewrite ?Z.eqb_refl; [tauto|tauto|].
      destruct (eExt (ws w) =? 0) eqn:Z0; [|tauto]. split; [reflexivity|]. right. repeat split; lia.
  - intros (Hs & Hn & Hd) _ _ (-> & ->). destruct o as [x y]. unfold read_path; cbn. rewrite Hs. cbn. unfold finish_path. cbn. rewrite Hs.
    assert (En : String.eqb (vname d) "" = false) by (apply String.eqb_neq; assumption). rewrite En, Hd.
    eexists. split; [reflexivity|]. eexists. split; [reflexivity|]. cbn. tauto.
  - intros Hs _ _ _. destruct o as [x y]. unfold read_path; cbn. rewrite Hs. cbn. unfold finish_path. cbn. rewrite Hs. eexists. split; reflexivity.
Qed.
Lemma read_write_list fs : Forall (fig_named lname lnum vname vdef vl1) fs -> Forall fig_proper fs -> Forall (fig_std lw) fs -> Forall (via_layers vl1 vl2) fs ->
  exists gs, read_paths lnum lw vdef vl1 vl2 (map (write_fig lname vname vl1) fs) = Some gs /\ Forall2 same_fig (filter no_patch fs) gs.
Proof.
  induction fs as [|f fs IH]; intros N P S V; [exists []; split; [reflexivity|constructor]|].
  inversion N; subst. inversion P; subst. inversion S; subst. inversion V; subst.
  destruct IH as (gs & E & F); [assumption..|].
  destruct (read_write_fig f) as (a & Ea & Fa); [assumption..|].
  cbn [map read_paths]. rewrite Ea, E. exists (a ++ gs). split; [reflexivity|]. cbn [filter]. unfold no_patch at 1.
  destruct (is_patch f); cbn [negb]; [subst; exact F|]. destruct Fa as (g & -> & G). constructor; assumption.
Qed.
End R.
Lemma Forall2_ex {A C} (R : A -> C -> Prop) (P : A -> Prop) (Q : C -> Prop) l m : (forall a c, R a c -> (P a <-> Q c)) -> Forall2 R l m ->
  (exists a, In a l /\ P a) <-> (exists c, In c m /\ Q c).
Proof.
  intros H F. split.
  - intros (a & I & p). induction F as [|a' c' l m r F IH]; [destruct I|]. destruct I as [-> | I].
    + exists c'. split; [left; reflexivity|]. apply (H _ _ r), p.
    + destruct (IH I) as (c & J & q). exists c. split; [right; exact J|exact q].
  - intros (c & I & q). induction F as [|a' c' l m r F IH]; [destruct I|]. destruct I as [-> | I].
    + exists a'. split; [left; reflexivity|]. apply (H _ _ r), q.
    + destruct (IH I) as (a & J & p). exists a. split; [right; exact J|exact p].
Qed.
Lemma same_covers vshapes f g l x y : same_fig f g -> (fig_covers vshapes f l x y <-> fig_covers vshapes g l x y).
Proof.
  destruct f as [w|o l1 l2 d|o l' off], g as [v|o' l1' l2' d'|o' l'' off']; cbn [same_fig]; try tauto.
  - intros (A & B & C & D & (E & _) & (F & _)). cbn [fig_covers]. unfold on_metal, seg_box. rewrite A, B, C, D, E, F. tauto.
  - intros (-> & _ & _ & ->). tauto.
  - intros (-> & -> & ->). tauto.
Qed.
