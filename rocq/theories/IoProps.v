(* C85-C88: routing and vias in DEF. *)
From Verif Require Import Base GeomModel GeomSpec ClipModel ClipSpec ClipProofs3 IoModel IoSpec IoProofs IoProofs2.
From Coq Require Import Permutation String.
From Coq Require Import List.
Open Scope list_scope.

(* ------------------------------------------------------------------ C85 *)
(* the file has one shape for every figure of the net, and it covers the same points of the same layers *)
Theorem C85_file_describes_routing lname lnum lw vname vdef vl1 vl2 vshapes figs :
  (forall l, 0 <= lw l) -> names_ok lname lnum vname vdef vl1 figs ->
  Forall fig_proper figs -> Forall (fig_std lw) figs ->
  exists ss, net_means lnum lw vdef vl1 vl2 (write_net lname vname vl1 figs) = Some ss /\
    (exists figs', Permutation figs figs' /\
       Forall2 (fun f s => forall l x y, shape_covers lw vshapes s l x y <-> fig_covers vshapes f l x y) figs' ss) /\
    forall l x y, def_metal lw vshapes ss l x y <-> net_metal vshapes figs l x y.
Proof.
  intros L N P S.
  assert (N' : Forall (fig_named lname lnum vname vdef vl1) figs) by (rewrite Forall_forall; intros f I; specialize (N f I); destruct f; exact N).
  pose proof (fill_perm figs) as Pm.
  pose proof (Forall_perm _ _ _ Pm N') as N2. pose proof (Forall_perm _ _ _ Pm P) as P2. pose proof (Forall_perm _ _ _ Pm S) as S2.
  exists (map (shape_of) (fill_conn figs)). split; [|split].
  - unfold net_means. rewrite write_net_concat. apply paths_mean_map; assumption.
  - exists (fill_conn figs). split; [exact Pm|]. clear - L P2 S2. induction (fill_conn figs) as [|f r IH]; [constructor|].
    apply Forall_cons_iff in P2, S2. destruct P2 as (P0 & P2), S2 as (S0 & S2).
    constructor; [apply (shape_covers_fig (fun _ => ""%string) (fun _ => None) lw (fun _ => ""%string) (fun _ => None) (fun _ => 0) (fun _ => 0) vshapes f L P0 S0)|apply IH; assumption].
  - intros l x y. unfold def_metal, net_metal. rewrite Forall_forall in P2, S2. split.
    + intros (s & I & C). apply in_map_iff in I. destruct I as (f & <- & I). exists f.
      split; [apply (Permutation_in _ (Permutation_sym Pm) I)|]. apply (shape_covers_fig (fun _ => ""%string) (fun _ => None) lw (fun _ => ""%string) (fun _ => None) (fun _ => 0) (fun _ => 0) vshapes f L (P2 f I) (S2 f I)). exact C.
    + intros (f & I & C). apply (Permutation_in _ Pm) in I. exists (shape_of f). split; [apply in_map; exact I|].
      apply (shape_covers_fig (fun _ => ""%string) (fun _ => None) lw (fun _ => ""%string) (fun _ => None) (fun _ => 0) (fun _ => 0) vshapes f L (P2 f I) (S2 f I)). exact C.
Qed.
Print Assumptions C85_file_describes_routing.

(* wires of default width with extended, truncated or explicit ends stay such wires when they are loaded into
   a clip and when the clip is written back *)
Theorem C85_wires_stay_standard lw isInit b pin_at manuGrid swap found subs d :
  Forall (fun x => fig_std lw (snd x)) d -> (forall s, In s subs -> Forall (fig_std lw) (sn_best s)) ->
  (forall n f s g, In (n, f) d -> In (s, g) (load_fig isInit b lw f) -> fig_std lw g) /\
  (forall n f, In (n, f) (write_back isInit b lw pin_at manuGrid swap found subs d) -> fig_std lw f).
Proof.
  intros D B. split.
  - intros n f s g I. apply load_fig_std. rewrite Forall_forall in D. apply (D _ I).
  - intros n f I. pose proof (write_back_std lw isInit b pin_at manuGrid swap found subs d D B) as F. unfold db_std in F. rewrite Forall_forall in F. apply (F _ I).
Qed.
Print Assumptions C85_wires_stay_standard.

(* without default width the file is wrong: the width of a wire is not written *)
Theorem C85_default_width_needed : exists lname lnum lw vname vdef vl1 vl2 vshapes w ss l x y,
  (forall l, 0 <= lw l) /\ names_ok lname lnum vname vdef vl1 [FSeg w] /\ proper w /\ style_ok w /\
  net_means lnum lw vdef vl1 vl2 (write_net lname vname vl1 [FSeg w]) = Some ss /\
  net_metal vshapes [FSeg w] l x y /\ ~ def_metal lw vshapes ss l x y.
Proof.
  exists (fun _ => "m"%string), (fun _ => Some 2), (fun _ => 10), (fun _ => ""%string), (fun _ => None), (fun _ => 2), (fun _ => 4), (fun _ => []),
    (mkW 2 (mkPt 0 0) (mkPt 100 0) (mkSt StExtend 15 StExtend 15 30)), [DWire 2 (mkPt 0 0) (mkPt 100 0) 5 5], 2, 0, 30.
  split; [lia|]. split; [intros f [<-|[]]; reflexivity|]. split; [right; cbn; lia|]. split; [unfold style_ok; cbn; lia|]. split; [reflexivity|]. split.
  - eexists. split; [left; reflexivity|]. split; [reflexivity|]. unfold on_metal, in_box2; vm_compute. repeat split; discriminate.
  - intros (s & [<-|[]] & C). cbn in C. unfold half_w, reaches in C. change (Z.quot 10 2) with 5 in C. lia.
Qed.
Print Assumptions C85_default_width_needed.

Definition ex_lname (l : Z) : string := if l =? 2 then "metal1" else if l =? 4 then "metal2" else "cut".
Definition ex_lnum (s : string) : option Z := if String.eqb s "metal1" then Some 2 else if String.eqb s "metal2" then Some 4 else if String.eqb s "cut" then Some 3 else None.
Definition ex_lw (l : Z) : Z := if l =? 2 then 60 else 70.
Definition ex_vname (d : Z) : string := "via1_4".
Definition ex_vdef (s : string) : option Z := if String.eqb s "via1_4" then Some 7 else None.
Definition ex_vl1 (_ : Z) := 2. Definition ex_vl2 (_ : Z) := 4.
Definition ex_net : list fig :=
  [FVia (mkPt 500 100) 2 4 7;
   FSeg (mkW 2 (mkPt 100 100) (mkPt 500 100) (mkSt StTruncate 0 StExtend 30 60));
   FPatch (mkPt 500 100) 4 (mkBox (mkPt (-35) 0) (mkPt 35 200));
   FSeg (mkW 4 (mkPt 500 100) (mkPt 500 900) (mkSt StVariable 12 StExtend 35 70))].
Example C85_nonvacuous :
  (forall l, 0 <= ex_lw l) /\ names_ok ex_lname ex_lnum ex_vname ex_vdef ex_vl1 ex_net /\
  Forall fig_proper ex_net /\ Forall (fig_std ex_lw) ex_net /\
  write_net ex_lname ex_vname ex_vl1 ex_net =
    [[[TLayer "metal1"; TFlush 100 100 0; TPoint 500 100]; [TLayer "metal2"; TFlush 500 100 12; TPoint 500 900];
      [TLayer "metal1"; TPoint 500 100; TVia "via1_4"]; [TLayer "metal2"; TPoint 500 100; TRect (-35) 0 35 200]]].
Proof.
  split; [intros l; unfold ex_lw; destruct (l =? 2); lia|]. split; [|split; [|split]].
  - intros f [<-|[<-|[<-|[<-|[]]]]]; cbn; repeat split; try reflexivity; discriminate.
  - fc; cbn; try exact I; unfold proper; cbn; lia.
  - fc; cbn; try exact I; unfold standard; cbn; repeat split; try reflexivity; lia.
  - reflexivity.
Qed.

(* ------------------------------------------------------------------ C86 *)
(* if every path has at most two points, no VIRTUAL point and no RECT, reading gives exactly the metal of the
   file, as axis-parallel wires of default width and vias with the layers of their definition *)
Theorem C86_read_is_the_file_partial lnum lw vdef vl1 vl2 vshapes wires : (forall l, 0 < lw l) ->
  (forall p, In p (List.concat wires) -> plain_path lnum vdef p) ->
  exists figs ss, read_net lnum lw vdef vl1 vl2 wires = Some figs /\ net_means lnum lw vdef vl1 vl2 wires = Some ss /\
    Forall fig_proper figs /\ Forall (fig_std lw) figs /\ Forall (via_layers vl1 vl2) figs /\
    Forall2 (fun f s => forall l x y, fig_covers vshapes f l x y <-> shape_covers lw vshapes s l x y) figs ss /\
    forall l x y, net_metal vshapes figs l x y <-> def_metal lw vshapes ss l x y.
Proof.
  intros L H. unfold read_net, net_means.
  assert (G : exists figs ss, read_paths lnum lw vdef vl1 vl2 (List.concat wires) = Some figs /\ paths_mean lnum lw vdef vl1 vl2 (List.concat wires) = Some ss /\
    Forall fig_proper figs /\ Forall (fig_std lw) figs /\ Forall (via_layers vl1 vl2) figs /\
    Forall2 (fun f s => forall l x y, fig_covers vshapes f l x y <-> shape_covers lw vshapes s l x y) figs ss).
  { induction (List.concat wires) as [|p r IH]; [exists [], []; repeat split; constructor|].
    destruct IH as (fs & gs & E1 & E2 & P & S & V & F); [intros q I; apply H; right; exact I|].
    destruct (H p (or_introl eq_refl)) as [s l t1 p1 e1 t2 v Hs H1 H2 Hv].
    destruct (read_plain (fun _ => ""%string) lnum lw (fun _ => ""%string) vdef vl1 vl2 L s l t1 p1 e1 t2 v _ _ vshapes Hs H1 H2 Hv eq_refl eq_refl) as (fs' & gs' & A & B & C & D & E & F').
    cbn [read_paths paths_mean]. rewrite A, B, E1, E2. exists (fs' ++ fs), (gs' ++ gs).
    repeat split; try (apply Forall_app; split; assumption). apply Forall2_app; assumption. }
  destruct G as (figs & ss & E1 & E2 & P & S & V & F). exists figs, ss. repeat (split; [assumption|]).
  intros l x y. refine (Forall2_ex _ _ _ _ _ _ F). intros f s R. apply R.
Qed.
Print Assumptions C86_read_is_the_file_partial.

(* of a path with more points only the first and the last are kept: metal of the file is lost, and metal
   appears that is not in the file *)
Theorem C86_long_path_refuted : exists lnum lw vdef vl1 vl2 vshapes p figs ss x y x' y', (forall l, 0 < lw l) /\
  read_net lnum lw vdef vl1 vl2 [[p]] = Some figs /\ net_means lnum lw vdef vl1 vl2 [[p]] = Some ss /\
  def_metal lw vshapes ss 2 x y /\ ~ net_metal vshapes figs 2 x y /\
  net_metal vshapes figs 2 x' y' /\ ~ def_metal lw vshapes ss 2 x' y'.
Proof.
  exists ex_lnum, ex_lw, ex_vdef, ex_vl1, ex_vl2, (fun _ => []),
    [TLayer "metal1"; TPoint 0 0; TPoint 1000 0; TPoint 1000 1000; TPoint 0 1000].
  do 2 eexists. exists 2000, 0, 0, 1000. split; [intros l; unfold ex_lw; destruct (l =? 2); lia|].
  split; [reflexivity|]. split; [reflexivity|]. split; [|split; [|split]].
  - eexists. split; [left; reflexivity|]. split; [reflexivity|]. right. unfold half_w, reaches. change (ex_lw 2) with 60. change (Z.quot 60 2) with 30. cbn [px py]. lia.
  - intros (f & [<-|[]] & C). cbn in C. unfold on_metal, in_box2 in C. vm_compute in C. destruct C as (_ & (A & B) & _). apply B. reflexivity.
  - eexists. split; [left; reflexivity|]. split; [reflexivity|]. unfold on_metal, in_box2. vm_compute. repeat split; discriminate.
  - intros (s & I & C). cbn in I. unfold half_w in *. change (ex_lw 2) with 60 in *. change (Z.quot 60 2) with 30 in *.
    destruct I as [<-|[<-|[<-|[]]]]; cbn [shape_covers px py] in C; unfold reaches, half_w in C; change (ex_lw 2) with 60 in *; change (Z.quot 60 2) with 30 in *; lia.
Qed.
Print Assumptions C86_long_path_refuted.
(* a RECT and everything else in its path is dropped; a VIRTUAL point becomes a wire; an unknown via is
   dropped (and a message printed) *)
Theorem C86_rect_virtual_via_refuted : exists lnum lw vdef vl1 vl2, (forall l, 0 < lw l) /\
  (exists p ss, net_means lnum lw vdef vl1 vl2 [[p]] = Some ss /\ ss <> [] /\ read_net lnum lw vdef vl1 vl2 [[p]] = Some []) /\
  (exists p w, net_means lnum lw vdef vl1 vl2 [[p]] = Some [] /\ read_net lnum lw vdef vl1 vl2 [[p]] = Some [FSeg w] /\ proper w) /\
  (exists p, net_means lnum lw vdef vl1 vl2 [[p]] = None /\ read_net lnum lw vdef vl1 vl2 [[p]] = Some []).
Proof.
  exists ex_lnum, ex_lw, ex_vdef, ex_vl1, ex_vl2. split; [intros l; unfold ex_lw; destruct (l =? 2); lia|]. split; [|split].
  - exists [TLayer "metal1"; TPoint 0 0; TPoint 500 0; TVia "via1_4"; TRect (-35) 0 35 200]. eexists. split; [reflexivity|]. split; [discriminate|reflexivity].
  - exists [TLayer "metal1"; TPoint 0 0; TVirtual 500 0]. eexists. split; [reflexivity|]. split; [reflexivity|]. right. cbn. lia.
  - exists [TLayer "metal1"; TPoint 0 0; TVia "unknown"]. split; reflexivity.
Qed.
Print Assumptions C86_rect_virtual_via_refuted.

Definition ex_file : list (list (list dtok)) :=
  [[[TLayer "metal1"; TFlush 500 100 0; TPoint 100 100; TVia "via1_4"]]; [[TLayer "metal2"; TPoint 500 100; TFlush 500 900 20]]].
Example C86_nonvacuous : (forall l, 0 < ex_lw l) /\ (forall p, In p (List.concat ex_file) -> plain_path ex_lnum ex_vdef p) /\
  read_net ex_lnum ex_lw ex_vdef ex_vl1 ex_vl2 ex_file =
    Some [FSeg (mkW 2 (mkPt 100 100) (mkPt 500 100) (mkSt StExtend 30 StTruncate 0 60)); FVia (mkPt 100 100) 2 4 7;
          FSeg (mkW 4 (mkPt 500 100) (mkPt 500 900) (mkSt StExtend 35 StVariable 20 70))].
Proof.
  split; [intros l; unfold ex_lw; destruct (l =? 2); lia|]. split; [|reflexivity].
  intros p [<-|[<-|[]]].
  - apply (plain_path_intro _ _ "metal1" 2 (TFlush 500 100 0) (mkPt 500 100) (Some 0) [TPoint 100 100] [TVia "via1_4"]); [reflexivity|cbn; repeat split; lia| |].
    + right. exists (TPoint 100 100), (mkPt 100 100), None. repeat split; [discriminate|right; reflexivity].
    + right. exists "via1_4"%string, 7. repeat split. discriminate.
  - apply (plain_path_intro _ _ "metal2" 4 (TPoint 500 100) (mkPt 500 100) None [TFlush 500 900 20] []); [reflexivity|cbn; repeat split; lia| |].
    + right. exists (TFlush 500 900 20), (mkPt 500 900), (Some 20). repeat split; [lia|discriminate|left; reflexivity].
    + left. reflexivity.
Qed.

(* ------------------------------------------------------------------ C87 *)
(* written and read again, every wire and via of the net comes back, nothing else does, and without patches
   the metal is the same *)
Theorem C87_round_trip_partial lname lnum lw vname vdef vl1 vl2 vshapes figs :
  (forall l, 0 < lw l) -> names_ok lname lnum vname vdef vl1 figs ->
  Forall fig_proper figs -> Forall (fig_std lw) figs -> Forall (via_layers vl1 vl2) figs ->
  exists figs', read_net lnum lw vdef vl1 vl2 (write_net lname vname vl1 figs) = Some figs' /\
    (exists kept, Permutation (filter no_patch figs) kept /\ Forall2 same_fig kept figs') /\
    ((forall o l off, ~ In (FPatch o l off) figs) -> forall l x y, net_metal vshapes figs' l x y <-> net_metal vshapes figs l x y).
Proof.
  intros L N P S V.
  assert (N' : Forall (fig_named lname lnum vname vdef vl1) figs) by (rewrite Forall_forall; intros f I; specialize (N f I); destruct f; exact N).
  pose proof (fill_perm figs) as Pm.
  pose proof (Forall_perm _ _ _ Pm N') as N2. pose proof (Forall_perm _ _ _ Pm P) as P2. pose proof (Forall_perm _ _ _ Pm S) as S2. pose proof (Forall_perm _ _ _ Pm V) as V2.
  unfold read_net. rewrite write_net_concat.
  destruct (read_write_list lname lnum lw vname vdef vl1 vl2 L (fill_conn figs) N2 P2 S2 V2) as (gs & E & F).
  exists gs. split; [exact E|].
  assert (K : Permutation (filter no_patch figs) (filter no_patch (fill_conn figs))) by (apply filter_perm; exact Pm).
  split; [exists (filter no_patch (fill_conn figs)); split; assumption|].
  intros NP l x y.
  assert (F2 : filter no_patch figs = figs).
  { clear - NP. induction figs as [|f r IH]; [reflexivity|]. cbn [filter]. rewrite IH by (intros o l off I; apply (NP o l off); right; exact I).
    destruct f; try reflexivity. exfalso. apply (NP o l off). left. reflexivity. }
  rewrite F2 in K. clear F2.
  assert (M : (exists f, In f (filter no_patch (fill_conn figs)) /\ fig_covers vshapes f l x y) <-> net_metal vshapes gs l x y).
  { refine (Forall2_ex _ _ _ _ _ _ F). intros f g R. apply same_covers, R. }
  rewrite <- M. unfold net_metal. split; intros (f & I & C); exists f; (split; [|exact C]).
  - apply (Permutation_in _ (Permutation_sym K) I).
  - apply (Permutation_in _ K I).
Qed.
Print Assumptions C87_round_trip_partial.
(* patches do not come back: the metal is less *)
Theorem C87_patch_lost_refuted : exists lname lnum lw vname vdef vl1 vl2 vshapes figs figs' l x y,
  (forall l, 0 < lw l) /\ names_ok lname lnum vname vdef vl1 figs /\
  read_net lnum lw vdef vl1 vl2 (write_net lname vname vl1 figs) = Some figs' /\
  net_metal vshapes figs l x y /\ ~ net_metal vshapes figs' l x y.
Proof.
  exists ex_lname, ex_lnum, ex_lw, ex_vname, ex_vdef, ex_vl1, ex_vl2, (fun _ => []), [FPatch (mkPt 500 100) 4 (mkBox (mkPt (-35) 0) (mkPt 35 200))], [], 4, 1000, 300.
  split; [intros l; unfold ex_lw; destruct (l =? 2); lia|]. split; [intros f [<-|[]]; reflexivity|]. split; [reflexivity|]. split.
  - eexists. split; [left; reflexivity|]. cbn. split; [reflexivity|]. unfold in_box2. vm_compute. repeat split; discriminate.
  - intros (f & [] & _).
Qed.
Print Assumptions C87_patch_lost_refuted.
Example C87_nonvacuous : Forall (via_layers ex_vl1 ex_vl2) ex_net /\
  read_net ex_lnum ex_lw ex_vdef ex_vl1 ex_vl2 (write_net ex_lname ex_vname ex_vl1 ex_net) =
    Some [FSeg (mkW 2 (mkPt 100 100) (mkPt 500 100) (mkSt StTruncate 0 StExtend 30 60));
          FSeg (mkW 4 (mkPt 500 100) (mkPt 500 900) (mkSt StVariable 12 StExtend 35 70)); FVia (mkPt 500 100) 2 4 7].
Proof. split; [repeat constructor|reflexivity]. Qed.

(* ------------------------------------------------------------------ C88 *)
(* a via made from a rule: rows x cols cuts of the given size and spacing, centred at the given origin up to
   half a unit, and two metal boxes that exceed the cuts by the given enclosures and are moved by the offsets *)
Theorem C88_rule_via r : (1 <= r_rows r)%nat -> (1 <= r_cols r)%nat -> 0 <= r_xs r -> 0 <= r_ys r -> 0 <= r_xc r -> 0 <= r_yc r ->
  0 <= r_bx r -> 0 <= r_by r -> 0 <= r_tx r -> 0 <= r_ty r ->
  let w := Z.of_nat (r_cols r) * r_xs r + (Z.of_nat (r_cols r) - 1) * r_xc r in
  let h := Z.of_nat (r_rows r) * r_ys r + (Z.of_nat (r_rows r) - 1) * r_yc r in
  let '(bot, cuts, top) := rule_via r in
  exists x0 y0, centred x0 w (r_ox r) /\ centred y0 h (r_oy r) /\
    cut_grid (r_rows r) (r_cols r) (r_xs r) (r_ys r) (r_xc r) (r_yc r) x0 y0 cuts /\
    encloses bot x0 y0 w h (r_bx r) (r_by r) (r_box r) (r_boy r) /\
    encloses top x0 y0 w h (r_tx r) (r_ty r) (r_tox r) (r_toy r).
Proof. exact (rule_ok r). Qed.
Print Assumptions C88_rule_via.
(* a via given by rectangles is accepted exactly if all layers are known and the layers used are three
   consecutive ones; its metal and cut shapes are the rectangles given for these layers; it is skipped
   exactly if some layer is unknown *)
Theorem C88_rect_via lnum rs :
  (forall l bot cut top, rect_via lnum rs = VOk l bot cut top <->
     exists ts, Forall2 (fun x y => lnum (fst x) = Some (fst y) /\ snd x = snd y) rs ts /\
       (forall k, In k (map fst ts) <-> l <= k <= l + 2) /\
       bot = map snd (filter (fun x => fst x =? l) ts) /\ cut = map snd (filter (fun x => fst x =? l + 1) ts) /\
       top = map snd (filter (fun x => fst x =? l + 2) ts)) /\
  (rect_via lnum rs = VSkip <-> exists s b, In (s, b) rs /\ lnum s = None).
Proof. split; [intros l bot cut top; apply rect_via_ok|apply rect_via_skip]. Qed.
Print Assumptions C88_rect_via.
Example C88_rule_nonvacuous :
  rule_via (mkVR 70 70 80 90 50 5 20 30 0 0 0 0 0 3 2 3) =
    (mkBox (mkPt (-235) (-120)) (mkPt 235 120),
     [mkBox (mkPt (-185) (-115)) (mkPt (-115) (-45)); mkBox (mkPt (-35) (-115)) (mkPt 35 (-45)); mkBox (mkPt 115 (-115)) (mkPt 185 (-45));
      mkBox (mkPt (-185) 45) (mkPt (-115) 115); mkBox (mkPt (-35) 45) (mkPt 35 115); mkBox (mkPt 115 45) (mkPt 185 115)],
     mkBox (mkPt (-205) (-142)) (mkPt 205 148)).
Proof. reflexivity. Qed.
Example C88_rect_nonvacuous :
  rect_via ex_lnum [("cut", mkBox (mkPt (-35) (-35)) (mkPt 35 35)); ("metal2", mkBox (mkPt (-50) (-40)) (mkPt 50 40)); ("metal1", mkBox (mkPt (-60) (-35)) (mkPt 60 35))]%string =
    VOk 2 [mkBox (mkPt (-60) (-35)) (mkPt 60 35)] [mkBox (mkPt (-35) (-35)) (mkPt 35 35)] [mkBox (mkPt (-50) (-40)) (mkPt 50 40)] /\
  rect_via ex_lnum [("metal2", mkBox (mkPt (-50) (-40)) (mkPt 50 40)); ("metal1", mkBox (mkPt (-60) (-35)) (mkPt 60 35))]%string = VExit.
Proof. split; reflexivity. Qed.
