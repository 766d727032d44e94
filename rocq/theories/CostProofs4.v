From Coq Require Import Permutation.
From Verif Require Import Base Stl GeomModel GeomSpec GeomProofs GridModel GridSpec GridProofs GridProofs2 CostModel CostSpec CostProofs CostProofs2 CostProofs3.

(* ---- a figure ---- *)
Lemma shape_net E g type b z ps (eol : bool) q : good_tech E -> svia_good E -> grid_sorted g -> xy_valid g q -> kind_ok type -> good_box b ->
  exists w e v, (forall a, net (mod_planar E g type b z false ++ mod_via E g type b z true ps false ++
                          mod_via E g type b z false ps false ++ (if eol then mod_eol E g type b z false else [])) q a =
      at_counter a (wire_counter type) (kind_sign type * (w + e)) + at_counter a (via_counter type) (kind_sign type * v)) /\
    (wide_enough b (ce_width E (getLayerNum g z)) -> wire_near E g b z false q w) /\
    (if eol then wire_eol E g b z q e else e = 0) /\
    (ce_svia E q = None -> shape_via E g q b z ps eol v) /\
    (exists w', wire_near E g b z false q w' /\ 0 <= w <= w') /\
    (exists v', shape_via E g q b z ps eol v' /\ 0 <= v <= v').
Proof.
  intros GT SG Hs Hv K HB.
  destruct (mod_planar_net E g type b z false q GT Hs Hv K HB) as (w & W1 & W2 & w' & W3 & W4).
  destruct (mod_via_net E g type b z true ps false q GT SG Hs Hv K HB) as (u & U1 & U2 & u' & U3 & U4).
  destruct (mod_via_net E g type b z false ps false q GT SG Hs Hv K HB) as (d & D1 & D2 & d' & D3 & D4).
  destruct eol.
  - destruct (mod_eol_net E g type b z q GT SG Hs Hv K (good_solid b HB)) as (e & e1 & e2 & E1 & E2 & E3 & e1' & e2' & E4 & E5 & E6 & E7).
    exists w, e, (u + d + e1 + e2). split.
    { intros a. rewrite !net_app, W1, U1, D1, E1. rewrite <- !at_counter_add. lia. }
    split; [assumption|]. split; [assumption|]. split.
    { intros NS. exists u, d, e1, e2. destruct (E3 NS). auto. }
    split; [exists w'; auto|]. exists (u' + d' + e1' + e2'). split; [|lia]. exists u', d', e1', e2'. auto.
  - exists w, 0, (u + d). split.
    { intros a. rewrite !net_app, W1, U1, D1. cbn [net]. rewrite <- !at_counter_add. rewrite <- at_counter_0. lia. }
    split; [assumption|]. split; [reflexivity|]. split.
    { intros NS. exists u, d, 0, 0. split; [auto|]. split; [auto|]. split; [auto|]. lia. }
    split; [exists w'; auto|]. exists (u' + d'). split; [|lia]. exists u', d', 0, 0.
    split; [auto|]. split; [auto|]. split; [auto|]. lia.
Qed.
Lemma cuts_net E g type z q cs pt : good_tech E -> grid_sorted g -> xy_valid g q -> kind_ok type ->
  Forall (fun c => good_box c) cs ->
  exists n, (forall a, net (flat_map (fun cf => let cb := at_pt cf pt in
      mod_cut E g type cb z false ++ mod_inter E g type cb z true ++ mod_inter E g type cb z false) cs) q a =
      at_counter a (via_counter type) (kind_sign type * n)) /\
    (no_area E -> sums (cut_via E g q z) (map (fun cf => moved cf pt) cs) n).
Proof.
  intros GT Hs Hv K HB. induction cs as [|c cs IH].
  - exists 0. split; [intros a; apply at_counter_0 | intros _; constructor].
  - apply Forall_cons_iff in HB as [Hc HB]. destruct (IH HB) as (n & N1 & N2). cbn [flat_map map].
    rewrite (at_moved c pt) by (apply good_norm; assumption).
    pose proof (moved_good c pt Hc) as Hc'.
    destruct (mod_cut_net E g type (moved c pt) z false q GT Hs Hv K Hc') as (x & X1 & X2).
    destruct (mod_inter_net E g type (moved c pt) z true q GT Hs Hv K Hc') as (u & U1 & U2).
    destruct (mod_inter_net E g type (moved c pt) z false q GT Hs Hv K Hc') as (d & D1 & D2).
    exists (x + u + d + n). split.
    + intros a. cbn zeta. rewrite !net_app, X1, U1, D1, N1. rewrite <- !at_counter_add. lia.
    + intros NA. constructor; [|apply N2; assumption]. exists x, u, d. split; [apply X2, NA|]. auto.
Qed.
Lemma fig_net E g type f q : good_tech E -> svia_good E -> grid_sorted g -> xy_valid g q -> kind_ok type ->
  good_fig E g f ->
  exists w v, (forall a, net (mod_path E g type f) q a =
      at_counter a (wire_counter type) (kind_sign type * w) + at_counter a (via_counter type) (kind_sign type * v)) /\
    (fig_wide E g f -> fig_wire E g q f w) /\
    (ce_svia E q = None -> no_area E -> fig_via E g q f v).
Proof.
  intros GT SG Hs Hv K HF. destruct f as [bi ei b|z b|bi ei pt v]; cbn [mod_path fig_wide fig_wire fig_via good_fig] in *.
  - destruct HF as (_ & _ & HB).
    set (eol := Bool.eqb (ce_horz E (getLayerNum g (mz bi))) (my bi =? my ei)).
    destruct (shape_net E g type b (mz bi) true eol q GT SG Hs Hv K HB) as (w & e & v & A & B & C & D & _).
    destruct (via_forbidden_net E type bi ei q K) as (k & K1 & K2).
    exists (w + e), (v + k). split.
    + intros a. specialize (A a). rewrite !net_app in *. rewrite K1. rewrite <- (at_counter_add a (via_counter type)). lia.
    + split; [intros W; exists w, e; auto|]. intros NS _. exists v, k. auto.
  - destruct HF as (_ & HB).
    destruct (shape_net E g type b z true true q GT SG Hs Hv K HB) as (w & e & v & A & B & C & D & _).
    exists (w + e), v. split; [exact A|]. split; [intros W; exists w, e; auto | auto].
  - destruct HF as (_ & _ & _ & (V1 & V2 & V3 & V4) & HC).
    rewrite !at_moved by (apply good_norm; assumption).
    destruct (shape_net E g type (moved (cv_b1 v) pt) (mz bi) false true q GT SG Hs Hv K (moved_good _ _ V1)) as (w1 & e1 & s1 & A1 & B1 & C1 & D1 & _).
    destruct (shape_net E g type (moved (cv_b2 v) pt) (mz ei) false true q GT SG Hs Hv K (moved_good _ _ V2)) as (w2 & e2 & s2 & A2 & B2 & C2 & D2 & _).
    destruct (cuts_net E g type (mz bi) q (cv_cuts v) pt GT Hs Hv K HC) as (c & N1 & N2).
    exists (w1 + e1 + w2 + e2), (s1 + s2 + c). split.
    + intros a. specialize (A1 a). specialize (A2 a). specialize (N1 a). cbn zeta in N1 |- *. rewrite !net_app in *. rewrite N1.
      rewrite <- !at_counter_add in *. lia.
    + split.
      * intros [W1 W2]. exists w1, e1, w2, e2.
        assert (WM : forall b p w, wide_enough b w -> wide_enough (moved b p) w) by (unfold wide_enough, moved; intros; bxc; lia).
        split; [apply B1, WM; exact W1|]. split; [exact C1|]. split; [apply B2, WM; exact W2|]. split; [exact C2 | reflexivity].
      * intros NS NA. exists s1, s2, c. auto.
Qed.

(* ---- taking back is the mirror image of adding ---- *)
Lemma map_flat_map {A B C} (f : B -> C) (g : A -> list B) l : map f (flat_map g l) = flat_map (fun x => map f (g x)) l.
Proof. induction l as [|x l IH]; cbn; [reflexivity|]. rewrite map_app, IH. reflexivity. Qed.
Definition opposite (t t' : Z) : Prop := (t = 0 /\ t' = 1) \/ (t = 2 /\ t' = 3).
Lemma mk_planar_undo t t' p : opposite t t' -> mk_planar t p = map undo (mk_planar t' p).
Proof. intros [[-> ->] | [-> ->]]; reflexivity. Qed.
Lemma mk_via_undo t t' p : opposite t t' -> mk_via t p = map undo (mk_via t' p).
Proof. intros [[-> ->] | [-> ->]]; reflexivity. Qed.
Lemma flat_undo {A} (F G : A -> list gop) l : (forall x, F x = map undo (G x)) -> flat_map F l = map undo (flat_map G l).
Proof. intros H. rewrite map_flat_map. apply flat_map_ext. assumption. Qed.
Lemma if_undo (c : bool) x y : x = map undo y -> (if c then x else []) = map undo (if c then y else []).
Proof. intros ->. destruct c; reflexivity. Qed.
Lemma app_undo x x' y y' : x = map undo x' -> y = map undo y' -> x ++ y = map undo (x' ++ y').
Proof. intros -> ->. rewrite map_app. reflexivity. Qed.
Lemma mod_planar_undo E g t t' b z blk : opposite t t' -> mod_planar E g t b z blk = map undo (mod_planar E g t' b z blk).
Proof.
  intros O. unfold mod_planar. destruct (ce_spc E _); [|reflexivity]. apply flat_undo. intros p. apply if_undo, mk_planar_undo, O.
Qed.
Lemma via_eol_undo E g t t' b tb z p : opposite t t' -> via_eol E g t b tb z p = map undo (via_eol E g t' b tb z p).
Proof.
  intros O. unfold via_eol. apply flat_undo. intros c. unfold via_eol_helper.
  repeat (apply app_undo || apply if_undo); apply mk_via_undo, O.
Qed.
Lemma mod_via_undo E g t t' b z u ps blk : opposite t t' -> mod_via E g t b z u ps blk = map undo (mod_via E g t' b z u ps blk).
Proof.
  intros O. unfold mod_via. destruct (via_of E _ u); [|reflexivity]. destruct (ce_spc E _); [|reflexivity].
  apply flat_undo. intros p. apply app_undo; [apply if_undo, mk_via_undo, O | apply via_eol_undo, O].
Qed.
Lemma eol_helper_undo E g t t' r z sk : opposite t t' -> eol_helper E g t r z sk = map undo (eol_helper E g t' r z sk).
Proof.
  intros O. unfold eol_helper, eol_planar, eol_via. apply app_undo; [apply flat_undo; intros p; apply mk_planar_undo, O|].
  destruct sk; [reflexivity|]. apply app_undo; (destruct (via_of E _ _); [|reflexivity]); apply flat_undo; intros p;
    (destruct (ce_svia E _); [apply if_undo|]); apply mk_via_undo, O.
Qed.
Lemma mod_eol_undo E g t t' b z sk : opposite t t' -> mod_eol E g t b z sk = map undo (mod_eol E g t' b z sk).
Proof.
  intros O. unfold mod_eol. apply flat_undo. intros c.
  apply app_undo; apply if_undo; apply app_undo; apply eol_helper_undo, O.
Qed.
Lemma mod_cut_undo E g t t' b z blk : opposite t t' -> mod_cut E g t b z blk = map undo (mod_cut E g t' b z blk).
Proof.
  intros O. unfold mod_cut. destruct (ce_cut E _) as [|c cs]; [reflexivity|]. destruct (ce_via E _); [|reflexivity].
  apply flat_undo. intros p. apply flat_undo. intros cf. apply if_undo, mk_via_undo, O.
Qed.
Lemma mod_inter_undo E g t t' b z u : opposite t t' -> mod_inter E g t b z u = map undo (mod_inter E g t' b z u).
Proof.
  intros O. unfold mod_inter. destruct (ce_via E _); [|reflexivity].
  destruct (match ce_inter E _ _ with Some c => Some c | None => _ end); [|reflexivity].
  apply flat_undo. intros p. apply if_undo, mk_via_undo, O.
Qed.
Lemma via_forbidden_undo E t t' bi ei : opposite t t' -> via_forbidden E t bi ei = map undo (via_forbidden E t' bi ei).
Proof.
  intros O. unfold via_forbidden. apply flat_undo. intros p. apply app_undo; apply if_undo, mk_via_undo, O.
Qed.
Lemma mod_path_undo E g t t' f : opposite t t' -> mod_path E g t f = map undo (mod_path E g t' f).
Proof.
  intros O. destruct f; cbn [mod_path].
  - repeat apply app_undo; try (apply if_undo); auto using mod_planar_undo, mod_via_undo, via_forbidden_undo, mod_eol_undo.
  - repeat apply app_undo; auto using mod_planar_undo, mod_via_undo, mod_eol_undo.
  - repeat apply app_undo; auto using mod_planar_undo, mod_via_undo, mod_eol_undo.
    apply flat_undo. intros cf. repeat apply app_undo; auto using mod_cut_undo, mod_inter_undo.
Qed.

(* ---- the operations stay inside the grid ---- *)
Definition ops_in (g : gg) (ops : list gop) : Prop := Forall (fun o => cost_op o /\ valid g (op_point o)) ops.
Lemma ops_in_app g x y : ops_in g x -> ops_in g y -> ops_in g (x ++ y).
Proof. apply Forall_app_2 || (intros; apply Forall_app; auto). Qed.
Lemma ops_in_flat {A} g (F : A -> list gop) l : (forall x, In x l -> ops_in g (F x)) -> ops_in g (flat_map F l).
Proof. induction l as [|x l IH]; intros H; cbn; [constructor|]. apply ops_in_app; [apply H; left; reflexivity|]. apply IH. intros y Hy. apply H. right; assumption. Qed.
Lemma ops_in_if g (c : bool) x : ops_in g x -> ops_in g (if c then x else []).
Proof. destruct c; [auto | constructor]. Qed.
Lemma mk_planar_in g type p : valid g p -> ops_in g (mk_planar type p).
Proof.
  intros V. unfold mk_planar. repeat (destruct (_ =? _); [constructor; [split; [unfold cost_op; cbn; lia | exact V] | constructor]|]). constructor.
Qed.
Lemma mk_via_in g type p : valid g p -> ops_in g (mk_via type p).
Proof.
  intros V. unfold mk_via. repeat (destruct (_ =? _); [constructor; [split; [unfold cost_op; cbn; lia | exact V] | constructor]|]). constructor.
Qed.
Lemma mod_planar_in E g type b z blk : grid_sorted g -> 0 <= z < nz g -> ops_in g (mod_planar E g type b z blk).
Proof.
  intros Hs Hz. unfold mod_planar. destruct (ce_spc E _); [|constructor]. apply ops_in_flat. intros p Hp.
  apply ops_in_if, mk_planar_in, (window_valid _ _ _ _ Hs Hz Hp).
Qed.
Lemma via_pt_valid E g b z upper p v : good_stack E g -> grid_sorted g -> 0 <= z < nz g -> In p (window g b z) ->
  via_of E (getLayerNum g z) upper = Some v -> valid g (via_pt p upper).
Proof.
  intros (_ & B & _) Hs Hz Hp HV. pose proof (window_valid _ _ _ _ Hs Hz Hp) as V. unfold via_pt. destruct upper; [assumption|].
  assert (Ez : mz p = z) by (apply window_in in Hp; destruct (getIdxBox g b) as [[[? ?] ?] ?]; apply Hp).
  destruct (Z.eq_dec z 0) as [->|]; [unfold via_of in HV; congruence|].
  unfold valid, on_grid in *. cbn [mx my mz]. lia.
Qed.
Lemma mod_via_in E g type b z upper ps blk : good_stack E g -> grid_sorted g -> 0 <= z < nz g ->
  ops_in g (mod_via E g type b z upper ps blk).
Proof.
  intros GS Hs Hz. unfold mod_via. destruct (via_of E _ upper) as [v|] eqn:EV; [|constructor]. destruct (ce_spc E _); [|constructor].
  apply ops_in_flat. intros p Hp. pose proof (via_pt_valid E g _ z upper p v GS Hs Hz Hp EV) as V.
  apply ops_in_app; [apply ops_in_if, mk_via_in, V|]. unfold via_eol. apply ops_in_flat. intros c _. unfold via_eol_helper.
  repeat (apply ops_in_app || apply ops_in_if); apply mk_via_in, V.
Qed.
Lemma mod_eol_in E g type b z sk : good_stack E g -> grid_sorted g -> 0 <= z < nz g -> ops_in g (mod_eol E g type b z sk).
Proof.
  intros GS Hs Hz. unfold mod_eol. apply ops_in_flat. intros c _.
  assert (HH : forall r, ops_in g (eol_helper E g type r z sk)).
  { intros r. unfold eol_helper. apply ops_in_app.
    - unfold eol_planar. apply ops_in_flat. intros p Hp. apply mk_planar_in, (window_valid _ _ _ _ Hs Hz Hp).
    - destruct sk; [constructor|]. apply ops_in_app; unfold eol_via; (destruct (via_of E _ _) as [v|] eqn:EV; [|constructor]);
        apply ops_in_flat; intros p Hp; pose proof (via_pt_valid E g _ z _ p v GS Hs Hz Hp EV) as V;
        (destruct (ce_svia E _); [apply ops_in_if|]); apply mk_via_in, V. }
  apply ops_in_app; apply ops_in_if; apply ops_in_app; apply HH.
Qed.
Lemma mod_cut_in E g type b z blk : grid_sorted g -> 0 <= z < nz g -> ops_in g (mod_cut E g type b z blk).
Proof.
  intros Hs Hz. unfold mod_cut. destruct (ce_cut E _) as [|c cs]; [constructor|]. destruct (ce_via E _); [|constructor].
  apply ops_in_flat. intros p Hp. apply ops_in_flat. intros cf _. apply ops_in_if, mk_via_in, (window_valid _ _ _ _ Hs Hz Hp).
Qed.
Lemma mod_inter_in E g type b z upper : good_stack E g -> grid_sorted g -> 0 <= z -> z + 1 < nz g -> ops_in g (mod_inter E g type b z upper).
Proof.
  intros (L & B & _) Hs Hz Hz1. unfold mod_inter.
  destruct (ce_via E (if upper then _ else _)) as [v|] eqn:EV; [|constructor].
  destruct (match ce_inter E _ _ with Some c => Some c | None => _ end); [|constructor].
  apply ops_in_flat. intros p Hp. apply ops_in_if, mk_via_in.
  assert (V : valid g p) by (apply (window_valid _ _ _ _ Hs (conj Hz (ltac:(lia) : z < nz g)) Hp)).
  destruct upper; unfold valid, on_grid in *; cbn [mx my mz].
  - lia.
  - destruct (Z.eq_dec z 0) as [->|]; [|lia]. replace (getLayerNum g 0 + 1 - 2) with (getLayerNum g 0 - 1) in EV by lia. congruence.
Qed.
Lemma via_forbidden_in E g type bi ei : good_stack E g -> valid g bi -> valid g ei -> ops_in g (via_forbidden E type bi ei).
Proof.
  intros (_ & _ & FB) V1 V2. unfold via_forbidden. apply ops_in_flat. intros p Hp.
  assert (V : valid g p /\ mz p = mz bi).
  { destruct (my bi =? my ei); apply in_map_iff in Hp as (i & <- & Hi); apply zrange_in in Hi;
      unfold valid, on_grid in *; cbn [mx my mz]; lia. }
  destruct V as [V Ez]. apply ops_in_app.
  - destruct (Z.eq_dec (mz bi) 0) as [E0|N0]; [rewrite E0, FB; constructor|]. apply ops_in_if, mk_via_in.
    unfold valid, on_grid in *. cbn [mx my mz]. lia.
  - apply ops_in_if, mk_via_in, V.
Qed.
Lemma mod_path_in E g type f : good_stack E g -> grid_sorted g -> good_fig E g f -> ops_in g (mod_path E g type f).
Proof.
  intros GS Hs HF. destruct f as [bi ei b|z b|bi ei pt v]; cbn [mod_path good_fig] in *.
  - destruct HF as (V1 & V2 & _). assert (Hz : 0 <= mz bi < nz g) by (unfold valid, on_grid in *; lia).
    repeat apply ops_in_app; try apply ops_in_if; auto using mod_planar_in, mod_via_in, mod_eol_in, via_forbidden_in.
  - destruct HF as (Hz & _). repeat apply ops_in_app; auto using mod_planar_in, mod_via_in, mod_eol_in.
  - destruct HF as (V1 & V2 & Ez & _). assert (Hz : 0 <= mz bi < nz g) by (unfold valid, on_grid in *; lia).
    assert (Hz2 : 0 <= mz ei < nz g) by (unfold valid, on_grid in *; lia).
    repeat apply ops_in_app; auto using mod_planar_in, mod_via_in, mod_eol_in.
    apply ops_in_flat. intros cf _. repeat apply ops_in_app; auto using mod_cut_in.
    all: apply mod_inter_in; auto; lia.
Qed.

(* ---- histories ---- *)
Definition hist_fig (e : chist) : cfig := match e with AddFig f | SubFig f => f end.
Lemma hist_in E g h : good_stack E g -> grid_sorted g -> (forall e, In e h -> good_fig E g (hist_fig e)) ->
  ops_in g (flat_map (hist_ops E g) h).
Proof.
  intros GS Hs H. apply ops_in_flat. intros e He. specialize (H e He). destruct e; cbn [hist_ops hist_fig] in *; apply mod_path_in; auto.
Qed.
Definition total (E : cenv) (g : gg) (q : midx) (a : attr) (l : list cfig) : Z :=
  fold_right (fun f s => net (mod_path E g 1 f) q a + s) 0 l.
Lemma total_perm E g q a l l' : Permutation l l' -> total E g q a l = total E g q a l'.
Proof. unfold total. induction 1; cbn [fold_right]; lia. Qed.
Lemma live_net E g q a h l : live h l -> net (flat_map (hist_ops E g) h) q a = total E g q a l.
Proof.
  induction 1 as [|h l f L IH|h l f l' L IH P].
  - reflexivity.
  - rewrite flat_map_app, net_app, IH. cbn [flat_map hist_ops]. rewrite app_nil_r. unfold total. cbn [fold_right]. lia.
  - rewrite flat_map_app, net_app, IH. cbn [flat_map hist_ops]. rewrite app_nil_r.
    rewrite (mod_path_undo E g 0 1 f) by (left; auto). rewrite net_undo, (total_perm E g q a l (f :: l') P). unfold total. cbn [fold_right]. lia.
Qed.
Lemma live_figs h l : live h l -> forall f, In f l -> In (AddFig f) h.
Proof.
  induction 1 as [|h l f0 L IH|h l f0 l' L IH P]; intros f Hf; [contradiction| |].
  - apply in_app_iff. destruct Hf as [-> | Hf]; [right; left; reflexivity | left; auto].
  - apply in_app_iff. left. apply IH. apply (Permutation_in _ (Permutation_sym P)). right; assumption.
Qed.
