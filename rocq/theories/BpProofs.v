From Verif Require Import Base GeomModel GeomSpec GCellModel GCellSpec GCellProofs GridModel GridProofs2 BatchModel BatchProofs
  ClipModel ClipSpec BpModel BpSpec.

(* ---- one axis ---- *)
Lemma idx_ge g lo hi c k : axis_ok g lo hi -> lo <= c <= hi -> 0 < k < gcount g ->
  (k <= gcell_idx1 g c <-> line g lo hi k <= c).
Proof.
  intros (Hs & Hc & Hlh & H1 & H2) Hr Hk. unfold line, gcell_idx1. destruct (Z.leb_spec k 0); [lia|]. destruct (Z.geb_spec k (gcount g)); [lia|].
  pose proof (quot_bounds (c - gstart g) (gspacing g) Hs) as [Hp Hn].
  set (q := Z.quot _ _) in *.
  destruct (Z.leb_spec 0 (c - gstart g)) as [A|A].
  - specialize (Hp A). destruct Hp as [Q0 Q]. destruct (Z.ltb_spec q 0); [lia|]. destruct (Z.geb_spec q (gcount g)); split; intros; nia.
  - specialize (Hn ltac:(lia)). zcases; split; intros; try lia; nia.
Qed.
Lemma lo_line g lo hi k : 0 <= k < gcount g -> gcell_lo g lo k = line g lo hi k.
Proof. intros. unfold gcell_lo, line. zcases; lia. Qed.
Lemma hi_line g lo hi k : 0 <= k < gcount g -> gcell_hi g hi k = line g lo hi (k + 1).
Proof. intros. unfold gcell_hi, line. zcases; lia. Qed.
Lemma line_cap g lo hi k : 1 <= gcount g -> gcount g <= k -> line g lo hi k = hi.
Proof. intros. unfold line. zcases; lia. Qed.
Lemma line_in g lo hi k : axis_ok g lo hi -> lo <= line g lo hi k <= hi.
Proof. intros (Hs & Hc & Hlh & H1 & H2). unfold line. zcases; try nia. Qed.
(* the cells of one axis that get a pin at X from a wire from a to e *)
Lemma axis_pins g lo hi a e x X : axis_ok g lo hi -> lo <= a -> a < e -> e <= hi ->
  ((gcell_idx1 g a <= x <= gcell_idx1 g e) /\
   ((a < gcell_lo g lo x /\ X = gcell_lo g lo x) \/ (gcell_hi g hi x <= e /\ X = gcell_hi g hi x))) <->
  (0 <= x < gcount g /\ (X = line g lo hi x \/ X = line g lo hi (x + 1)) /\ a < X <= e).
Proof.
  intros A Ha Hae He. assert (A' := A). destruct A' as (Hs & Hc & Hlh & H1 & H2).
  pose proof (idx1_range g a Hs Hc) as Ra. pose proof (idx1_range g e Hs Hc) as Re.
  assert (G : forall k, 0 < k < gcount g -> (k <= gcell_idx1 g a <-> line g lo hi k <= a) /\ (k <= gcell_idx1 g e <-> line g lo hi k <= e)).
  { intros k Hk. split; apply idx_ge; auto; lia. }
  split.
  - intros (R & C). assert (Rx : 0 <= x < gcount g) by lia. split; [exact Rx|].
    rewrite (lo_line g lo hi), (hi_line g lo hi) in C by exact Rx. destruct C as [(C & ->)|(C & ->)].
    + split; [auto|]. destruct (Z.eq_dec x 0) as [->|N]; [unfold line in C; cbn in C; lia|].
      destruct (G x ltac:(lia)). split; [exact C|tauto || (apply H0; lia)].
    + split; [auto|]. destruct (Z.eq_dec (x + 1) (gcount g)) as [E|N]; [rewrite line_cap in * by lia; lia|].
      destruct (G (x + 1) ltac:(lia)) as [G1 _]. split; [|exact C].
      destruct (Z_lt_le_dec a (line g lo hi (x + 1))) as [L|L]; [exact L|]. apply G1 in L. lia.
  - intros (Rx & C & I). rewrite (lo_line g lo hi), (hi_line g lo hi) by exact Rx. destruct C as [-> | ->].
    + destruct (Z.eq_dec x 0) as [->|N]; [unfold line in I; cbn in I; lia|].
      destruct (G x ltac:(lia)) as [G1 G2]. split; [|left; split; [lia|reflexivity]]. split; [|apply G2; lia].
      destruct (Z_lt_le_dec x (gcell_idx1 g a)) as [L|L]; [|lia]. assert (x <= gcell_idx1 g a) as L' by lia. apply G1 in L'. lia.
    + split; [|right; split; [lia|reflexivity]]. destruct (Z.eq_dec (x + 1) (gcount g)) as [E|N].
      * split; [lia|]. assert (e = hi) as -> by (rewrite line_cap in I by lia; lia).
        destruct (Z.eq_dec x 0); [lia|]. apply G; [lia|]. apply line_in, A.
      * destruct (G (x + 1) ltac:(lia)) as [G1 G2]. destruct G2 as [_ G2]. specialize (G2 ltac:(lia)). split; [|lia].
        destruct (Z_lt_le_dec x (gcell_idx1 g a)) as [L|L]; [|lia]. assert (x + 1 <= gcell_idx1 g a) as L' by lia. apply G1 in L'. lia.
Qed.
Lemma cells_idx g lo hi i size v : axis_ok g lo hi -> lo <= v <= hi -> 0 <= i < gcount g -> 0 < size ->
  (i <= gcell_idx1 g v < i + size <-> in_cells g lo hi i size v).
Proof.
  intros A Hv Hi Hz. assert (A' := A). destruct A' as (Hs & Hc & _). pose proof (idx1_range g v Hs Hc) as R.
  unfold in_cells.
  assert (L : i <= gcell_idx1 g v <-> line g lo hi i <= v).
  { destruct (Z.eq_dec i 0) as [->|N]; [unfold line; cbn; lia|]. apply idx_ge; auto; lia. }
  destruct (Z_lt_le_dec (i + size) (gcount g)) as [N|N].
  - pose proof (idx_ge g lo hi v (i + size) A Hv ltac:(lia)) as U. lia.
  - rewrite (line_cap g lo hi (i + size)) by lia. lia.
Qed.

(* ---- one wire ---- *)
Section W.
Variable die : box.
Variables xg yg : gpat.
Hypothesis ok : grid_ok die xg yg.
Notation LX := (line xg (bleft die) (bright die)).
Notation LY := (line yg (bbottom die) (btop die)).

Lemma real_dummy w : real_wire die w -> dummy w = false.
Proof. intros (_ & _ & _ & _ & R). unfold dummy. lia. Qed.

Lemma gb_l i : idx_ok xg yg i -> bleft (gcell_box die xg yg i) = gcell_lo xg (bleft die) (px i).
Proof. intros. rewrite gcell_box_eq by assumption. reflexivity. Qed.
Lemma gb_r i : idx_ok xg yg i -> bright (gcell_box die xg yg i) = gcell_hi xg (bright die) (px i).
Proof. intros. rewrite gcell_box_eq by assumption. reflexivity. Qed.
Lemma gb_b i : idx_ok xg yg i -> bbottom (gcell_box die xg yg i) = gcell_lo yg (bbottom die) (py i).
Proof. intros. rewrite gcell_box_eq by assumption. reflexivity. Qed.
Lemma gb_t i : idx_ok xg yg i -> btop (gcell_box die xg yg i) = gcell_hi yg (btop die) (py i).
Proof. intros. rewrite gcell_box_eq by assumption. reflexivity. Qed.

Lemma wire_pins_h w x y p : real_wire die w -> py (tw_b w) = py (tw_e w) ->
  In (x, y, p) (wire_pins die xg yg w) <->
  y = gcell_idx1 yg (py p) /\ 0 <= x < gcount xg /\ (px p = LX x \/ px p = LX (x + 1)) /\ crosses_x w p.
Proof.
  intros R E. unfold wire_pins. rewrite (real_dummy w R). destruct (Z.eqb_spec (py (tw_b w)) (py (tw_e w))); [|lia].
  destruct R as (B1 & B2 & B3 & B4 & R). assert (Hx : px (tw_b w) + 1 < px (tw_e w)) by lia.
  rewrite in_flat_map. destruct ok as [Ax Ay]. cbn [gcell_idx px py].
  pose proof (idx1_range xg (px (tw_b w)) ltac:(apply Ax) ltac:(apply Ax)) as Rb.
  pose proof (idx1_range xg (px (tw_e w)) ltac:(apply Ax) ltac:(apply Ax)) as Re.
  pose proof (idx1_range yg (py (tw_b w)) ltac:(apply Ay) ltac:(apply Ay)) as Ry.
  pose proof (axis_pins xg (bleft die) (bright die) (px (tw_b w)) (px (tw_e w)) x (px p) Ax B1 ltac:(lia) B3) as K.
  split.
  - intros (x' & Hx' & H). apply zrange_in in Hx'. rewrite gb_l, gb_r in H by (split; cbn [px py]; lia). cbn [px py] in H.
    apply in_app_or in H. destruct H as [H|H].
    + destruct (Z.ltb_spec (px (tw_b w)) (gcell_lo xg (bleft die) x')); [|destruct H]. destruct H as [H|[]]. injection H as -> <- <-. cbn [px py] in *.
      split; [reflexivity|]. unfold crosses_x. cbn [px py]. destruct K as [K _]. destruct K as (K1 & K2 & K3); [split; [lia|left; auto]|]. auto.
    + destruct (Z.geb_spec (px (tw_e w)) (gcell_hi xg (bright die) x')); [|destruct H]. destruct H as [H|[]]. injection H as -> <- <-. cbn [px py] in *.
      split; [now rewrite E|]. unfold crosses_x. cbn [px py]. destruct K as [K _]. destruct K as (K1 & K2 & K3); [split; [lia|right; split; [lia|auto]]|]. auto.
  - intros (-> & K1 & K2 & K3 & K4 & K5). destruct K as [_ K]. destruct K as (K & C); [auto|]. exists x. split; [apply zrange_in; exact K|].
    rewrite gb_l, gb_r by (split; cbn [px py]; lia). cbn [px py]. apply in_or_app. rewrite K4. destruct p as [X Y]. cbn [px py] in *.
    destruct C as [(C & ->)|(C & ->)].
    + left. destruct (Z.ltb_spec (px (tw_b w)) (gcell_lo xg (bleft die) x)); [|lia]. left. now subst Y.
    + right. destruct (Z.geb_spec (px (tw_e w)) (gcell_hi xg (bright die) x)); [|lia]. left. subst Y. now rewrite E.
Qed.
Lemma wire_pins_v w x y p : real_wire die w -> px (tw_b w) = px (tw_e w) ->
  In (x, y, p) (wire_pins die xg yg w) <->
  x = gcell_idx1 xg (px p) /\ 0 <= y < gcount yg /\ (py p = LY y \/ py p = LY (y + 1)) /\ crosses_y w p.
Proof.
  intros R E. unfold wire_pins. rewrite (real_dummy w R).
  destruct R as (B1 & B2 & B3 & B4 & R). assert (Hx : py (tw_b w) + 1 < py (tw_e w)) by lia.
  destruct (Z.eqb_spec (py (tw_b w)) (py (tw_e w))); [lia|]. destruct (Z.eqb_spec (px (tw_b w)) (px (tw_e w))); [|lia].
  rewrite in_flat_map. destruct ok as [Ax Ay]. cbn [gcell_idx px py].
  pose proof (idx1_range yg (py (tw_b w)) ltac:(apply Ay) ltac:(apply Ay)) as Rb.
  pose proof (idx1_range yg (py (tw_e w)) ltac:(apply Ay) ltac:(apply Ay)) as Re.
  pose proof (idx1_range xg (px (tw_b w)) ltac:(apply Ax) ltac:(apply Ax)) as Rx.
  pose proof (axis_pins yg (bbottom die) (btop die) (py (tw_b w)) (py (tw_e w)) y (py p) Ay B2 ltac:(lia) B4) as K.
  split.
  - intros (x' & Hx' & H). apply zrange_in in Hx'. rewrite gb_b, gb_t in H by (split; cbn [px py]; lia). cbn [px py] in H.
    apply in_app_or in H. destruct H as [H|H].
    + destruct (Z.ltb_spec (py (tw_b w)) (gcell_lo yg (bbottom die) x')); [|destruct H]. destruct H as [H|[]]. injection H as <- -> <-. cbn [px py] in *.
      split; [reflexivity|]. unfold crosses_y. cbn [px py]. destruct K as [K _]. destruct K as (K1 & K2 & K3); [split; [lia|left; auto]|]. auto.
    + destruct (Z.geb_spec (py (tw_e w)) (gcell_hi yg (btop die) x')); [|destruct H]. destruct H as [H|[]]. injection H as <- -> <-. cbn [px py] in *.
      split; [now rewrite E|]. unfold crosses_y. cbn [px py]. destruct K as [K _]. destruct K as (K1 & K2 & K3); [split; [lia|right; split; [lia|auto]]|]. auto.
  - intros (-> & K1 & K2 & K3 & K4 & K5). destruct K as [_ K]. destruct K as (K & C); [auto|]. exists y. split; [apply zrange_in; exact K|].
    rewrite gb_b, gb_t by (split; cbn [px py]; lia). cbn [px py]. apply in_or_app. rewrite K4. destruct p as [X Y]. cbn [px py] in *.
    destruct C as [(C & ->)|(C & ->)].
    + left. destruct (Z.ltb_spec (py (tw_b w)) (gcell_lo yg (bbottom die) y)); [|lia]. left. now subst X.
    + right. destruct (Z.geb_spec (py (tw_e w)) (gcell_hi yg (btop die) y)); [|lia]. left. subst X. now rewrite E.
Qed.

(* ---- the clip ---- *)
Lemma route_box_lines size c : 0 < size -> In c (clips xg yg 0 size) ->
  let r := route_box die xg yg size c in
  bleft r = LX (c_i c) /\ bright r = LX (c_i c + size) /\ bbottom r = LY (c_j c) /\ btop r = LY (c_j c + size) /\
  0 <= c_i c < gcount xg /\ 0 <= c_j c < gcount yg.
Proof.
  intros Hs I. apply (clips_in xg yg 0 size c Hs) in I. cbv zeta. rewrite (route_box_eq die xg yg 0 size c ok Hs ltac:(lia) I).
  destruct I as (Ei & Hi & Ej & Hj). assert (0 <= c_i c) by nia. assert (0 <= c_j c) by nia.
  unfold fst_g, lst_g. rewrite !Z.max_r by lia.
  rewrite (lo_line xg (bleft die) (bright die)), (lo_line yg (bbottom die) (btop die)) by lia.
  rewrite (hi_line xg (bleft die) (bright die)), (hi_line yg (bbottom die) (btop die)) by lia.
  split; [reflexivity|]. split; [|split; [reflexivity|split; [|lia]]].
  - change (LX (Z.min (gcount xg - 1) (c_i c + size - 1) + 1) = LX (c_i c + size)). destruct (Z_lt_le_dec (c_i c + size) (gcount xg)); [f_equal; lia|]. rewrite !line_cap by lia. reflexivity.
  - change (LY (Z.min (gcount yg - 1) (c_j c + size - 1) + 1) = LY (c_j c + size)). destruct (Z_lt_le_dec (c_j c + size) (gcount yg)); [f_equal; lia|]. rewrite !line_cap by lia. reflexivity.
Qed.

Lemma first_pins_in size ws c n p l : In (n, p, l) (first_pins die xg yg size ws c) <->
  exists w x y, In w ws /\ tw_net w = n /\ tw_layer w = l /\ In (x, y, p) (wire_pins die xg yg w) /\
    c_i c <= x < gcount xg /\ x < c_i c + size /\ c_j c <= y < gcount yg /\ y < c_j c + size /\
    (px p = bleft (route_box die xg yg size c) \/ px p = bright (route_box die xg yg size c) \/
     py p = bbottom (route_box die xg yg size c) \/ py p = btop (route_box die xg yg size c)).
Proof.
  unfold first_pins. rewrite in_flat_map. split.
  - intros (w & Hw & H). apply in_map_iff in H as (((x & y) & q) & E & H). cbn [snd] in E. injection E as <- <- <-.
    apply filter_In in H as (H & B). exists w, x, y. split; [exact Hw|]. do 2 (split; [reflexivity|]). split; [exact H|]. lia.
  - intros (w & x & y & Hw & <- & <- & H & B). exists w. split; [exact Hw|]. apply in_map_iff. exists (x, y, p). split; [reflexivity|].
    apply filter_In. split; [exact H|]. lia.
Qed.

Lemma some_cell g lo hi i size X : 0 <= i < gcount g -> 0 < size -> 1 <= gcount g ->
  (exists x, (0 <= x < gcount g /\ (X = line g lo hi x \/ X = line g lo hi (x + 1))) /\ i <= x < i + size) <-> clip_line g lo hi i size X.
Proof.
  intros Hi Hs Hc. split.
  - intros (x & (Hx & C) & R). destruct C as [C|C]; [exists x|exists (x + 1)]; (split; [lia|split; [lia|exact C]]).
  - intros (k & R & Rk & ->). destruct (Z_lt_le_dec k (Z.min (gcount g) (i + size))).
    + exists k. split; [split; [lia|auto]|lia].
    + exists (k - 1). split; [split; [lia|]|lia]. right. f_equal. lia.
Qed.

Lemma first_exact size ws c n p l : 0 < size -> In c (clips xg yg 0 size) -> (forall w, In w ws -> real_wire die w) ->
  In (n, p, l) (first_pins die xg yg size ws c) <->
  on_clip_edge die xg yg size c p /\
  exists w, In w ws /\ tw_net w = n /\ tw_layer w = l /\
    ((crosses_x w p /\ clip_line xg (bleft die) (bright die) (c_i c) size (px p) /\ in_cells yg (bbottom die) (btop die) (c_j c) size (py p)) \/
     (crosses_y w p /\ clip_line yg (bbottom die) (btop die) (c_j c) size (py p) /\ in_cells xg (bleft die) (bright die) (c_i c) size (px p))).
Proof.
  intros Hs I R. rewrite first_pins_in. destruct (route_box_lines size c Hs I) as (E1 & E2 & E3 & E4 & Hi & Hj).
  rewrite E1, E2, E3, E4. fold (on_clip_edge die xg yg size c p). destruct ok as [Ax Ay].
  assert (Cx : 1 <= gcount xg) by apply Ax. assert (Cy : 1 <= gcount yg) by apply Ay.
  split.
  - intros (w & x & y & Hw & En & El & H & B1 & B2 & B3 & B4 & B5). split; [exact B5|]. exists w. do 3 (split; [assumption|]).
    assert (Rw := R w Hw). assert (Rw' := Rw). destruct Rw' as (D1 & D2 & D3 & D4 & [[S S']|[S S']]).
    + left. apply (wire_pins_h w x y p Rw S) in H as (Ey & Hx & C & K). split; [exact K|]. split.
      * apply some_cell; try lia. exists x. split; [auto|lia].
      * apply cells_idx; auto; [|lia]. unfold crosses_x in K. lia.
    + right. apply (wire_pins_v w x y p Rw S) in H as (Ex & Hy & C & K). split; [exact K|]. split.
      * apply some_cell; try lia. exists y. split; [auto|lia].
      * apply cells_idx; auto; [|lia]. unfold crosses_y in K. lia.
  - intros (B5 & w & Hw & En & El & C). assert (Rw := R w Hw). assert (Rw' := Rw). destruct Rw' as (D1 & D2 & D3 & D4 & _).
    destruct C as [(K & C & C')|(K & C & C')].
    + apply some_cell in C as (x & (Hx & C) & Hx'); try lia. exists w, x, (gcell_idx1 yg (py p)).
      apply cells_idx in C'; auto; [|unfold crosses_x in K; lia].
      do 3 (split; [assumption|]). split; [apply wire_pins_h; auto; unfold crosses_x in K; lia|].
      pose proof (idx1_range yg (py p) ltac:(apply Ay) ltac:(apply Ay)). do 4 (split; [lia|]). exact B5.
    + apply some_cell in C as (y & (Hy & C) & Hy'); try lia. exists w, (gcell_idx1 xg (px p)), y.
      apply cells_idx in C'; auto; [|unfold crosses_y in K; lia].
      do 3 (split; [assumption|]). split; [apply wire_pins_v; auto; unfold crosses_y in K; lia|].
      pose proof (idx1_range xg (px p) ltac:(apply Ax) ltac:(apply Ax)). do 4 (split; [lia|]). exact B5.
Qed.
End W.
