(* The shapes of a clip, and the area of the wires that leave it. *)
From Verif Require Import Base GeomModel BaModel BaSpec BaProofs.
From Coq Require Import Permutation.

(* Whatever figures were put in and taken out, a query finds exactly the shapes of the figures that are there and meet the box. *)
Theorem C159_query_finds_what_is_there fs os live q l b f : NoDup (map fig_id fs) -> history fs os live -> Forall fig_ok live -> upright q ->
  (In (b, f) (rq_query q l (fold_left rq_step os (rq_init fs))) <-> In f live /\ shape f l b /\ share q b).
Proof.
  intros N H O U. destruct (history_inv _ _ _ N H) as [_ P]. rewrite query_in. rewrite Forall_forall in O. split.
  - intros [I M]. apply (Permutation_in _ P) in I. apply init_in in I as [I S]. apply shapes_spec in S; [|apply O, I]. split; [exact I|]. split; [exact S|]. apply meets_share; [exact U|exact (shape_upright _ _ _ (O f I) S)|exact M].
  - intros (I & S & M). split; [apply (Permutation_in _ (Permutation_sym P)), init_in; split; [exact I|apply shapes_spec; [apply O, I|exact S]]|]. apply meets_share; [exact U|exact (shape_upright _ _ _ (O f I) S)|exact M].
Qed.
Print Assumptions C159_query_finds_what_is_there.

(* And finds each as often as an index built anew from the figures that are there. *)
Theorem C159_as_if_rebuilt fs os live q l : NoDup (map fig_id fs) -> history fs os live ->
  Permutation (rq_query q l (fold_left rq_step os (rq_init fs))) (rq_query q l (rq_init live)).
Proof. intros N H. apply query_perm. apply (history_inv _ _ _ N H). Qed.
Print Assumptions C159_as_if_rebuilt.

(* Taking out a figure that was just put in changes nothing. *)
Theorem C159_add_remove fs f : NoDup (map fig_id (f :: fs)) -> Permutation (rq_remove f (rq_add f (rq_init fs))) (rq_init fs).
Proof. intros N. apply (rq_remove_perm f [] fs); [exact N|reflexivity]. Qed.
Print Assumptions C159_add_remove.

Lemma total_wire rb net l pin rs fs : Forall fig_ok fs -> ~ outside rb pin ->
  (forall f far a, In f fs -> leaves rb net l pin f far a -> end_area net far rs = 0) ->
  wire_area rb net l pin fs (total rb net pin rs (rq_query (box_of_pts pin pin) l (rq_init fs))).
Proof.
  intros O Hp. induction fs as [|f fs IH]; intros E; [constructor|]. inversion O as [|? ? Of Ofs]; subst. unfold rq_init. cbn [flat_map]. rewrite query_app, total_app.
  assert (IH' := IH Ofs (fun g far a G => E g far a (or_intror G))). destruct (fig_cases rb net l pin rs f Of Hp) as [(far & a & L & ->)|[L ->]].
  - rewrite (E f far a (or_introl eq_refl) L), Z.add_0_r. eapply wa_out; [exact L|exact IH'].
  - rewrite Z.add_0_l. apply wa_no; [exact L|exact IH'].
Qed.
Definition covers (b : box) (p : point) : Prop := bleft b <= px p <= bright b /\ bbottom b <= py p <= btop b.
Lemma pin_meets b p : meets (box_of_pts p p) b = true <-> covers b p.
Proof. rewrite pt_box. unfold meets, covers, bleft, bright, bbottom, btop. cbn [ll ur]. rewrite !andb_true_iff, !Z.leb_le. lia. Qed.

(* The area at a pin on the border of a clip is that of the wires of the net that leave the clip there, if no via or patch
   at the far end of such a wire covers the pin. *)
Theorem C160_area_is_wire_area rb t live net l pin : Permutation t (rq_init live) -> Forall fig_ok live -> ~ outside rb pin ->
  (forall f far a g b, In f live -> leaves rb net l pin f far a -> In g live -> fig_net g = net -> placed_at g far -> shape g l b -> ~ covers b pin) ->
  wire_area rb net l pin live (begin_area rb t net pin l).
Proof.
  intros P O Hp NE. rewrite begin_total. rewrite (total_perm _ _ _ _ _ _ (query_perm _ _ _ _ P)). apply total_wire; [exact O|exact Hp|].
  intros f far a F L. apply end_none. intros b g G E A. apply query_in in G as [G M]. apply (Permutation_in _ P), init_in in G as [G S]. rewrite Forall_forall in O.
  apply (NE f far a g b F L G E A); [apply shapes_spec; [apply O, G|exact S]|apply pin_meets, M].
Qed.
Print Assumptions C160_area_is_wire_area.

(* It is never less. *)
Theorem C160_never_less rb t live net l pin s : Permutation t (rq_init live) -> Forall fig_ok live -> ~ outside rb pin ->
  wire_area rb net l pin live s -> s <= begin_area rb t net pin l.
Proof.
  intros P O Hp W. rewrite begin_total. set (rs := rq_query (box_of_pts pin pin) l t).
  assert (N : forall far, 0 <= end_area net far rs).
  { intros far. apply end_nonneg. intros b g G. apply query_in in G as [G _]. apply (Permutation_in _ P), init_in in G as [G S]. rewrite Forall_forall in O. apply shapes_spec in S; [|apply O, G]. exact (shape_upright _ _ _ (O g G) S). }
  unfold rs at 2. rewrite (total_perm _ _ _ _ _ _ (query_perm _ _ _ _ P)). clear P. clearbody rs. induction W as [|f far a fs s L W IH|f fs s L W IH]; [reflexivity| |]; inversion O as [|? ? Of Ofs]; subst; unfold rq_init; cbn [flat_map]; rewrite query_app, total_app;
    specialize (IH Ofs); destruct (fig_cases rb net l pin rs f Of Hp) as [(far' & a' & L' & ->)|[L' ->]].
  - assert (E : a = a' /\ far = far'). { clear -L L' Hp. inversion L; subst; inversion L'; subst; split; try reflexivity; contradiction. } destruct E as [<- <-]. specialize (N far). unfold rq_init in IH. lia.
  - exfalso. exact (L' _ _ L).
  - exfalso. exact (L _ _ L').
  - unfold rq_init in IH. lia.
Qed.
Print Assumptions C160_never_less.

(* Shapes of other nets, and shapes that do not cover the pin, never count: in particular not those at the far end of the wire. *)
Theorem C160_far_shapes_ignored rb t net l pin g : fig_ok g -> (fig_net g <> net \/ forall b, shape g l b -> ~ covers b pin) ->
  begin_area rb (rq_add g t) net pin l = begin_area rb t net pin l.
Proof.
  intros O [H|H]; apply begin_skip; intros b B; [exact H|]. exfalso. apply query_in in B as [B M]. unfold entries in B. apply in_map_iff in B as ([l' b'] & E & S). injection E as -> ->.
  apply (H b); [apply shapes_spec; assumption|apply pin_meets, M].
Qed.
Print Assumptions C160_far_shapes_ignored.

(* So the metal of a via where the wire ends outside is missing: the loop searches the shapes at the pin, not those at the far end. *)
Definition cut_via := mkBV 2 4 3 [mkBox (mkPt (-50) (-50)) (mkPt 50 50)] [mkBox (mkPt (-50) (-50)) (mkPt 50 50)] [mkBox (mkPt (-30) (-30)) (mkPt 30 30)].
Definition out_wire := DSeg 1 7 2 (mkPt 1000 500) (mkPt 1400 500) 60 0 0.
Definition out_via := DVia 2 7 (mkPt 1400 500) cut_via.
Definition clip := mkBox (mkPt 0 0) (mkPt 1000 1000).
Theorem C160_far_via_missing_refuted : exists rb live net l pin f far a g b, Forall fig_ok live /\ ~ outside rb pin /\ live = [f; g] /\
  leaves rb net l pin f far a /\ fig_net g = net /\ placed_at g far /\ shape g l b /\ 0 < box_width b * box_length b /\
  begin_area rb (rq_init live) net pin l = a.
Proof.
  exists clip, [out_wire; out_via], 7, 2, (mkPt 1000 500), out_wire, (mkPt 1400 500), ((Z.abs (1400 - 1000) + Z.abs (500 - 500)) * 60), out_via, (mkBox (mkPt 1350 450) (mkPt 1450 550)).
  assert (U : forall a, 0 <= a -> upright (mkBox (mkPt (- a) (- a)) (mkPt a a))) by (intros a A; unfold upright, bleft, bright, bbottom, btop; cbn [ll ur px py]; lia).
  split; [|split; [|split; [reflexivity|split; [|split; [reflexivity|split; [reflexivity|split; [|split; reflexivity]]]]]]].
  - constructor; [|constructor; [|constructor]]; cbn [fig_ok out_wire out_via px py].
    + split; [right; split; reflexivity|]. repeat split; discriminate.
    + cbn [bv_f1 bv_f2 bv_fc cut_via]. split; [|split]; (constructor; [|constructor]); (apply (U 50)||apply (U 30)); discriminate.
  - unfold outside. intros H. apply H. vm_compute. repeat split; discriminate.
  - apply (lv_begin clip 7 2 (mkPt 1000 500) 1 (mkPt 1400 500) 60 0 0). unfold outside. vm_compute. intros [[_ H] _]. apply H. reflexivity.
  - eapply sh_via; [left; reflexivity|left; reflexivity|repeat split].
Qed.
Print Assumptions C160_far_via_missing_refuted.

(* What such a shape adds if it does cover the pin: all of a patch, half of a via, rounded down. *)
Lemma wire_end_skipped rb net l pin f far a q rs : leaves rb net l pin f far a -> end_area net far (rq_query q l (entries f) ++ rs) = end_area net far rs.
Proof.
  intros L. assert (K : forall xs, (forall x, In x xs -> snd x = f) -> end_area net far (xs ++ rs) = end_area net far rs).
  { induction xs as [|[b g] xs IH]; intros H; [reflexivity|]. cbn [app end_area]. pose proof (H (b, g) (or_introl eq_refl)) as E. cbn [snd] in E. subst g. rewrite IH by (intros x X; apply H; right; exact X). destruct (fig_net f =? net); [|reflexivity]. inversion L; subst; reflexivity. }
  apply K. intros [b g] X. apply query_in in X as [X _]. unfold entries in X. apply in_map_iff in X as (s & E & _). cbn [snd]. congruence.
Qed.
Lemma wire_and_shape rb net l pin f far a g : fig_ok f -> fig_ok g -> ~ outside rb pin -> leaves rb net l pin f far a -> (forall far' a', ~ leaves rb net l pin g far' a') ->
  begin_area rb (rq_init [f; g]) net pin l = a + end_area net far (rq_query (box_of_pts pin pin) l (entries g)).
Proof.
  intros Of Og Hp L N. rewrite begin_total. unfold rq_init. cbn [flat_map]. rewrite app_nil_r, query_app, total_app. set (rs := rq_query _ l (entries f) ++ rq_query _ l (entries g)).
  destruct (fig_cases rb net l pin rs f Of Hp) as [(far' & a' & L' & ->)|[L' _]]; [|exfalso; exact (L' _ _ L)].
  destruct (fig_cases rb net l pin rs g Og Hp) as [(far2 & a2 & L2 & _)|[_ ->]]; [exfalso; exact (N _ _ L2)|].
  assert (E : a' = a /\ far' = far) by (clear -L L' Hp; inversion L; subst; inversion L'; subst; split; try reflexivity; contradiction). destruct E as [-> ->].
  unfold rs. rewrite (wire_end_skipped rb net l pin f far a _ _ L). lia.
Qed.
Theorem C160_near_patch_counted rb net l pin f far a i off : fig_ok f -> upright off -> ~ outside rb pin -> leaves rb net l pin f far a ->
  px far + bleft off <= px pin <= px far + bright off -> py far + bbottom off <= py pin <= py far + btop off ->
  begin_area rb (rq_init [f; DPatch i net l far off]) net pin l = a + (bright off - bleft off) * (btop off - bbottom off).
Proof.
  intros Of U Hp L X Y. rewrite (wire_and_shape rb net l pin f far a); [|exact Of|exact U|exact Hp|exact L|intros ? ? H; inversion H]. f_equal.
  assert (S : exists b, shapes_of (DPatch i net l far off) = [(l, b)] /\ sides b (px far + bleft off) (py far + bbottom off) (px far + bright off) (py far + btop off)).
  { destruct (shapes_of (DPatch i net l far off)) as [|[l' b] t] eqn:E; [discriminate|]. assert (t = []) by (cbn [shapes_of] in E; congruence). subst t. assert (l' = l) by (cbn [shapes_of] in E; congruence). subst l'. exists b. split; [reflexivity|].
    assert (S : shape (DPatch i net l far off) l b) by (apply shapes_spec; [exact U|rewrite E; left; reflexivity]). inversion S; subst. assumption. }
  destruct S as (b & E & S). unfold entries. rewrite E. cbn [map]. unfold rq_query. cbn [filter fst snd]. rewrite Z.eqb_refl. assert (M : meets (box_of_pts pin pin) b = true) by (apply pin_meets; unfold covers; destruct S as (-> & -> & -> & ->); lia). rewrite M. cbn [andb map snd fst end_area fig_net]. rewrite Z.eqb_refl.
  rewrite (proj2 (pt_eq_iff far far) eq_refl). destruct S as (S1 & S2 & S3 & S4). unfold box_width, box_length. unfold bleft, bright, bbottom, btop in *. nia.
Qed.
Print Assumptions C160_near_patch_counted.
Theorem C160_near_via_counted rb net l pin f far a i d b0 : fig_ok f -> fig_ok (DVia i net far d) -> ~ outside rb pin -> leaves rb net l pin f far a ->
  bv_l1 d = l -> bv_l2 d <> l -> bv_cut d <> l -> bv_f1 d = [b0] ->
  px far + bleft b0 <= px pin <= px far + bright b0 -> py far + bbottom b0 <= py pin <= py far + btop b0 ->
  begin_area rb (rq_init [f; DVia i net far d]) net pin l = a + (bright b0 - bleft b0) * (btop b0 - bbottom b0) / 2.
Proof.
  intros Of Og Hp L L1 L2 L3 F1 X Y. rewrite (wire_and_shape rb net l pin f far a); [|exact Of|exact Og|exact Hp|exact L|intros ? ? H; inversion H]. f_equal.
  assert (S : sides (moved far b0) (px far + bleft b0) (py far + bbottom b0) (px far + bright b0) (py far + btop b0)).
  { assert (S : shape (DPatch 0 net l far b0) l (moved far b0)) by (apply shapes_spec; [|left; reflexivity]; cbn [fig_ok] in *; destruct Og as (U & _); rewrite F1 in U; inversion U; assumption). inversion S; subst. assumption. }
  assert (U : upright b0) by (cbn [fig_ok] in Og; destruct Og as (U & _); rewrite F1 in U; inversion U; assumption).
  assert (R : rq_query (box_of_pts pin pin) l (entries (DVia i net far d)) = [(moved far b0, DVia i net far d)]).
  { unfold entries. cbn [shapes_of]. rewrite F1, L1. cbn [map app]. unfold rq_query. cbn [filter fst snd]. rewrite Z.eqb_refl. assert (M : meets (box_of_pts pin pin) (moved far b0) = true) by (apply pin_meets; unfold covers; destruct S as (-> & -> & -> & ->); lia). rewrite M. cbn [andb map fst snd]. f_equal.
    assert (K : forall (xs : list (Z * box)), (forall x, In x xs -> fst x <> l) -> filter (fun x : entry => (fst (fst x) =? l) && meets (box_of_pts pin pin) (snd (fst x))) (map (fun s => (s, DVia i net far d)) xs) = []).
    { induction xs as [|[l' b'] xs IH]; intros H; [reflexivity|]. cbn [map filter fst snd]. destruct (Z.eqb_spec l' l) as [E|]; [exfalso; exact (H _ (or_introl eq_refl) E)|]. apply IH. intros x I. apply H. right. exact I. }
    rewrite K; [reflexivity|]. intros x I. apply in_app_or in I as [I|I]; apply in_map_iff in I as (b & <- & _); assumption. }
  rewrite R. cbn [end_area fig_net]. rewrite Z.eqb_refl, (proj2 (pt_eq_iff far far) eq_refl). destruct S as (S1 & S2 & S3 & S4).
  assert (E : box_width (moved far b0) * box_length (moved far b0) = (bright b0 - bleft b0) * (btop b0 - bbottom b0)) by (unfold box_width, box_length; rewrite S1, S2, S3, S4; destruct (Z.min_spec (px far + bright b0 - (px far + bleft b0)) (py far + btop b0 - (py far + bbottom b0))) as [[? ->]|[? ->]]; [rewrite Z.max_r by lia|rewrite Z.max_l by lia]; ring).
  rewrite E. destruct U as [U1 U2]. apply Z.quot_div_nonneg; [apply Z.mul_nonneg_nonneg; lia|lia].
Qed.
Print Assumptions C160_near_via_counted.
Example C160_near_ex : begin_area clip (rq_init [DSeg 1 7 2 (mkPt 1000 500) (mkPt 1040 500) 60 0 0; DVia 2 7 (mkPt 1040 500) cut_via]) 7 (mkPt 1000 500) 2 = 40 * 60 + 100 * 100 / 2.
Proof. reflexivity. Qed.

(* a wire goes in, another is exchanged *)
Definition in_wire := DSeg 3 7 2 (mkPt 600 500) (mkPt 1000 500) 60 30 30.
Example C159_hyps : NoDup (map fig_id [out_wire; out_via]) /\ history [out_wire; out_via] [OpAdd in_wire; OpRemove out_via] [in_wire; out_wire] /\ Forall fig_ok [in_wire; out_wire].
Proof.
  split; [repeat constructor; cbn; intuition discriminate|]. split.
  - apply (h_remove _ [OpAdd in_wire] [in_wire; out_wire] out_via []). apply (h_add _ [] [out_wire; out_via] in_wire); [constructor|cbn; intuition discriminate].
  - repeat constructor; try discriminate; right; split; reflexivity.
Qed.
Example C159_ex : map (fun x => fig_id (snd x)) (rq_query (mkBox (mkPt 1000 500) (mkPt 1000 500)) 2 (fold_left rq_step [OpAdd in_wire; OpRemove out_via] (rq_init [out_wire; out_via]))) = [3; 1].
Proof. reflexivity. Qed.
Example C160_ex : begin_area clip (rq_init [in_wire; out_wire; out_via]) 7 (mkPt 1000 500) 2 = 24000.
Proof. reflexivity. Qed.
