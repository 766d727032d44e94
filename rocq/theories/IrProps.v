(* Wires of guides before track assignment. *)
From Verif Require Import Base GeomModel TwModel IrModel IrSpec IrProofs.

Section Ir.
Variable isH : bool.
Variable brl nlay : Z.
Variable guides : list tguide.
Variable routeBox : box.
Variable terms : point -> list tterm.
Notation al := (along isH).
Notation ext := (ir_generic isH brl nlay guides routeBox terms).
Notation meets := (meets brl nlay).
Notation own := (own brl nlay guides).
Notation tracks_of := (tracks_of isH).

Lemma tracks_in g p n c : In n guides -> meets g n p -> has_track isH n c -> In c (tracks_of (own g p)).
Proof.
  intros Hn M (w & R & _ & C & _). unfold tracks_of. apply in_flat_map. exists n. split; [unfold own; apply nbrs_in; auto|]. rewrite R. left. exact C.
Qed.
Lemma tracks_from g p c : (forall n, In n guides -> meets g n p -> (exists k, has_track isH n k) \/ exists k, no_track isH n k) -> In c (tracks_of (own g p)) ->
  exists n, In n guides /\ meets g n p /\ has_track isH n c.
Proof.
  intros H Hc. unfold tracks_of in Hc. apply in_flat_map in Hc as (n & Hn & Hc). unfold own in Hn. apply nbrs_in in Hn as [Hn M]. exists n. split; [exact Hn|]. split; [exact M|].
  destruct (H n Hn M) as [(k & w & R & L & B & E)|(k & R & _)]; rewrite R in Hc; cbn in Hc; [|contradiction]. destruct Hc as [<-|[]]. exists w. repeat split; auto. congruence.
Qed.
(* the ends of the wire before they are ordered *)
Definition beg0 (g : tguide) : Z := match ir_min (nbr_all isH brl nlay guides g) with Some c => c | None => al (tg_b g) end.
Definition end0 (g : tguide) : Z := match ir_max (nbr_all isH brl nlay guides g) with Some c => c | None => al (tg_e g) end.
Lemma beg0_spec g : (tracks_of (own g (tg_b g)) = [] /\ beg0 g = al (tg_b g)) \/ (In (beg0 g) (tracks_of (own g (tg_b g))) /\ forall c, In c (tracks_of (own g (tg_b g))) -> beg0 g <= c).
Proof.
  unfold beg0. destruct (nbr_all_spec isH brl nlay guides g) as (E & _). rewrite E. pose proof (omin_fold (tracks_of (own g (tg_b g))) None) as F. destruct (fold_left omin _ None) as [m|]; [right|left; tauto].
  destruct F as [[F1|F1] F2]; [|discriminate F1]. split; [exact F1|]. intros c H. apply F2. left. exact H.
Qed.
Lemma end0_spec g : (tracks_of (own g (tg_e g)) = [] /\ end0 g = al (tg_e g)) \/ (In (end0 g) (tracks_of (own g (tg_e g))) /\ forall c, In c (tracks_of (own g (tg_e g))) -> c <= end0 g).
Proof.
  unfold end0. destruct (nbr_all_spec isH brl nlay guides g) as (_ & E & _). rewrite E. pose proof (omax_fold (tracks_of (own g (tg_e g))) None) as F. destruct (fold_left omax _ None) as [m|]; [right|left; tauto].
  destruct F as [[F1|F1] F2]; [|discriminate F1]. split; [exact F1|]. intros c H. apply F2. left. exact H.
Qed.
Lemma ext_ends g : ie_b (ext g) = Z.min (beg0 g) (end0 g) /\ ie_e (ext g) = (if beg0 g =? end0 g then beg0 g + 1 else Z.max (beg0 g) (end0 g)).
Proof.
  unfold ir_generic. fold (beg0 g). fold (end0 g). rewrite Z.gtb_ltb. destruct (Z.ltb_spec (end0 g) (beg0 g)) as [H|H]; cbn [ie_b ie_e].
  - replace (end0 g =? beg0 g) with false by lia. replace (beg0 g =? end0 g) with false by lia. split; lia.
  - destruct (Z.eqb_spec (beg0 g) (end0 g)); split; lia.
Qed.
Lemma on_track g t c : ie_b (ext g) <= ie_e (ext g) -> (on_wire (ir_wire isH (ext g) (tg_layer g) t) (at_track isH t c) <-> ie_b (ext g) <= c <= ie_e (ext g)).
Proof. intros L. unfold on_wire, ir_wire, at_track. destruct isH; cbn [ts_b ts_e px py]; lia. Qed.
Lemma ends_le g : ie_b (ext g) < ie_e (ext g).
Proof. destruct (ext_ends g) as [-> ->]. destruct (Z.eqb_spec (beg0 g) (end0 g)); lia. Qed.

(* the gcells of the two ends of a guide are the same or are separated by a line between two gcells: guides that meet the
   first end have their tracks before it, those that meet the second end behind it *)
Definition separated (g : tguide) : Prop :=
  tg_b g = tg_e g \/
  exists m, al (tg_b g) < m <= al (tg_e g) /\ forall n c, In n guides -> has_track isH n c -> (meets g n (tg_b g) -> c < m) /\ (meets g n (tg_e g) -> m <= c).
(* the guides that meet [g] have one wire, or none yet; they run across [g] *)
Definition proper (g : tguide) : Prop :=
  forall n, In n guides -> meets g n (tg_b g) \/ meets g n (tg_e g) -> (exists k, has_track isH n k) \/ exists k, no_track isH n k.
Lemma split_ends g : proper g -> forall m, al (tg_b g) < m <= al (tg_e g) ->
  (forall n c, In n guides -> has_track isH n c -> (meets g n (tg_b g) -> c < m) /\ (meets g n (tg_e g) -> m <= c)) -> beg0 g < m <= end0 g.
Proof.
  intros P m M1 M2. split.
  - destruct (beg0_spec g) as [[_ B]|[B _]]; [lia|]. apply tracks_from in B as (n & Hn & Mn & Ht); [|intros n Hn Hm; apply P; auto]. destruct (M2 n _ Hn Ht) as [N1 _]. apply N1, Mn.
  - destruct (end0_spec g) as [[_ B]|[B _]]; [lia|]. apply tracks_from in B as (n & Hn & Mn & Ht); [|intros n Hn Hm; apply P; auto]. destruct (M2 n _ Hn Ht) as [_ N2]. apply N2, Mn.
Qed.
Lemma covers g c : proper g -> separated g -> (exists n, In n guides /\ has_track isH n c /\ (meets g n (tg_b g) \/ meets g n (tg_e g))) -> ie_b (ext g) <= c <= ie_e (ext g).
Proof.
  intros P [E|(m & M1 & M2)] (n & Hn & Ht & Hm).
  - assert (Hc : In c (tracks_of (own g (tg_b g)))) by (destruct Hm as [Hm|Hm]; [|rewrite <- E in Hm]; apply (tracks_in g _ n); assumption).
    destruct (beg0_spec g) as [[B _]|[B1 B2]]; [rewrite B in Hc; destruct Hc|]. destruct (end0_spec g) as [[B _]|[E1 E2]]; rewrite <- E in *; [rewrite B in Hc; destruct Hc|].
    destruct (ext_ends g) as [-> ->]. pose proof (B2 c Hc). pose proof (E2 c Hc). destruct (Z.eqb_spec (beg0 g) (end0 g)); lia.
  - pose proof (split_ends g P m M1 M2) as S. destruct (M2 n c Hn Ht) as [N1 N2]. destruct (ext_ends g) as [-> ->]. replace (beg0 g =? end0 g) with false by lia.
    destruct Hm as [Hm|Hm].
    + specialize (N1 Hm). destruct (beg0_spec g) as [[B _]|[_ B]]; [pose proof (tracks_in g _ n c Hn Hm Ht) as Hc; rewrite B in Hc; destruct Hc|]. specialize (B c (tracks_in g _ n c Hn Hm Ht)). lia.
    + specialize (N2 Hm). destruct (end0_spec g) as [[B _]|[_ B]]; [pose proof (tracks_in g _ n c Hn Hm Ht) as Hc; rewrite B in Hc; destruct Hc|]. specialize (B c (tracks_in g _ n c Hn Hm Ht)). lia.
Qed.

(* C136 *)
(* The wire of a guide reaches the track of every guide of its net that it meets at its ends. *)
Theorem C136_reaches_neighbours g n c t : proper g -> separated g -> In n guides -> meets g n (tg_b g) \/ meets g n (tg_e g) -> has_track isH n c ->
  on_wire (ir_wire isH (ext g) (tg_layer g) t) (at_track isH t c).
Proof. intros P S Hn Hm Ht. apply on_track; [pose proof (ends_le g); lia|]. apply covers; eauto. Qed.
(* The wire is on the guide's layer along the track, never of length zero, and ends at a neighbour's track or at the
   guide's own end (or one unit behind, if both ends are the same). *)
Theorem C136_no_longer_than_needed g t : proper g ->
  let w := ir_wire isH (ext g) (tg_layer g) t in
  ts_layer w = tg_layer g /\ across isH (ts_b w) = t /\ across isH (ts_e w) = t /\ al (ts_b w) < al (ts_e w) /\
  let needed c := c = al (tg_b g) \/ c = al (tg_e g) \/ exists n, In n guides /\ (meets g n (tg_b g) \/ meets g n (tg_e g)) /\ has_track isH n c in
  needed (al (ts_b w)) /\ (needed (al (ts_e w)) \/ al (ts_e w) = al (ts_b w) + 1).
Proof.
  intros P. cbv zeta. assert (A : forall c, al (at_track isH t c) = c /\ across isH (at_track isH t c) = t) by (intros c; unfold along, across, at_track; destruct isH; split; reflexivity).
  unfold ir_wire. cbn [ts_layer ts_b ts_e]. destruct (A (ie_b (ext g))) as [-> ->]. destruct (A (ie_e (ext g))) as [-> ->]. do 3 (split; [reflexivity|]). split; [apply ends_le|].
  assert (NB : beg0 g = al (tg_b g) \/ beg0 g = al (tg_e g) \/ exists n, In n guides /\ (meets g n (tg_b g) \/ meets g n (tg_e g)) /\ has_track isH n (beg0 g)).
  { destruct (beg0_spec g) as [[_ B]|[B _]]; [left; exact B|]. right. right. apply tracks_from in B as (n & Hn & Mn & Ht); [exists n; auto|intros n Hn Hm; apply P; auto]. }
  assert (NE : end0 g = al (tg_b g) \/ end0 g = al (tg_e g) \/ exists n, In n guides /\ (meets g n (tg_b g) \/ meets g n (tg_e g)) /\ has_track isH n (end0 g)).
  { destruct (end0_spec g) as [[_ B]|[B _]]; [right; left; exact B|]. right. right. apply tracks_from in B as (n & Hn & Mn & Ht); [exists n; auto|intros n Hn Hm; apply P; auto]. }
  destruct (ext_ends g) as [-> ->]. split.
  - destruct (Z.min_spec (beg0 g) (end0 g)) as [[_ ->]|[_ ->]]; assumption.
  - destruct (Z.eqb_spec (beg0 g) (end0 g)) as [E|E]; [right; lia|left]. destruct (Z.max_spec (beg0 g) (end0 g)) as [[_ ->]|[_ ->]]; assumption.
Qed.
Lemma via_of_has n c : has_track isH n c -> via_of isH n = [(tg_layer n, c)].
Proof. intros (w & R & L & B & _). unfold via_of. rewrite R. cbn [map]. rewrite L, B. reflexivity. Qed.
Lemma via_of_no n c : no_track isH n c -> via_of isH n = [(tg_layer n, c)].
Proof. intros (R & B & _). unfold via_of. rewrite R, B. reflexivity. Qed.
(* The vias are exactly those to the guides met: at the track of a guide that has one, else at its own coordinate, on the
   cut layer between the two. *)
Theorem C136_vias g t v : proper g -> In v (ir_vias isH (ext g) (tg_layer g) t) <->
  exists n c, In n guides /\ (meets g n (tg_b g) \/ meets g n (tg_e g)) /\ (has_track isH n c \/ no_track isH n c) /\
    2 * fst v = tg_layer g + tg_layer n /\ snd v = at_track isH t c.
Proof.
  intros P. destruct (nbr_all_spec isH brl nlay guides g) as (_ & _ & _ & D & U). cbv zeta in D, U. unfold ir_vias.
  assert (Ed : ie_down (ext g) = ir_down (nbr_all isH brl nlay guides g) /\ ie_up (ext g) = ir_up (nbr_all isH brl nlay guides g)). { unfold ir_generic. destruct (_ >? _); split; reflexivity. }
  destruct Ed as [-> ->]. rewrite in_app_iff, !in_map_iff.
  assert (V : forall n, In n guides -> meets g n (tg_b g) \/ meets g n (tg_e g) -> exists c, (has_track isH n c \/ no_track isH n c) /\ via_of isH n = [(tg_layer n, c)]).
  { intros n Hn Hm. destruct (P n Hn Hm) as [(k & H)|(k & H)]; exists k; [split; [auto|apply via_of_has, H]|split; [auto|apply via_of_no, H]]. }
  assert (O : forall n, (In n (own g (tg_b g)) \/ In n (own g (tg_e g))) <-> In n guides /\ (meets g n (tg_b g) \/ meets g n (tg_e g))).
  { intros n. unfold IrProofs.own. rewrite !nbrs_in. tauto. }
  split.
  - intros [(c & <- & Hc)|(c & <- & Hc)]; [apply U in Hc as (n & l' & Hn & Hl & Hv)|apply D in Hc as (n & Hn & Hv)]; apply O in Hn as [Hn Hm]; destruct (V n Hn Hm) as (k & Hk & E); rewrite E in Hv; cbn in Hv; destruct Hv as [Hv|[]]; injection Hv as Hv1 Hv2; subst; exists n, c; cbn [fst snd].
    + do 3 (split; [assumption|]). split; [|reflexivity]. destruct Hm as [(_ & [L|L] & _)|(_ & [L|L] & _)]; lia.
    + do 3 (split; [assumption|]). split; [|reflexivity]. lia.
  - intros (n & c & Hn & Hm & Ht & Hl & Hs). destruct v as [l p]. cbn [fst snd] in *. subst p.
    assert (E : via_of isH n = [(tg_layer n, c)]) by (destruct Ht as [Ht|Ht]; [apply via_of_has|apply via_of_no]; exact Ht).
    assert (L : tg_layer n = tg_layer g - 2 \/ tg_layer n = tg_layer g + 2) by (destruct Hm as [(_ & [L|L] & _)|(_ & [L|L] & _)]; lia).
    destruct L as [L|L]; [right|left]; exists c; (split; [f_equal; lia|]).
    + apply D. exists n. split; [apply O; auto|]. rewrite E, L. left. reflexivity.
    + apply U. exists n, (tg_layer n). split; [apply O; auto|]. split; [lia|]. rewrite E. left. reflexivity.
Qed.
(* If at each end either all guides met have a track or none, every via lies on the wire. *)
Theorem C136_vias_on_wire g t v : proper g -> separated g ->
  (forall n, In n guides -> meets g n (tg_b g) -> (exists c, has_track isH n c) \/ forall n', In n' guides -> meets g n' (tg_b g) -> no_track isH n' (al (tg_b g))) ->
  (forall n, In n guides -> meets g n (tg_e g) -> (exists c, has_track isH n c) \/ forall n', In n' guides -> meets g n' (tg_e g) -> no_track isH n' (al (tg_e g))) ->
  In v (ir_vias isH (ext g) (tg_layer g) t) -> on_wire (ir_wire isH (ext g) (tg_layer g) t) (snd v).
Proof.
  intros P S HB HE Hv. apply C136_vias in Hv as (n & c & Hn & Hm & Ht & _ & Hs); [|exact P]. rewrite Hs. destruct Ht as [Ht|Ht]; [apply (C136_reaches_neighbours g n); assumption|].
  apply on_track; [pose proof (ends_le g); lia|]. assert (NT : forall k, ~ has_track isH n k) by (intros k (w & R & _); destruct Ht as (R' & _); congruence).
  assert (Cb : meets g n (tg_b g) -> tracks_of (own g (tg_b g)) = [] /\ c = al (tg_b g)).
  { intros M. destruct (HB n Hn M) as [(k & Hk)|H]; [destruct (NT k Hk)|]. split; [|destruct (H n Hn M) as (_ & B & _); destruct Ht as (_ & B' & _); congruence].
    destruct (tracks_of (own g (tg_b g))) as [|x r] eqn:E; [reflexivity|]. exfalso. assert (Hx : In x (tracks_of (own g (tg_b g)))) by (rewrite E; left; reflexivity). apply tracks_from in Hx as (n' & Hn' & M' & (w & R & _)); [|intros; apply P; auto]. destruct (H n' Hn' M') as (R' & _). congruence. }
  assert (Ce : meets g n (tg_e g) -> tracks_of (own g (tg_e g)) = [] /\ c = al (tg_e g)).
  { intros M. destruct (HE n Hn M) as [(k & Hk)|H]; [destruct (NT k Hk)|]. split; [|destruct (H n Hn M) as (_ & B & _); destruct Ht as (_ & B' & _); congruence].
    destruct (tracks_of (own g (tg_e g))) as [|x r] eqn:E; [reflexivity|]. exfalso. assert (Hx : In x (tracks_of (own g (tg_e g)))) by (rewrite E; left; reflexivity). apply tracks_from in Hx as (n' & Hn' & M' & (w & R & _)); [|intros; apply P; auto]. destruct (H n' Hn' M') as (R' & _). congruence. }
  assert (BE : (meets g n (tg_b g) -> beg0 g = c) /\ (meets g n (tg_e g) -> end0 g = c)).
  { split; intros M; [destruct (Cb M) as [C1 C2]; destruct (beg0_spec g) as [[_ B]|[B _]]|destruct (Ce M) as [C1 C2]; destruct (end0_spec g) as [[_ B]|[B _]]]; try congruence; rewrite C1 in B; destruct B. }
  destruct (ext_ends g) as [-> ->]. destruct Hm as [Hm|Hm]; [pose proof (proj1 BE Hm)|pose proof (proj2 BE Hm)]; destruct (Z.eqb_spec (beg0 g) (end0 g)); lia.
Qed.
(* Choosing a track: two tracks in the gcell of the guide differ in wire length cost by the difference in length of the
   wires that cross the guide at its ends; by twice this for a guide in a single gcell. *)
Theorem C136_wire_length g endBox t1 t2 :
  let lo := if isH then bbottom endBox else bleft endBox in let hi := if isH then btop endBox else bright endBox in
  lo <= t1 <= hi -> lo <= t2 <= hi ->
  let cost := wlen_cost isH (ie_wlen (ext g)) endBox in
  let ends := if pt_same (tg_b g) (tg_e g) then [(tg_b g, 2)] else [(tg_b g, 1); (tg_e g, 1)] in
  let len t := zsum (map (fun pk => snd pk * zsum (map (cross_len isH (fst pk) t) (met brl nlay guides g (fst pk)))) ends) in
  cost t1 - cost t2 = len t1 - len t2.
Proof.
  cbv zeta. intros H1 H2.
  assert (W : ie_wlen (ext g) = zsum (map (wl_of (tg_b g)) (own g (tg_b g))) + zsum (map (wl_of (tg_e g)) (own g (tg_e g)))).
  { destruct (nbr_all_spec isH brl nlay guides g) as (_ & _ & E & _). rewrite <- E. unfold ir_generic. destruct (_ >? _); reflexivity. }
  assert (C : wlen_cost isH (ie_wlen (ext g)) endBox t1 - wlen_cost isH (ie_wlen (ext g)) endBox t2 = - ie_wlen (ext g) * (t1 - t2)).
  { unfold wlen_cost. generalize (ie_wlen (ext g)). intros k. set (lo := if isH then bbottom endBox else bleft endBox) in *. set (hi := if isH then btop endBox else bright endBox) in *.
    destruct (Z.leb_spec k 0).
    - rewrite (Z.abs_neq k) by lia. destruct (Z.ltb_spec (- k * (t1 - lo)) 0); [nia|]. destruct (Z.ltb_spec (- k * (t2 - lo)) 0); [nia|]. lia.
    - rewrite (Z.abs_eq k) by lia. destruct (Z.ltb_spec (k * (hi - t1)) 0); [nia|]. destruct (Z.ltb_spec (k * (hi - t2)) 0); [nia|]. lia. }
  rewrite C, W, !sum_own. clear C W.
  assert (Q : forall p l, zsum (map (cross_len isH p t1) l) - zsum (map (cross_len isH p t2) l) = - zsum (map (wl_of p) l) * (t1 - t2)).
  { intros p l. induction l as [|n l IH]; [reflexivity|]. cbn [map zsum fold_right]. unfold zsum in IH. unfold wl_of at 1, cross_len at 1 3. destruct (pt_same p (tg_b n)), (pt_same p (tg_e n)); lia. }
  destruct (pt_same (tg_b g) (tg_e g)) eqn:E; cbn [map zsum fold_right fst snd].
  - assert (Eq : tg_b g = tg_e g). { unfold pt_same in E. apply andb_true_iff in E as [E1 E2]. apply Z.eqb_eq in E1, E2. destruct (tg_b g), (tg_e g). cbn in *. congruence. }
    rewrite <- Eq. pose proof (Q (tg_b g) (met brl nlay guides g (tg_b g))) as Q1. lia.
  - pose proof (Q (tg_b g) (met brl nlay guides g (tg_b g))) as Q1. pose proof (Q (tg_e g) (met brl nlay guides g (tg_e g))) as Q2. lia.
Qed.

(* C137 *)
Lemma pin_loop_some ok acc aps : forall pins idx ap, pin_loop ok acc aps pins idx = Some ap -> acc = true /\ ok ap = true /\ In (Some ap) aps.
Proof.
  induction pins as [|p pins IH]; intros idx ap H; cbn [pin_loop] in H; [discriminate H|]. destruct (negb p || negb acc) eqn:E; [apply (IH idx), H|]. apply orb_false_iff in E as [_ E]. apply negb_false_iff in E.
  destruct (nth idx aps None) as [a|] eqn:N; [|apply (IH idx), H]. destruct (ok a) eqn:O; [|apply (IH (S idx)), H]. injection H as <-. split; [exact E|]. split; [exact O|].
  destruct (nth_in_or_default idx aps None) as [I|I]; [rewrite N in I; exact I|congruence].
Qed.
Lemma term_loop_some ok net : forall ts ap, term_loop ok net ts = Some ap -> exists t, In t ts /\ tt_net t = net /\ tt_acc t = true /\ ok ap = true /\ In (Some ap) (tt_aps t).
Proof.
  induction ts as [|t ts IH]; intros ap H; cbn [term_loop] in H; [discriminate H|]. destruct (Z.eqb_spec (tt_net t) net) as [E|E].
  - destruct (pin_loop ok (tt_acc t) (tt_aps t) (tt_pins t) 0) as [a|] eqn:L; [injection H as <-; apply pin_loop_some in L as (A & O & I); exists t; repeat split; auto; left; reflexivity|]. destruct (IH ap H) as (t' & Ht & R). exists t'. split; [right; exact Ht|exact R].
  - destruct (IH ap H) as (t' & Ht & R). exists t'. split; [right; exact Ht|exact R].
Qed.
(* a terminal all of whose pins have an access point *)
Definition complete_term (t : tterm) : Prop := tt_acc t = true /\ Forall (eq true) (tt_pins t) /\ length (tt_aps t) = length (tt_pins t) /\ forall o, In o (tt_aps t) -> o <> None.
Lemma skipn_nth {A} (l : list A) d : forall n, (n < length l)%nat -> skipn n l = nth n l d :: skipn (S n) l.
Proof. induction l as [|a l IH]; intros [|n] H; cbn in *; try lia; [reflexivity|]. apply IH. lia. Qed.
Lemma pin_loop_complete ok aps : forall pins idx ap, Forall (eq true) pins -> (forall o, In o aps -> o <> None) -> (length aps <= idx + length pins)%nat ->
  In (Some ap) (skipn idx aps) -> ok ap = true -> pin_loop ok true aps pins idx <> None.
Proof.
  induction pins as [|p pins IH]; intros idx ap F N L I O; cbn [pin_loop].
  - rewrite skipn_all2 in I by (cbn in L; lia). destruct I.
  - inversion F as [|? ? E F']; subst. cbn [negb orb]. destruct (nth idx aps None) as [a|] eqn:E.
    + destruct (ok a) eqn:Oa; [discriminate|]. apply (IH (S idx) ap); auto; [cbn in L; lia|].
      assert (Li : (idx < length aps)%nat). { destruct (Nat.lt_ge_cases idx (length aps)); [assumption|]. rewrite skipn_all2 in I by assumption. destruct I. }
      rewrite (skipn_nth aps None idx Li) in I. destruct I as [I|I]; [rewrite E in I; injection I as ->; congruence|exact I].
    + assert (Li : (idx < length aps)%nat). { destruct (Nat.lt_ge_cases idx (length aps)); [assumption|]. rewrite skipn_all2 in I by assumption. destruct I. }
      exfalso. apply (N (nth idx aps None)); [apply nth_In, Li|exact E].
Qed.
Notation pin := (ir_pin isH brl nlay guides routeBox terms).
(* A guide that is placed on a pin lies exactly at an access point of its net on its layer in the panel, wants the track
   through it, and has a via to the layers on which a guide of the net meets it. *)
Theorem C137_at_access_point g x t : pin g = Some x ->
  exists tm ap, tg_b g = tg_e g /\ In tm (terms (tg_b g)) /\ tt_net tm = tg_net g /\ In (Some ap) (tt_aps tm) /\ fst ap = tg_layer g /\ box_contains_pt routeBox (snd ap) true = true /\
    ie_wlen2 x = Some (across isH (snd ap)) /\
    (t = across isH (snd ap) -> ir_wire isH x (tg_layer g) t = mkTS (tg_layer g) (snd ap) (snd ap)) /\
    (t = across isH (snd ap) -> forall v, In v (ir_vias isH x (tg_layer g) t) <-> exists n, In n guides /\ meets g n (tg_b g) /\ 2 * fst v = tg_layer g + tg_layer n /\ snd v = snd ap).
Proof.
  unfold ir_pin. destruct (pt_same (tg_b g) (tg_e g)) eqn:E; cbn [negb]; [|discriminate].
  assert (Eq : tg_b g = tg_e g). { unfold pt_same in E. apply andb_true_iff in E as [E1 E2]. apply Z.eqb_eq in E1, E2. destruct (tg_b g), (tg_e g). cbn in *. congruence. }
  destruct (term_loop _ _ _) as [ap|] eqn:T; [|discriminate]. intros H. injection H as <-. apply term_loop_some in T as (tm & Ht & Hn & _ & O & I). apply andb_true_iff in O as [O1 O2]. apply Z.eqb_eq in O1.
  exists tm, ap. do 6 (split; [assumption|]). cbn [ie_wlen2]. split; [reflexivity|].
  assert (AT : at_track isH (across isH (snd ap)) (al (snd ap)) = snd ap) by (unfold at_track, across, along; destruct isH, (snd ap); reflexivity).
  split.
  - intros ->. unfold ir_wire. cbn [ie_b ie_e]. rewrite AT. reflexivity.
  - intros -> v. unfold ir_vias. cbn [ie_up ie_down].
    assert (Hb : forall l, has_nbr guides (tg_net g) l (tg_b g) = true <-> exists n, In n guides /\ tg_net n = tg_net g /\ tg_layer n = l /\ Z.min (px (tg_b n)) (px (tg_e n)) <= px (tg_b g) <= Z.max (px (tg_b n)) (px (tg_e n)) /\ Z.min (py (tg_b n)) (py (tg_e n)) <= py (tg_b g) <= Z.max (py (tg_b n)) (py (tg_e n))).
    { intros l. unfold has_nbr. rewrite existsb_exists. unfold query_guides. split.
      - intros (n & Hf & Hnet). apply filter_In in Hf as [Hg Hf]. apply andb_true_iff in Hf as [Hl Hf]. apply Z.eqb_eq in Hl, Hnet. apply box_set_in in Hf. exists n. tauto.
      - intros (n & Hg & Hnet & Hl & Hf). exists n. split; [apply filter_In; split; [exact Hg|]; apply andb_true_iff; split; [apply Z.eqb_eq, Hl|apply box_set_in, Hf]|apply Z.eqb_eq, Hnet]. }
    assert (Up : forall c, In c (if if tg_layer g + 2 <? nlay then has_nbr guides (tg_net g) (tg_layer g + 2) (tg_b g) else false then [al (snd ap)] else []) <-> c = al (snd ap) /\ exists n, In n guides /\ meets g n (tg_b g) /\ tg_layer n = tg_layer g + 2).
    { intros c. destruct (Z.ltb_spec (tg_layer g + 2) nlay) as [L|L].
      - destruct (has_nbr guides (tg_net g) (tg_layer g + 2) (tg_b g)) eqn:B.
        + apply Hb in B as (n & B). cbn [In]. split; [intros [<-|[]]; split; [reflexivity|]; exists n; unfold IrSpec.meets; tauto|intros [-> _]; left; reflexivity].
        + cbn [In]. split; [tauto|]. intros (_ & n & Hg & (M1 & M2 & M3) & Hl). assert (has_nbr guides (tg_net g) (tg_layer g + 2) (tg_b g) = true) by (apply Hb; exists n; tauto). congruence.
      - cbn [In]. split; [tauto|]. intros (_ & n & _ & (_ & M & _) & Hl). lia. }
    assert (Dn : forall c, In c (if if tg_layer g - 2 >=? brl then has_nbr guides (tg_net g) (tg_layer g - 2) (tg_b g) else false then [al (snd ap)] else []) <-> c = al (snd ap) /\ exists n, In n guides /\ meets g n (tg_b g) /\ tg_layer n = tg_layer g - 2).
    { intros c. destruct (Z.geb_spec (tg_layer g - 2) brl) as [L|L].
      - destruct (has_nbr guides (tg_net g) (tg_layer g - 2) (tg_b g)) eqn:B.
        + apply Hb in B as (n & B). cbn [In]. split; [intros [<-|[]]; split; [reflexivity|]; exists n; unfold IrSpec.meets; tauto|intros [-> _]; left; reflexivity].
        + cbn [In]. split; [tauto|]. intros (_ & n & Hg & (M1 & M2 & M3) & Hl). assert (has_nbr guides (tg_net g) (tg_layer g - 2) (tg_b g) = true) by (apply Hb; exists n; tauto). congruence.
      - cbn [In]. split; [tauto|]. intros (_ & n & _ & (_ & M & _) & Hl). lia. }
    rewrite in_app_iff, !in_map_iff. split.
    + intros [(c & <- & Hc)|(c & <- & Hc)]; [apply Up in Hc as (-> & n & Hg & M & Hl)|apply Dn in Hc as (-> & n & Hg & M & Hl)]; exists n; cbn [fst snd]; rewrite AT; repeat split; try assumption; try apply M; lia.
    + intros (n & Hg & M & Hf & Hs). destruct v as [l p]. cbn [fst snd] in *. subst p. assert (L : tg_layer n = tg_layer g - 2 \/ tg_layer n = tg_layer g + 2) by (destruct M as (_ & [L|L] & _); lia).
      destruct L as [L|L]; [right|left]; exists (al (snd ap)); rewrite AT; (split; [f_equal; lia|]); [apply Dn|apply Up]; (split; [reflexivity|]); exists n; auto.
Qed.
(* A guide in one gcell is placed on a pin if a terminal of its net there, all of whose pins have an access point, has
   one on the guide's layer in the panel. *)
Theorem C137_pin_is_used g tm ap : tg_b g = tg_e g -> In tm (terms (tg_b g)) -> tt_net tm = tg_net g -> complete_term tm -> In (Some ap) (tt_aps tm) ->
  fst ap = tg_layer g -> box_contains_pt routeBox (snd ap) true = true -> pin g <> None.
Proof.
  intros Eq Ht Hn (A & F & L & N) I Hl Hb. unfold ir_pin. rewrite Eq. replace (pt_same (tg_e g) (tg_e g)) with true by (unfold pt_same; rewrite !Z.eqb_refl; reflexivity). cbn [negb].
  assert (T : term_loop (fun ap => (fst ap =? tg_layer g) && in_panel routeBox ap) (tg_net g) (terms (tg_e g)) <> None).
  { rewrite Eq in Ht. induction (terms (tg_e g)) as [|t ts IH]; [destruct Ht|]. cbn [term_loop]. destruct Ht as [->|Ht].
    - rewrite (proj2 (Z.eqb_eq _ _) Hn), A. pose proof (pin_loop_complete (fun ap => (fst ap =? tg_layer g) && in_panel routeBox ap) (tt_aps tm) (tt_pins tm) 0 ap F N) as Q. destruct (pin_loop _ true _ _ 0); [discriminate|]. exfalso. apply Q; auto; [lia|]. cbv beta. rewrite (proj2 (Z.eqb_eq _ _) Hl). exact Hb.
    - destruct (tt_net t =? tg_net g); [destruct (pin_loop _ _ _ _ 0); [discriminate|]|]; apply IH, Ht. }
  destruct (term_loop _ _ _); [discriminate|]. exfalso. apply T. reflexivity.
Qed.
(* The cost for the pin is zero exactly on the wanted track, at least four pitches off it, and grows with the distance from it. *)
Theorem C137_pin_cost pitch c t1 t2 : 0 < pitch -> (pin_cost pitch (Some c) t1 = 0 <-> t1 = c) /\ (t1 <> c -> 4 * pitch < pin_cost pitch (Some c) t1) /\ (Z.abs (t1 - c) < Z.abs (t2 - c) <-> pin_cost pitch (Some c) t1 < pin_cost pitch (Some c) t2).
Proof. intros P. unfold pin_cost. destruct (Z.eqb_spec (Z.abs (t1 - c)) 0), (Z.eqb_spec (Z.abs (t2 - c)) 0); lia. Qed.
(* An assigned guide has one wire, on its layer; the guides across see it at the track. *)
Theorem C136_assigned g t : has_track (negb isH) (save_guide g (ir_wire isH (ext g) (tg_layer g) t)) t /\
  tg_layer (save_guide g (ir_wire isH (ext g) (tg_layer g) t)) = tg_layer g /\ tg_b (save_guide g (ir_wire isH (ext g) (tg_layer g) t)) = tg_b g /\
  tg_e (save_guide g (ir_wire isH (ext g) (tg_layer g) t)) = tg_e g /\ tg_net (save_guide g (ir_wire isH (ext g) (tg_layer g) t)) = tg_net g.
Proof.
  split; [|repeat split]. exists (ir_wire isH (ext g) (tg_layer g) t). split; [reflexivity|]. split; [reflexivity|]. unfold ir_wire, along. cbn [ts_b ts_e]. destruct isH; cbn; auto.
Qed.
(* A guide that ends at pins of the design only (IO pins) wants the track at coordinate 0, wherever the pins are. *)
Theorem C137_io_pins_want_zero g : (forall tm, In tm (terms (tg_b g)) \/ In tm (terms (tg_e g)) -> tt_acc tm = false) ->
  (exists tm, In tm (terms (tg_b g)) /\ tt_net tm = tg_net g) -> ie_wlen2 (ext g) = Some 0.
Proof.
  intros A (tm & Ht & Hn). assert (E : ie_wlen2 (ext g) = pin_want isH routeBox terms g) by (unfold ir_generic; destruct (_ >? _); reflexivity). rewrite E. unfold pin_want.
  set (ts := terms (tg_b g) ++ _). assert (A' : forall tm, In tm ts -> tt_acc tm = false). { intros t0 H. apply A. unfold ts in H. apply in_app_or in H as [H|H]; [left; exact H|]. destruct (pt_same _ _); [destruct H|right; exact H]. }
  assert (H' : In tm ts) by (unfold ts; apply in_or_app; left; exact Ht). clearbody ts. clear A E Ht.
  assert (P0 : forall ok aps pins idx, pin_loop ok false aps pins idx = None). { intros ok aps. induction pins as [|p pins IH]; intros idx; cbn [pin_loop]; [reflexivity|]. rewrite orb_true_r. apply IH. }
  assert (Z0 : forall l, (forall tm, In tm l -> tt_acc tm = false) -> term_want isH routeBox (tg_net g) l (Some 0) = Some 0).
  { induction l as [|t l IH]; intros H; cbn [term_want]; [reflexivity|]. rewrite (H t (or_introl eq_refl)), P0. destruct (tt_net t =? tg_net g); apply IH; intros; apply H; right; assumption. }
  generalize (@None Z). induction ts as [|t l IH]; intros o; [destruct H'|]. cbn [term_want]. rewrite (A' t (or_introl eq_refl)), P0. destruct H' as [->|H'].
  - rewrite (proj2 (Z.eqb_eq _ _) Hn). apply Z0. intros; apply A'; right; assumption.
  - destruct (tt_net t =? tg_net g); apply IH; auto; intros; apply A'; right; assumption.
Qed.
(* A guide that ends at a complete terminal of its net with an access point in the panel wants the track through an access
   point in the panel of a terminal of its net there. *)
Theorem C137_wants_access_point g tm ap : In tm (terms (tg_b g)) \/ In tm (terms (tg_e g)) -> tt_net tm = tg_net g -> complete_term tm -> In (Some ap) (tt_aps tm) -> box_contains_pt routeBox (snd ap) true = true ->
  exists tm' ap', (In tm' (terms (tg_b g)) \/ In tm' (terms (tg_e g))) /\ tt_net tm' = tg_net g /\ In (Some ap') (tt_aps tm') /\ box_contains_pt routeBox (snd ap') true = true /\ ie_wlen2 (ext g) = Some (across isH (snd ap')).
Proof.
  intros Ht Hn (A & F & L & N) I Hb. assert (E : ie_wlen2 (ext g) = pin_want isH routeBox terms g) by (unfold ir_generic; destruct (_ >? _); reflexivity). rewrite E. unfold pin_want.
  set (ts := terms (tg_b g) ++ _). assert (S1 : forall t, In t ts -> In t (terms (tg_b g)) \/ In t (terms (tg_e g))). { intros t H. unfold ts in H. apply in_app_or in H as [H|H]; [left; exact H|]. destruct (pt_same _ _); [destruct H|right; exact H]. }
  assert (S2 : In tm ts). { unfold ts. apply in_or_app. destruct Ht as [Ht|Ht]; [left; exact Ht|]. destruct (pt_same (tg_e g) (tg_b g)) eqn:P; [left|right; exact Ht]. unfold pt_same in P. apply andb_true_iff in P as [P1 P2]. apply Z.eqb_eq in P1, P2. replace (tg_b g) with (tg_e g); [exact Ht|]. destruct (tg_e g), (tg_b g). cbn in *. congruence. }
  clearbody ts. clear E Ht.
  assert (Q : forall w, exists tm' ap', In tm' ts /\ tt_net tm' = tg_net g /\ In (Some ap') (tt_aps tm') /\ box_contains_pt routeBox (snd ap') true = true /\ term_want isH routeBox (tg_net g) ts w = Some (across isH (snd ap'))).
  { clear S1. induction ts as [|t l IH]; intros w; [destruct S2|]. cbn [term_want]. destruct (Z.eqb_spec (tt_net t) (tg_net g)) as [En|En].
    - destruct (pin_loop (in_panel routeBox) (tt_acc t) (tt_aps t) (tt_pins t) 0) as [a|] eqn:PL.
      + apply pin_loop_some in PL as (_ & O & Ia). exists t, a. repeat split; auto. left; reflexivity.
      + destruct S2 as [->|S2]; [exfalso; rewrite A in PL; apply (pin_loop_complete (in_panel routeBox) (tt_aps tm) (tt_pins tm) 0 ap F N) in PL; auto; lia|]. destruct (IH S2 (Some 0)) as (t' & a' & H & R). exists t', a'. split; [right; exact H|exact R].
    - destruct S2 as [->|S2]; [contradiction|]. destruct (IH S2 w) as (t' & a' & H & R). exists t', a'. split; [right; exact H|exact R]. }
  destruct (Q None) as (t' & a' & H & R). exists t', a'. split; [apply S1; exact H|exact R].
Qed.
End Ir.
Print Assumptions C136_reaches_neighbours.
Print Assumptions C136_no_longer_than_needed.
Print Assumptions C136_vias.
Print Assumptions C136_vias_on_wire.
Print Assumptions C136_wire_length.
Print Assumptions C136_assigned.
Print Assumptions C137_at_access_point.
Print Assumptions C137_pin_is_used.
Print Assumptions C137_pin_cost.
Print Assumptions C137_io_pins_want_zero.
Print Assumptions C137_wants_access_point.

(* a horizontal guide from (5,5) to (25,5) on layer 4 of net 1; a guide on layer 2 with a track at 3 at its first end, one on
   layer 6 with a track at 28 at its second end; one of another net *)
Definition ir_seg (l x : Z) : tseg := mkTS l (mkPt x 5) (mkPt x 35).
Definition ir_g : tguide := mkTG 1 4 (mkPt 5 5) (mkPt 25 5) [].
Definition ir_gs : list tguide :=
  [ir_g; mkTG 1 2 (mkPt 5 5) (mkPt 5 35) [ir_seg 2 3]; mkTG 1 6 (mkPt 25 5) (mkPt 25 35) [ir_seg 6 28]; mkTG 2 6 (mkPt 25 5) (mkPt 25 35) [ir_seg 6 21]].
Definition ir_x : irext := ir_generic true 2 9 ir_gs (mkBox (mkPt 0 0) (mkPt 100 10)) (fun _ => []) ir_g.
Example C136_nonvacuous :
  proper true 2 9 ir_gs ir_g /\ separated true 2 9 ir_gs ir_g /\
  ir_wire true ir_x 4 7 = mkTS 4 (mkPt 3 7) (mkPt 28 7) /\ ir_vias true ir_x 4 7 = [(5, mkPt 28 7); (3, mkPt 3 7)] /\ ie_wlen ir_x = 2 /\
  wlen_cost true (ie_wlen ir_x) (mkBox (mkPt 20 0) (mkPt 30 10)) 7 = 6.
Proof.
  split; [|split; [|split; [|split; [|split]]]]; try reflexivity.
  - intros n Hn Hm. cbn [ir_gs In] in Hn. destruct Hn as [<-|[<-|[<-|[<-|[]]]]].
    + exfalso. unfold meets in Hm. cbn in Hm. lia.
    + left. exists 3. eexists. repeat split.
    + left. exists 28. eexists. repeat split.
    + left. exists 21. eexists. repeat split.
  - right. exists 15. split; [cbn; lia|]. intros n c Hn (w & R & _ & C & _). cbn [ir_gs In] in Hn. destruct Hn as [<-|[<-|[<-|[<-|[]]]]]; cbn in R; try discriminate R; injection R as <-; cbn in C; subst c; unfold meets; cbn; lia.
Qed.
(* A via to a guide without a track can be off the wire if another guide at the same end has one. *)
Theorem C136_vias_on_wire_refuted : exists guides g v, proper true 2 9 guides g /\ separated true 2 9 guides g /\
  let x := ir_generic true 2 9 guides (mkBox (mkPt 0 0) (mkPt 100 10)) (fun _ => []) g in
  In v (ir_vias true x 4 7) /\ ~ on_wire (ir_wire true x 4 7) (snd v).
Proof.
  set (g := mkTG 1 4 (mkPt 5 5) (mkPt 5 5) []). exists [g; mkTG 1 2 (mkPt 5 5) (mkPt 5 35) [ir_seg 2 9]; mkTG 1 6 (mkPt 5 5) (mkPt 5 35) []], g, (5, mkPt 5 7). split; [|split; [left; reflexivity|split; [left; reflexivity|]]].
  - intros n Hn Hm. destruct Hn as [<-|[<-|[<-|[]]]]; [exfalso; unfold meets in Hm; cbn in Hm; lia|left; exists 9; eexists; repeat split|right; exists 5; repeat split].
  - vm_compute. intros [[H _] _]. apply H. reflexivity.
Qed.
(* a pin of net 1 with an access point at (7,4) on layer 4, met by a guide on layer 6 *)
Definition ir_pg : tguide := mkTG 1 4 (mkPt 5 5) (mkPt 5 5) [].
Definition ir_term (aps : list (option (Z * point))) : tterm := mkTT 1 true (map (fun _ => true) aps) aps.
Definition ir_panel : box := mkBox (mkPt 0 0) (mkPt 100 10).
Example C137_nonvacuous :
  let tm := ir_term [Some (2, mkPt 3 3); Some (4, mkPt 7 4)] in
  let gs := [ir_pg; mkTG 1 6 (mkPt 5 5) (mkPt 5 35) []] in
  complete_term tm /\ ir_pin true 2 9 gs ir_panel (fun _ => [tm]) ir_pg = Some (mkIE 7 7 [] [7] 0 (Some 4)).
Proof.
  cbv zeta. split; [|vm_compute; reflexivity]. split; [reflexivity|]. split; [repeat constructor|]. split; [reflexivity|]. intros o [<-|[<-|[]]]; discriminate.
Qed.
(* If the first pin of a terminal has no access point, the access points of its other pins are not used. *)
Theorem C137_other_pins_used_refuted : exists tm ap, tt_net tm = tg_net ir_pg /\ tt_acc tm = true /\ tt_pins tm = [true; true] /\ nth_error (tt_aps tm) 1 = Some (Some ap) /\
  fst ap = tg_layer ir_pg /\ box_contains_pt ir_panel (snd ap) true = true /\ forall gs, ir_pin true 2 9 gs ir_panel (fun _ => [tm]) ir_pg = None.
Proof. exists (ir_term [None; Some (4, mkPt 7 4)]), (4, mkPt 7 4). repeat split; try reflexivity. Qed.
Example c137_wants : ie_wlen2 (ir_generic true 2 9 [ir_pg] ir_panel (fun _ => [ir_term [Some (2, mkPt 3 60); Some (4, mkPt 7 4)]]) ir_pg) = Some 4 /\
  ie_wlen2 (ir_generic true 2 9 [ir_pg] ir_panel (fun _ => [ir_term [Some (4, mkPt 7 4)]]) ir_pg) = Some 4.
Proof. split; vm_compute; reflexivity. Qed.
