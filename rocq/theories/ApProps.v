(* Properties C121 to C125: the access points of a pin. *)
From Verif Require Import Base GeomModel GridModel ApModel ApSpec ApProofs ApProofs2 ApProofs3 ApProofs4 ApProofs5 ApProofs6.
From Coq Require Import Sorting.Sorted.

(* --- C121 ------------------------------------------------------------------------------------------ *)
Theorem C121_on_the_pin E aps : prep_pin E = Some aps -> forall a, In a aps ->
  e_routing E (ap_layer a) = true /\
  exists r, In r (e_rects E (ap_layer a)) /\ inside r (ap_pt a) /\
    e_minwidth E (ap_layer a) <= bright r - bleft r /\ e_minwidth E (ap_layer a) <= btop r - bbottom r.
Proof. intros P a I. destruct (prep_placed E aps P) as [A _]. destruct (A a I) as (_ & B & C). auto. Qed.

Theorem C121_each_once E aps : prep_pin E = Some aps -> forall i j a b,
  nth_error aps i = Some a -> nth_error aps j = Some b -> ap_pt a = ap_pt b -> ap_layer a = ap_layer b -> i = j.
Proof.
  intros P i j a b QI QJ EP EL. destruct (prep_placed E aps P) as [_ N].
  apply (proj1 (NoDup_nth_error (map key aps)) N i j).
  - rewrite map_length. apply nth_error_Some. congruence.
  - rewrite !nth_error_map, QI, QJ. cbn. unfold key. congruence.
Qed.

(* --- C122 ------------------------------------------------------------------------------------------ *)
Theorem C122_types_tell_the_tracks E aps : tracks_on_grid E -> 0 < quota E -> prep_pin E = Some aps -> forall a, In a aps ->
  exists l2, second E (ap_layer a) l2 /\
    (* along the wires of the layer: the tracks of the next layer *)
    (ap_high a = 0 <-> on_track E l2 (along E (ap_layer a) (ap_pt a))) /\
    (ap_high a = 1 <-> half_track E l2 (along E (ap_layer a) (ap_pt a))) /\
    (ap_high a = 0 \/ ap_high a = 1 \/ ap_high a = 2) /\
    (* across them: the tracks of the layer itself, for the pins of cells *)
    (e_kind E = StdPin ->
       (ap_low a = 0 <-> on_track E (ap_layer a) (across E (ap_layer a) (ap_pt a))) /\
       (ap_low a = 1 <-> half_track E (ap_layer a) (across E (ap_layer a) (ap_pt a)))) /\
    (* for other pins, 0 also stands for the centre line of a thin rectangle *)
    (ap_low a = 0 -> on_track E (ap_layer a) (across E (ap_layer a) (ap_pt a)) \/
       exists r, In r (e_rects E (ap_layer a)) /\ inside r (ap_pt a) /\ thin E r (ap_layer a) /\
         across E (ap_layer a) (ap_pt a) =
         if e_horz E (ap_layer a) then middle E (bbottom r) (btop r) else middle E (bleft r) (bright r)) /\
    (ap_low a = 1 -> half_track E (ap_layer a) (across E (ap_layer a) (ap_pt a))) /\
    (ap_low a = 2 -> exists r, In r (e_rects E (ap_layer a)) /\ inside r (ap_pt a) /\
       across E (ap_layer a) (ap_pt a) =
       if e_horz E (ap_layer a) then middle E (bbottom r) (btop r) else middle E (bleft r) (bright r)) /\
    (ap_low a = 3 -> exists r, In r (e_rects E (ap_layer a)) /\ inside r (ap_pt a) /\
       flush E r (ap_layer a) (e_horz E (ap_layer a)) (across E (ap_layer a) (ap_pt a))) /\
    0 <= ap_low a <= 3.
Proof.
  intros T Q P a I. destruct (recorded_cand E T aps a Q P I) as (r & C). pose proof (cand_range _ _ _ _ _ _ C) as CR.
  destruct C as (_ & _ & IR & _ & _ & I1 & I2 & _ & l2 & S & L & HR & H). exists l2. split; auto.
  set (l := ap_layer a) in *. set (p := ap_pt a) in *.
  assert (IN : inside r p) by (split; auto).
  pose proof (half_not_track E l2 (along E l p)) as N2. pose proof (half_not_track E l (across E l p)) as N1.
  destruct H as [_ H].
  split; [intuition (try lia; tauto)|]. split; [intuition (try lia; tauto)|]. split; [lia|].
  split.
  { intros K. destruct L as [([K' _] & _)|(_ & _ & L)]; [contradiction|]. intuition (try lia; tauto). }
  split.
  { intros Z. destruct L as [(TH & _ & M)|(_ & _ & L)]; [right; exists r; auto|]. left. intuition lia. }
  split.
  { intros Z. destruct L as [(_ & Z' & _)|(_ & _ & L)]; [lia|]. intuition lia. }
  split.
  { intros Z. exists r. split; auto. split; auto. destruct L as [(_ & Z' & _)|(_ & _ & L)]; [lia|].
    destruct L as [(X & _)|[(X & _)|[(_ & _ & _ & X & _)|(X & _)]]]; try lia. destruct (e_horz E l); auto. }
  split; [|lia].
  intros Z. exists r. split; auto. split; auto. destruct L as [(_ & Z' & _)|(_ & _ & L)]; [lia|].
  destruct L as [(X & _)|[(X & _)|[(X & _)|(_ & _ & _ & _ & X)]]]; try lia. exact X.
Qed.

(* --- C123 ------------------------------------------------------------------------------------------ *)
Definition vias_have_width (E : aenv) : Prop :=
  forall l v, In v (firstn 2 (e_vias E (l + 1))) -> bleft (v_box1 v) < bright (v_box1 v).

Theorem C123_best_first E aps : tracks_on_grid E -> 0 < quota E -> prep_pin E = Some aps ->
  (forall i j a b, (i < j)%nat -> nth_error aps i = Some a -> nth_error aps j = Some b -> ap_cost a <= ap_cost b) /\
  (forall a, In a aps -> cheaper (ap_cost a) aps < quota E).
Proof.
  intros T Q P. split; [|apply (recorded_few E T aps Q P)].
  pose proof (recorded_sorted E T aps Q P) as S. clear P. induction S as [|x aps S IH F]; intros i j a b L A B; [destruct i; discriminate|].
  destruct j; [lia|]. cbn [nth_error] in B. destruct i.
  - cbn [nth_error] in A. injection A as ->. rewrite Forall_forall in F. apply F. eapply nth_error_In; eauto.
  - apply (IH i j a b); auto. lia.
Qed.

Theorem C123_none_missed E aps : tracks_on_grid E -> vias_have_width E -> 0 < quota E -> prep_pin E = Some aps ->
  forall l r p low high, candidate E l r p low high -> worth E l p low high ->
  (exists a, In a aps /\ ap_pt a = p /\ ap_layer a = l /\ ap_low a <= low /\ ap_high a = high) \/
  quota E <= cheaper (low + 4 * high) aps.
Proof. intros T VA Q P l r p low high C W. eapply recorded_all; eauto. Qed.

(* in particular no legal crossing of two tracks is missed, however many access points there are *)
Theorem C123_crossings_never_missed E aps : tracks_on_grid E -> vias_have_width E -> 0 < quota E -> prep_pin E = Some aps ->
  forall l l2 r p, 0 <= l < e_nlayers E -> e_routing E l = true -> second E l l2 -> In r (e_rects E l) -> inside r p -> ~ thin E r l ->
  e_minwidth E l <= bright r - bleft r -> e_minwidth E l <= btop r - bbottom r ->
  on_track E l (across E l p) -> on_track E l2 (along E l p) -> worth E l p 0 0 ->
  exists a, In a aps /\ ap_pt a = p /\ ap_layer a = l /\ ap_low a = 0 /\ ap_high a = 0.
Proof.
  intros T VA Q P l l2 r p LR RT S IR [I1 I2] NT W1 W2 T1 T2 W.
  assert (C : candidate E l r p 0 0).
  { do 7 (split; auto). split; auto. exists l2. split; auto. split.
    - right. split; auto. split; [unfold across; destruct (e_horz E l); lia|]. left; auto.
    - split; [lia|]. split; [unfold along; destruct (e_horz E l); lia|]. left; auto. }
  destruct (C123_none_missed E aps T VA Q P l r p 0 0 C W) as [(a & I & A1 & A2 & A3 & A4)|X].
  - exists a. do 3 (split; auto). split; auto. destruct (recorded_cand E T aps a Q P I) as (r' & C').
    apply cand_range in C'. lia.
  - exfalso. enough (cheaper (0 + 4 * 0) aps = 0) by lia. unfold cheaper. rewrite filter_none; auto.
    intros a I. destruct (recorded_cand E T aps a Q P I) as (r' & C'). apply cand_range in C'. unfold ap_cost. lia.
Qed.

(* --- C124 ------------------------------------------------------------------------------------------ *)
Theorem C124_exactly_the_legal_accesses E aps : tracks_on_grid E -> vias_have_width E -> 0 < quota E -> prep_pin E = Some aps ->
  forall a, In a aps ->
  (ap_w a = true <-> legal_planar E (ap_layer a) (ap_pt a) (ap_low a) DW) /\
  (ap_e a = true <-> legal_planar E (ap_layer a) (ap_pt a) (ap_low a) DE) /\
  (ap_s a = true <-> legal_planar E (ap_layer a) (ap_pt a) (ap_low a) DS) /\
  (ap_n a = true <-> legal_planar E (ap_layer a) (ap_pt a) (ap_low a) DN) /\
  (forall v, In v (ap_vias a) <-> legal_via E (ap_layer a) (ap_pt a) (ap_low a) (ap_high a) v) /\
  (ap_u a = true <-> ap_vias a <> []) /\
  worth E (ap_layer a) (ap_pt a) (ap_low a) (ap_high a).
Proof.
  intros T VA Q P a I. destruct (recorded E T VA aps Q P a I) as (EQ & _ & W).
  destruct (checked_planar E (ap_layer a) (ap_pt a) (ap_low a) (ap_high a)) as (A & B & C & D).
  destruct (checked_vias E VA (ap_layer a) (ap_pt a) (ap_low a) (ap_high a)) as (F & _ & G).
  rewrite <- EQ in *. tauto.
Qed.

(* vias are listed by how far they reach beyond the pin (left and right only, near the sides of the cell
   where the via need not be inside the pin) *)
Theorem C124_vias_by_overhang E aps : tracks_on_grid E -> vias_have_width E -> 0 < quota E -> prep_pin E = Some aps ->
  forall a, In a aps -> forall i j v w lr h k, (i < j)%nat ->
  nth_error (ap_vias a) i = Some v -> nth_error (ap_vias a) j = Some w ->
  (lr = true <-> near_side E (ap_layer a) (ap_pt a) /\ ~ needs_in_pin E (ap_layer a) (ap_low a) (ap_high a)) ->
  overhang E (ap_layer a) (at_pt (v_box1 v) (ap_pt a)) lr h ->
  overhang E (ap_layer a) (at_pt (v_box1 w) (ap_pt a)) lr k -> h <= k.
Proof.
  intros T VA Q P a I i j v w lr h k L V W LR H K. destruct (recorded E T VA aps Q P a I) as (EQ & _).
  destruct (checked_vias E VA (ap_layer a) (ap_pt a) (ap_low a) (ap_high a)) as (_ & F & _).
  rewrite <- EQ in F.
  assert (X : lr = lr_bound E (ap_layer a) (ap_pt a) && negb (via_in_pin E (ap_layer a) (ap_low a) (ap_high a))).
  { pose proof (lr_iff E (ap_layer a) (ap_pt a)) as A. pose proof (inpin_iff E VA (ap_layer a) (ap_low a) (ap_high a)) as B.
    destruct (lr_bound _ _ _), (via_in_pin _ _ _ _), lr; cbn; intuition discriminate. }
  subst lr. eapply F; eauto.
Qed.

(* --- C125 ------------------------------------------------------------------------------------------ *)
(* missing: pins with several rectangles under the via *)
Theorem C125_inside_the_pin_partial E aps : tracks_on_grid E -> vias_have_width E -> 0 < quota E -> prep_pin E = Some aps ->
  forall a v, In a aps -> In v (ap_vias a) -> needs_in_pin E (ap_layer a) (ap_low a) (ap_high a) ->
  (forall r r', overlapping E (ap_layer a) (at_pt (v_box1 v) (ap_pt a)) r -> overlapping E (ap_layer a) (at_pt (v_box1 v) (ap_pt a)) r' -> r = r') ->
  exists r, In r (e_rects E (ap_layer a)) /\ box_in (at_pt (v_box1 v) (ap_pt a)) r.
Proof.
  intros T VA Q P a v I IV NP U. destruct (C124_exactly_the_legal_accesses E aps T VA Q P a I) as (_ & _ & _ & _ & V & _).
  apply V in IV. destruct IV as (_ & _ & _ & O & _). destruct (O NP) as (gl & gr & gb & gt & [(r & OR & GL) _] & [(r2 & O2 & GR) _] & [(r3 & O3 & GB) _] & [(r4 & O4 & GT) _] & Z).
  rewrite (U _ _ O2 OR) in GR. rewrite (U _ _ O3 OR) in GB. rewrite (U _ _ O4 OR) in GT.
  exists r. split; [apply OR|]. unfold box_in. lia.
Qed.

(* --- examples ---------------------------------------------------------------------------------------- *)
(* layers 2 (horizontal), 4 (vertical), 6 (horizontal); tracks every 100 from 50 *)
Definition bx4 a b c d := mkBox (mkPt a b) (mkPt c d).
Definition via1 : viadef := mkVia (bx4 (-30) (-20) 30 20) (bx4 (-20) (-20) 20 20).
Definition via2 : viadef := mkVia (bx4 (-20) (-30) 20 30) (bx4 (-20) (-20) 20 20).
Definition exE (k : kind) (inpin : Z) (rects : Z -> list box) : aenv :=
  mkAE 2 6 7 (fun l => (l =? 2) || (l =? 4) || (l =? 6)) (fun l => negb (l =? 4)) (fun _ => 40) (fun _ => 40)
       (fun _ => false) (fun _ => false) 5
       [mkTrack 2 false 50 20 100; mkTrack 4 true 50 20 100; mkTrack 6 false 50 20 100]
       (fun l => if (l =? 3) || (l =? 5) then [via1; via2] else [])
       2 inpin inpin 3 3 k (bx4 0 0 1000 1000) rects (fun _ _ _ => true) (fun _ _ _ => true).
(* a pin of a cell with two tracks in it *)
Definition pin1 (l : Z) : list box := if l =? 2 then [bx4 200 230 300 480] else [].
Definition E1 := exE StdPin 99 pin1.

Lemma E1_tracks k i rc l c : on_track (exE k i rc) l c -> exists n, c = n * 5.
Proof.
  intros (t & n & I & _ & _ & _ & ->). cbn [e_tracks exE In] in I.
  destruct I as [<- |[<- |[<- |[]]]]; cbn [tp_start tp_space]; exists (10 + n * 20); lia.
Qed.
Lemma ex_on_grid k i rc : tracks_on_grid (exE k i rc).
Proof. split; [cbn; lia|]. intros l c H. cbn [e_manu exE]. exact (E1_tracks k i rc l c H). Qed.
Lemma ex_width k i rc : vias_have_width (exE k i rc).
Proof.
  intros l v. cbn [e_vias exE]. destruct (_ || _); cbn [firstn In]; [|tauto].
  intros [<- |[<- |[]]]; vm_compute; reflexivity.
Qed.

(* three crossings of tracks; three access points are wanted *)
Definition pts (o : option (list ap)) : list (Z * Z * Z * Z * Z * nat) :=
  match o with Some l => map (fun a => (px (ap_pt a), py (ap_pt a), ap_layer a, ap_low a, ap_high a, length (ap_vias a))) l | None => [] end.
Example C121_example : pts (prep_pin E1) =
  [(250, 250, 2, 0, 0, 2%nat); (250, 350, 2, 0, 0, 2%nat); (250, 450, 2, 0, 0, 2%nat)].
Proof. vm_compute. reflexivity. Qed.
Definition pin2 (l : Z) : list box := if l =? 2 then [bx4 200 230 300 360] else [].
Definition E2 := exE StdPin 99 pin2.
Example C122_example : pts (prep_pin E2) =
  [(250, 250, 2, 0, 0, 2%nat); (250, 350, 2, 0, 0, 2%nat); (250, 300, 2, 1, 0, 2%nat)].
Proof. vm_compute. reflexivity. Qed.
Example C123_example : tracks_on_grid E2 /\ vias_have_width E2 /\ 0 < quota E2 /\
  candidate E2 2 (bx4 200 230 300 360) (mkPt 250 300) 1 0 /\ worth E2 2 (mkPt 250 300) 1 0.
Proof.
  split; [apply ex_on_grid|]. split; [apply ex_width|]. split; [cbn; lia|].
  assert (HT : half_track E2 2 300).
  { exists 250, 350.
    assert (TR : forall x, on_track E2 2 x <-> exists n, 0 <= n < 20 /\ x = 50 + n * 100).
    { intros x. split.
      - intros (t & n & I & L & _ & R & ->). cbn [e_tracks E2 exE In] in I. destruct I as [<- |[<- |[<- |[]]]]; cbn [tp_layer tp_num tp_start tp_space] in *; try discriminate. exists n. auto.
      - intros (n & R & ->). exists (mkTrack 2 false 50 20 100), n. cbn [e_tracks E2 exE In tp_layer tp_vert tp_num tp_start tp_space]. split; auto. }
    split; [apply TR; exists 2; lia|]. split; [apply TR; exists 3; lia|]. split; [lia|].
    split; [intros x X; apply TR in X; destruct X as (n & R & ->); lia|]. split; [reflexivity|lia]. }
  split.
  - split; [cbn; lia|]. split; [reflexivity|]. split; [left; reflexivity|]. split; [cbn; lia|]. split; [cbn; lia|]. split; [cbn; lia|]. split; [cbn; lia|].
    split; [intros; reflexivity|]. exists 4. split; [left; cbn; lia|]. split; [|split; [lia|]].
    + right. split; [intros [N _]; apply N; reflexivity|]. split; [cbn; lia|]. right. left. split; auto. split; auto. apply half_not_track. exact HT.
    + split; [cbn; lia|]. left. split; auto. exists (mkTrack 4 true 50 20 100), 2. cbn. split; auto. repeat split; lia.
  - left. exists via1. split; [left; reflexivity|]. split; [discriminate|]. split; [left; reflexivity|].
    split; [intros [X|[X|X]]; cbn in X; lia|]. split; [vm_compute; intuition discriminate|]. split; [vm_compute; intuition discriminate|]. reflexivity.
Qed.
Example C124_example : match prep_pin E2 with Some (a :: _) => ap_u a = true /\ ap_w a = false /\ length (ap_vias a) = 2%nat | _ => False end.
Proof. vm_compute. auto. Qed.
(* a pin whose vias must be inside it: at the first crossing only one of the two vias fits *)
Example C125_example : pts (prep_pin (exE StdPin 2 pin2)) =
  [(250, 250, 2, 0, 0, 1%nat); (250, 300, 2, 1, 0, 2%nat);
   (250, 260, 2, 3, 0, 2%nat); (250, 330, 2, 3, 0, 2%nat); (250, 340, 2, 3, 0, 1%nat)].
Proof. vm_compute. reflexivity. Qed.

(* --- refutations --------------------------------------------------------------------------------------- *)
(* "type 0 means on a track" fails for thin pins of macros: their centre line is recorded with type 0 *)
Definition thinpin (l : Z) : list box := if l =? 6 then [bx4 100 205 600 255] else [].
Theorem C122_macro_refuted : exists E aps a, tracks_on_grid E /\ vias_have_width E /\ 0 < quota E /\
  prep_pin E = Some aps /\ In a aps /\ ap_low a = 0 /\ ~ on_track E (ap_layer a) (across E (ap_layer a) (ap_pt a)).
Proof.
  exists (exE MacroPin 99 thinpin). do 2 eexists.
  split; [apply ex_on_grid|]. split; [apply ex_width|]. split; [cbn; lia|].
  split; [vm_compute; reflexivity|]. split; [left; reflexivity|]. split; [reflexivity|].
  intros (t & n & I & L & _ & R & Q).
  match type of Q with ?c = _ => let c' := eval vm_compute in c in change c with c' in Q end.
  match type of L with _ = ?c => let c' := eval vm_compute in c in change c with c' in L end.
  cbn [e_tracks exE In] in I.
  destruct I as [<- |[<- |[<- |[]]]]; cbn [tp_layer tp_num tp_start tp_space] in *; lia.
Qed.

(* "a via that must be inside the pin is inside the pin" fails for an L-shaped pin *)
Definition lpin (l : Z) : list box := if l =? 2 then [bx4 200 230 300 260; bx4 200 230 260 480] else [].
Theorem C125_corner_refuted : exists E aps a v x y, tracks_on_grid E /\ vias_have_width E /\ 0 < quota E /\
  prep_pin E = Some aps /\ In a aps /\ In v (ap_vias a) /\ needs_in_pin E (ap_layer a) (ap_low a) (ap_high a) /\
  inside (at_pt (v_box1 v) (ap_pt a)) (mkPt x y) /\ forall r, In r (e_rects E (ap_layer a)) -> ~ inside r (mkPt x y).
Proof.
  exists (exE StdPin 2 lpin). do 2 eexists. exists via1, 270, 265.
  split; [apply ex_on_grid|]. split; [apply ex_width|]. split; [cbn; lia|].
  split; [vm_compute; reflexivity|]. split; [left; reflexivity|]. split; [left; reflexivity|].
  split; [left; cbn; lia|]. split; [vm_compute; intuition discriminate|].
  intros r [<- |[<- |[]]]; vm_compute; intuition congruence.
Qed.

Print Assumptions C121_on_the_pin.
Print Assumptions C121_each_once.
Print Assumptions C122_types_tell_the_tracks.
Print Assumptions C122_macro_refuted.
Print Assumptions C123_best_first.
Print Assumptions C123_none_missed.
Print Assumptions C123_crossings_never_missed.
Print Assumptions C124_exactly_the_legal_accesses.
Print Assumptions C124_vias_by_overhang.
Print Assumptions C125_inside_the_pin_partial.
Print Assumptions C125_corner_refuted.
