(* Rerouting a clip keeps a net connected: loading, sub-nets, boundary pins, routing, write-back. *)
From Coq Require Import Permutation.
From Verif Require Import Base GeomModel GeomSpec ClipModel ClipSpec ClipProofs3 ClipProofs6 ClipProofs7 KeepModel KeepSpec KeepProofs2 KeepProofs3 KeepProofs4.
From Verif Require ConnModel ConnSpec SubnetModel SubnetSpec SubnetProofs3.

Lemma linked_start pins_at objs a c : ConnSpec.linked pins_at objs (fun _ => True) a c -> a = c \/ exists k, ConnSpec.item_at pins_at objs a k.
Proof. intros H. induction H as [|u v k H IH M _]; [now left|]. right. destruct IH as [->|X]; [|exact X]. exists k. apply M. Qed.

(* Pins linked before through objects that meet at ends are joined afterwards, if the routing of each sub-net
   connects the sub-net's boundary pins and pins. *)
Theorem C131_clip_keeps_connection b lw pins_at pin_at manuGrid swap found d n :
  solid b -> (forall f, meets b f -> found f = true) ->
  Forall fig_proper (figs_of n d) -> ConnSpec.no_overlap (robjs (figs_of n d)) ->
  exists n0, forall pick fuel, (n0 <= fuel)%nat ->
  exists subs, clip_subnets b lw pins_at pick fuel (figs_of n d) = Some subs /\
  forall wsubs R, modified wsubs n -> best_of n wsubs = concat R -> Forall fig_straight (best_of n wsubs) ->
  Forall2 (routes b pins_at) subs R ->
  forall i j, ConnSpec.linked pins_at (robjs (figs_of n d)) (fun _ => True) (ConnSpec.Pin i) (ConnSpec.Pin j) ->
  ConnSpec.joined pins_at (robjs (figs_of n (write_back false b lw pin_at manuGrid swap found wsubs d))) (ConnSpec.Term i) (ConnSpec.Term j).
Proof.
  intros S Fo P NO. set (F := figs_of n d) in *.
  pose proof (dobjs_wires_ok b lw S F P NO) as OK. eexists. intros pick fuel Hf.
  destruct (SubnetProofs3.initNets_spec (dobjs b lw F) (map to_d (clip_exts b lw F)) OK pins_at b pick fuel Hf) as (subs & groups & E & G0 & G1 & G2 & G3 & _ & G4 & G5).
  exists subs. split; [exact E|]. intros wsubs R M B St Rt i j L.
  destruct (linked_start pins_at (robjs F) _ _ L) as [Q|(k0 & Hk0 & _)]; [injection Q as <-; apply ConnSpec.joined_refl; exact I|].
  assert (Mn : mod_net wsubs n = true) by (destruct M as (s & Hs & E1 & E2); unfold mod_net; apply existsb_exists; exists s; split; [exact Hs|]; rewrite E2; cbn; apply Z.eqb_eq; exact E1).
  rewrite figs_wback, Mn. fold F.
  set (N := flat_map (kept_of false b lw found) F ++ best_of n wsubs).
  assert (SN : Forall fig_straight N) by (apply Forall_app; split; [apply kept_straight; assumption|exact St]).
  destruct (merge_net_ok pin_at manuGrid swap n (bound_pts false b lw found wsubs d n) N SN) as (SM & LM & VM).
  assert (NP : forall s sub k k', nth_error subs s = Some sub -> sub_place b pins_at sub k -> sub_place b pins_at sub k' -> conducts pins_at (robjs N) k k').
  { intros s sub k k' Es A A'.
    assert (X : exists r, In r R /\ routes b pins_at sub r).
    { clear - Rt Es. revert s Es. induction Rt as [|x y l l' Q _ IH]; intros [|s] Es; cbn in Es; try discriminate Es.
      - injection Es as ->. exists y. split; [now left|exact Q].
      - destruct (IH s Es) as (r & Hr & Q'). exists r. split; [now right|exact Q']. }
    destruct X as (r & Hr & Q). apply (cd_mono pins_at (robjs r)); [|apply Q; assumption].
    intros o Ho. apply robjs_in in Ho as [(w & Hw & ->)|(p & l1 & l2 & dd & Hv & ->)]; apply robjs_in; [left; exists w|right; exists p, l1, l2, dd];
      (split; [|reflexivity]); unfold N; rewrite B; apply in_or_app; right; apply in_concat; eauto. }
  destruct (keep_linked b lw S pins_at F P NO subs groups G0 G1) with (N := N) (x := ConnSpec.Pin i) (y := ConnSpec.Pin j) (kx := k0) as (k1 & R1 & C); try assumption.
  - intros s g sub Hg Hs dd Hd Nd. destruct (G2 s g sub Hg Hs) as (_ & fin & fout & _ & Ex & _ & Fo2). rewrite Ex. apply in_or_app. right. apply filter_In. split; [exact Hd|]. apply Fo2, Nd.
  - intros f g Hg H. unfold N. apply in_or_app. left. apply kept_in; try assumption. exists g. auto.
  - apply (cd_joined pins_at _ i j k0 k1 Hk0 R1). apply (cd_lines pins_at N); try assumption; [intros l x y; apply LM|].
    intros f NW Hf'. assert (X : In f (filter not_wire N)) by (apply filter_In; auto). rewrite <- VM in X. apply filter_In in X. tauto.
Qed.
Print Assumptions C131_clip_keeps_connection.

(* a wire through the clip between two pins, with a branch down to a via in the clip and on to a third pin;
   the clip finds another way *)
Definition k_st : sstyle := mkSt StTruncate 0 StTruncate 0 10.
Definition k_seg (l x y x' y' : Z) : fig := FSeg (mkW l (mkPt x y) (mkPt x' y') k_st).
Definition k_box : box := mkBox (mkPt 20 (-20)) (mkPt 80 20).
Definition k_pins (p : point) (l : Z) : list Z :=
  if l =? 2 then (if (px p =? 0) && (py p =? 0) then [1] else if (px p =? 100) && (py p =? 0) then [2] else [])
  else if (px p =? 50) && (py p =? 60) then [3] else [].
Definition k_db : db := [(7, k_seg 2 0 0 50 0); (7, k_seg 2 50 0 100 0); (7, FVia (mkPt 50 0) 2 4 0); (7, k_seg 4 50 0 50 60)].
Definition k_new : list fig := [k_seg 2 20 0 30 0; k_seg 2 30 0 30 10; k_seg 2 30 10 70 10; k_seg 2 70 0 70 10; k_seg 2 70 0 80 0; FVia (mkPt 50 10) 2 4 0; k_seg 4 50 10 50 20].
Example C131_nonvacuous :
  solid k_box /\ Forall fig_proper (figs_of 7 k_db) /\ ConnSpec.no_overlap (robjs (figs_of 7 k_db)) /\
  ConnSpec.linked k_pins (robjs (figs_of 7 k_db)) (fun _ => True) (ConnSpec.Pin 1) (ConnSpec.Pin 3) /\
  (exists subs, clip_subnets k_box (fun _ => 10) k_pins (fun _ _ => 0%nat) 100 (figs_of 7 k_db) = Some subs /\ Forall2 (routes k_box k_pins) subs [k_new]) /\
  modified [mkSub 7 true k_new] 7 /\ best_of 7 [mkSub 7 true k_new] = concat [k_new] /\ Forall fig_straight k_new.
Proof.
  split; [split; cbn; lia|]. split; [repeat constructor; cbn; unfold proper; cbn; lia|]. split.
  { intros i j a c Nij Hi Hj. destruct i as [|[|[|[|i]]]]; cbn in Hi; try discriminate Hi; try (destruct i; discriminate Hi); injection Hi as <-;
      destruct j as [|[|[|[|j]]]]; cbn in Hj; try discriminate Hj; try (destruct j; discriminate Hj); try congruence; injection Hj as <-; cbn; lia. }
  split.
  { assert (E : forall k o, In o (robjs (figs_of 7 k_db)) -> ConnSpec.is_end o k -> exists o, In o (robjs (figs_of 7 k_db)) /\ ConnSpec.is_end o k) by eauto.
    eapply ConnSpec.linked_step with (k := (mkPt 50 60, 4)); [|split; [|split]|exact I].
    - eapply ConnSpec.linked_step with (c := ConnSpec.Wire 3) (k := (mkPt 50 0, 4)); [|split; [|split]|exact I].
      + eapply ConnSpec.linked_step with (c := ConnSpec.Wire 2) (k := (mkPt 50 0, 2)); [|split; [|split]|exact I].
        * eapply ConnSpec.linked_step with (c := ConnSpec.Wire 0) (k := (mkPt 0 0, 2)); [apply ConnSpec.linked_refl; exact I|split; [|split]|exact I].
          -- eapply E; [left; reflexivity|]. left. reflexivity.
          -- split; [left; reflexivity|]. left. eexists. split; [left; reflexivity|]. left. split; reflexivity.
          -- eexists. split; [reflexivity|]. cbn. lia.
        * eapply E; [left; reflexivity|]. right. reflexivity.
        * eexists. split; [reflexivity|]. cbn. lia.
        * eexists. split; [reflexivity|]. left. reflexivity.
      + eapply E; [right; right; left; reflexivity|]. right. reflexivity.
      + eexists. split; [reflexivity|]. right. reflexivity.
      + eexists. split; [reflexivity|]. cbn. lia.
    - eapply E; [right; right; right; left; reflexivity|]. right. reflexivity.
    - eexists. split; [reflexivity|]. cbn. lia.
    - split; [left; reflexivity|]. left. eexists. split; [right; right; right; left; reflexivity|]. right. split; reflexivity. }
  split; [|split; [exists (mkSub 7 true k_new); cbn; auto|split; [reflexivity|]; repeat constructor; cbn; unfold straight; cbn; lia]].
  eexists. split; [vm_compute; reflexivity|]. constructor; [|constructor].
  intros k k' H H'.
  match goal with H : sub_place _ _ ?s k |- _ => assert (P : forall k, sub_place k_box k_pins s k -> conducts k_pins (robjs k_new) (mkPt 20 0, 2) k) end.
  { clear. intros k [H|(id & [] & _)].
    assert (C1 : conducts k_pins (robjs k_new) (mkPt 20 0, 2) (mkPt 30 10, 2)).
    { eapply cd_obj with (k1 := (mkPt 30 0, 2)) (o := nth 1 (robjs k_new) (ConnModel.RVia (mkPt 0 0) 0 0)); [|cbn; auto|cbn; lia|cbn; lia].
      eapply cd_obj with (k1 := (mkPt 20 0, 2)) (o := nth 0 (robjs k_new) (ConnModel.RVia (mkPt 0 0) 0 0)); [apply cd_refl|cbn; auto|cbn; lia|cbn; lia]. }
    assert (C2 : conducts k_pins (robjs k_new) (mkPt 20 0, 2) (mkPt 50 20, 4)).
    { eapply cd_obj with (k1 := (mkPt 50 10, 4)) (o := nth 6 (robjs k_new) (ConnModel.RVia (mkPt 0 0) 0 0)); [|cbn; tauto|cbn; lia|cbn; lia].
      eapply cd_obj with (k1 := (mkPt 50 10, 2)) (o := nth 5 (robjs k_new) (ConnModel.RVia (mkPt 0 0) 0 0)); [|cbn; tauto|cbn; auto|cbn; auto].
      eapply cd_obj with (o := nth 2 (robjs k_new) (ConnModel.RVia (mkPt 0 0) 0 0)); [exact C1|cbn; auto|cbn; lia|cbn; lia]. }
    assert (C3 : conducts k_pins (robjs k_new) (mkPt 20 0, 2) (mkPt 80 0, 2)).
    { eapply cd_obj with (k1 := (mkPt 70 0, 2)) (o := nth 4 (robjs k_new) (ConnModel.RVia (mkPt 0 0) 0 0)); [|cbn; tauto|cbn; lia|cbn; lia].
      eapply cd_obj with (k1 := (mkPt 70 10, 2)) (o := nth 3 (robjs k_new) (ConnModel.RVia (mkPt 0 0) 0 0)); [|cbn; tauto|cbn; lia|cbn; lia].
      eapply cd_obj with (o := nth 2 (robjs k_new) (ConnModel.RVia (mkPt 0 0) 0 0)); [exact C1|cbn; auto|cbn; lia|cbn; lia]. }
    vm_compute in H. repeat (destruct H as [H|H]); try contradiction H; subst k; first [apply cd_refl | exact C2 | exact C3]. }
  eapply cd_trans; [apply cd_sym, P, H|apply P, H'].
Qed.

(* Only ends count: two wires of the net that cross away from their ends are separate sub-nets.  A connection that
   exists only through such a crossing can be lost although every sub-net is routed. *)
Definition x_pins (p : point) (l : Z) : list Z :=
  if (px p =? 0) && (py p =? 0) then [1] else if (px p =? 50) && (py p =? 100) then [2] else [].
Definition x_db : db := [(7, k_seg 2 0 0 100 0); (7, k_seg 2 50 (-10) 50 100)].
Theorem C131_crossing_refuted : exists b lw pins_at pin_at manuGrid swap found d n subs wsubs R i j,
  solid b /\ (forall f, meets b f -> found f = true) /\
  Forall fig_proper (figs_of n d) /\ ConnSpec.no_overlap (robjs (figs_of n d)) /\
  clip_subnets b lw pins_at (fun _ _ => 0%nat) 100 (figs_of n d) = Some subs /\
  modified wsubs n /\ best_of n wsubs = concat R /\ Forall fig_straight (best_of n wsubs) /\ Forall2 (routes b pins_at) subs R /\
  ConnSpec.joined pins_at (robjs (figs_of n d)) (ConnSpec.Term i) (ConnSpec.Term j) /\
  ~ ConnSpec.joined pins_at (robjs (figs_of n (write_back false b lw pin_at manuGrid swap found wsubs d))) (ConnSpec.Term i) (ConnSpec.Term j).
Proof.
  exists k_box, (fun _ => 10), x_pins, (fun _ _ _ => false), 5, (fun _ _ => false), (fun _ => true), x_db, 7. eexists.
  exists [mkSub 7 true [k_seg 2 20 0 80 0]; mkSub 7 true []], [[k_seg 2 20 0 80 0]; []], 1, 2.
  split; [split; cbn; lia|]. split; [reflexivity|]. split; [repeat constructor; cbn; unfold proper; cbn; lia|]. split.
  { intros i j a c Nij Hi Hj. destruct i as [|[|i]]; cbn in Hi; try discriminate Hi; try (destruct i; discriminate Hi); injection Hi as <-;
      destruct j as [|[|j]]; cbn in Hj; try discriminate Hj; try (destruct j; discriminate Hj); try congruence; injection Hj as <-; cbn; lia. }
  split; [vm_compute; reflexivity|]. split; [eexists; split; [left; reflexivity|auto]|]. split; [reflexivity|]. split; [repeat constructor; cbn; unfold straight; cbn; lia|].
  split.
  { constructor; [|constructor; [|constructor]].
    - intros k k' [H|(id1 & [] & _)] [H'|(id2 & [] & _)]. apply cd_one with (o := nth 0 (robjs [k_seg 2 20 0 80 0]) (ConnModel.RVia (mkPt 0 0) 0 0)); [cbn; auto| |];
        [vm_compute in H; clear H'|vm_compute in H'; clear H; rename H' into H]; repeat (destruct H as [H|H]); try contradiction H; subst; cbn; lia.
    - intros k k' [H|(id1 & [] & _)] [H'|(id2 & [] & _)]. vm_compute in H, H'. repeat (destruct H as [H|H]); try contradiction H; repeat (destruct H' as [H'|H']); try contradiction H'; subst; apply cd_refl. }
  split.
  { eapply ConnSpec.joined_step with (k := (mkPt 50 100, 2)); [|shelve|cbn; auto|exact I].
    eapply ConnSpec.joined_step with (c := ConnSpec.Obj (nth 1 (robjs (figs_of 7 x_db)) (ConnModel.RVia (mkPt 0 0) 0 0))) (k := (mkPt 50 0, 2)); [|shelve|cbn; lia|cbn; auto].
    eapply ConnSpec.joined_step with (c := ConnSpec.Obj (nth 0 (robjs (figs_of 7 x_db)) (ConnModel.RVia (mkPt 0 0) 0 0))) (k := (mkPt 0 0, 2)); [apply ConnSpec.joined_refl; exact I|cbn; auto|cbn; lia|cbn; auto].
    Unshelve. cbn; lia. cbn; lia. }
  match goal with |- ~ ConnSpec.joined _ (robjs ?l) _ _ => set (L := l) end. vm_compute in L.
  assert (G : forall t, ConnSpec.joined x_pins (robjs L) (ConnSpec.Term 1) t ->
    t = ConnSpec.Term 1 \/ exists o, t = ConnSpec.Obj o /\ forall k, ConnSpec.lies_on o k -> py (fst k) = 0).
  { intros t H. induction H as [|u v k H IH A B Pv]; [now left|].
    assert (Y : py (fst k) = 0).
    { destruct IH as [->|(o & -> & Ho)]; [|apply Ho, A]. cbn in A. unfold x_pins in A. destruct ((px (fst k) =? 0) && (py (fst k) =? 0)) eqn:E; [lia|].
      destruct ((px (fst k) =? 50) && (py (fst k) =? 100)); cbn in A; [destruct A as [A|[]]; discriminate A|destruct A]. }
    destruct v as [o|id].
    - right. exists o. split; [reflexivity|]. cbn in Pv, B. repeat (destruct Pv as [Pv|Pv]); try contradiction Pv; subst o; cbn in B |- *; intros k2 B2; lia.
    - left. cbn in B. unfold x_pins in B. destruct ((px (fst k) =? 0) && (py (fst k) =? 0)); cbn in B; [destruct B as [<-|[]]; reflexivity|].
      destruct ((px (fst k) =? 50) && (py (fst k) =? 100)) eqn:E; [lia|destruct B]. }
  intros H. destruct (G _ H) as [Q|(o & Q & _)]; discriminate Q.
Qed.
Print Assumptions C131_crossing_refuted.

(* The same without assuming that the sub-nets are connected: their routing is what the router returned (C22). *)
Theorem C131_routed_clip_keeps_connection b lw vd pins_at pin_at manuGrid swap found d n :
  solid b -> (forall f, meets b f -> found f = true) ->
  Forall fig_proper (figs_of n d) -> ConnSpec.no_overlap (robjs (figs_of n d)) ->
  exists n0, forall pick fuel, (n0 <= fuel)%nat ->
  exists subs, clip_subnets b lw pins_at pick fuel (figs_of n d) = Some subs /\
  forall wsubs R, modified wsubs n -> best_of n wsubs = concat R ->
  Forall2 (routed b lw vd pins_at) subs R ->
  forall i j, ConnSpec.linked pins_at (robjs (figs_of n d)) (fun _ => True) (ConnSpec.Pin i) (ConnSpec.Pin j) ->
  ConnSpec.joined pins_at (robjs (figs_of n (write_back false b lw pin_at manuGrid swap found wsubs d))) (ConnSpec.Term i) (ConnSpec.Term j).
Proof.
  intros S Fo P NO. destruct (C131_clip_keeps_connection b lw pins_at pin_at manuGrid swap found d n S Fo P NO) as (n0 & H).
  exists n0. intros pick fuel Hf. destruct (H pick fuel Hf) as (subs & E & K). exists subs. split; [exact E|].
  intros wsubs R M B Rt. apply (K wsubs R M B).
  - rewrite B. clear - Rt. induction Rt as [|s r subs R Hr _ IH]; cbn; [constructor|]. apply Forall_app. split; [apply (routed_routes b lw vd pins_at s r Hr)|exact IH].
  - clear - Rt. induction Rt as [|s r subs R Hr _ IH]; constructor; [apply (routed_routes b lw vd pins_at s r Hr)|exact IH].
Qed.
Print Assumptions C131_routed_clip_keeps_connection.

(* the router on a small grid routes the sub-net of k_db *)
Import GridModel NetModel.
Definition k_g0 : gg := mkGG [20; 30; 50; 80] [-20; 0; 20] [2; 4] [true; false] (fun _ => 0) (fun _ => false)
  (fun _ => false) (fun _ => false) (fun _ => false).
Definition k_ops : list gop := map (fun e : Z * Z * Z * dir => let '(x, y, z, t) := e in AddEdge (mkMI x y z) t k_box false)
  [(0, 1, 0, DE); (1, 1, 0, DE); (2, 1, 0, DE); (2, 1, 0, DU); (2, 1, 1, DN)].
Definition k_dpins : list dpin := [mkPin 1 [mkMI 0 1 0] false; mkPin 2 [mkMI 3 1 0] false; mkPin 3 [mkMI 2 2 1] false].
Example C131_routed_nonvacuous : exists subs r,
  clip_subnets k_box (fun _ => 10) k_pins (fun _ _ => 0%nat) 100 (figs_of 7 k_db) = Some subs /\
  length r = 3%nat /\ Forall2 (routed k_box (fun _ => 10) (fun _ => 0) k_pins) subs [r].
Proof.
  eexists. eexists. split; [vm_compute; reflexivity|]. split; [shelve|]. constructor; [|constructor].
  exists (fun _ a => Z.abs (mx a)), (fun _ _ a => 0), unit, (fun _ _ _ _ => tt), (fun _ _ _ => tt), (fun _ _ _ => O), 3%nat, 100%nat, 100%nat, (grun k_g0 k_ops), k_dpins. eexists. exists [].
  split; [intros; lia|]. split; [intros; lia|]. split.
  { split; [apply (GridProofs2.grun_edges_inside k_ops k_g0); [repeat constructor|apply MazeProps.zero_edges_inside; reflexivity]|].
    split; [reflexivity|]. split; [reflexivity|]. split; [repeat constructor; cbn; intuition discriminate|].
    intros p [<-|[<-|[<-|[]]]]; cbn [paps]; (split; [discriminate|]); intros a [<-|[]]; unfold GridSpec.valid, GridSpec.on_grid; vm_compute; intuition discriminate. }
  split; [split; [|split]|].
  { intros i j A B. change (nx (grun k_g0 k_ops)) with 4 in B. assert (X : (i = 0 \/ i = 1 \/ i = 2) /\ (j = 1 \/ j = 2 \/ j = 3)) by lia. clear - X A.
    destruct X as [[->|[->| ->]] [->|[->| ->]]]; try lia; vm_compute; reflexivity. }
  { intros i j A B. change (ny (grun k_g0 k_ops)) with 3 in B. assert (X : (i = 0 \/ i = 1) /\ (j = 1 \/ j = 2)) by lia. clear - X A.
    destruct X as [[->| ->] [->| ->]]; try lia; vm_compute; reflexivity. }
  { intros z A B. change (nz (grun k_g0 k_ops)) with 2 in B. assert (z = 0) as -> by lia. reflexivity. }
  split; [vm_compute; lia|]. split.
  { split; [|intros id []]. intros k Hk. vm_compute in Hk. destruct Hk as [<-|[<-|[<-|[]]]]; [exists (nth 0 k_dpins (mkPin 0 [] false))|exists (nth 1 k_dpins (mkPin 0 [] false))|exists (nth 2 k_dpins (mkPin 0 [] false))];
      (split; [cbn; auto|intros a [<-|[]]; reflexivity]). }
  split; [vm_compute; reflexivity|]. split; [constructor|]. cbn [rsfigs]. reflexivity.
  Unshelve. reflexivity.
Qed.
