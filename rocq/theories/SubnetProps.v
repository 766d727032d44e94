(* C30, C81: sub-nets of a net inside a clip. *)
From Verif Require Import Base GeomModel TreeModel TreeSpec ConnModel ConnSpec SubnetModel SubnetSpec SubnetProofs1 SubnetProofs3.
From Coq Require Import Permutation.

(* On every graph with symmetric edges the labels are equal exactly for nodes connected by a path, whatever
   the order in which the queue delivers its entries; labels are 0 .. n-1 with none left out. *)
Theorem C30_component_labels : forall adj nCnt, in_range adj nCnt -> (forall i j, In j (adj i) -> In i (adj j)) ->
  exists n0, forall pick fuel, (n0 <= fuel)%nat ->
  exists comp lab, connComp adj nCnt pick fuel = Some comp /\
  (forall u v, (u < nCnt)%nat -> (v < nCnt)%nat -> (comp u = comp v <-> reachable adj u v)) /\
  (forall v, (v < nCnt)%nat -> (comp v < lab)%nat) /\
  (forall s, (s < lab)%nat -> exists v, (v < nCnt)%nat /\ comp v = s).
Proof. intros adj nCnt R S. exists (turns adj nCnt). intros pick fuel Hf. exact (connComp_spec adj nCnt pick R S fuel Hf). Qed.

(* Two routing objects, or a pin and a routing object, are in the same sub-net exactly when they are joined
   by a chain of objects and pins sharing joints; [groups] gives the positions of the objects of every
   sub-net. *)
Theorem C30_sub_nets : forall objs ext pins_at routeBox, wires_ok objs ->
  exists n0, forall pick fuel, (n0 <= fuel)%nat ->
  exists subs groups, initNets pins_at routeBox pick fuel objs ext = Some subs /\
  length groups = length subs /\
  Permutation (concat groups) (seq 0 (length objs)) /\
  (forall s g sub, nth_error groups s = Some g -> nth_error subs s = Some sub -> forall d,
     In d (sn_route sub ++ sn_ext sub) <-> In d (at_positions g objs) \/ (s = 0%nat /\ In d ext)) /\
  (forall s t g h i j, nth_error groups s = Some g -> nth_error groups t = Some h -> In i g -> In j h ->
     (s = t <-> chained pins_at routeBox objs (Wire i) (Wire j))) /\
  (forall s t sub g id i, nth_error subs s = Some sub -> nth_error groups t = Some g -> In id (sn_pins sub) -> In i g ->
     (s = t <-> chained pins_at routeBox objs (Pin id) (Wire i))).
Proof.
  intros objs ext pins_at routeBox ok. eexists. intros pick fuel Hf.
  destruct (initNets_spec objs ext ok pins_at routeBox pick fuel Hf) as (subs & groups & H1 & H2 & H3 & H4 & H5 & _ & _ & H8).
  exists subs, groups. repeat (split; [assumption|]). split; [|split; assumption].
  intros s g sub Hg Hs d. destruct (H4 s g sub Hg Hs) as (_ & fin & fout & -> & -> & F1 & F2). rewrite !in_app_iff, !filter_In. split.
  - intros [[? _]|[H|[? _]]]; [auto| |auto]. destruct (Nat.eqb_spec s 0); [auto|destruct H].
  - intros [H|[-> H]]; [|auto]. destruct (fin d) eqn:E; [auto|]. right. right. split; [assumption|]. apply F2. intros I. apply F1 in I. congruence.
Qed.

(* Nothing is lost or doubled: the objects of the net are distributed over the sub-nets, those inside the
   clip for routing and wires that reach outside as fixed, in their old order; the objects that were outside
   go to the first sub-net; every pin found is in exactly one sub-net; no sub-net is empty. *)
Theorem C81_nothing_lost : forall objs ext pins_at routeBox, wires_ok objs ->
  exists n0, forall pick fuel, (n0 <= fuel)%nat ->
  exists subs groups, initNets pins_at routeBox pick fuel objs ext = Some subs /\
  length groups = length subs /\
  Permutation (concat groups) (seq 0 (length objs)) /\
  (forall s g sub, nth_error groups s = Some g -> nth_error subs s = Some sub ->
     (objs <> [] -> g <> []) /\
     (exists fin fout, sn_route sub = filter fin (at_positions g objs) /\
        sn_ext sub = (if Nat.eqb s 0 then ext else []) ++ filter fout (at_positions g objs) /\
        (forall d, fin d = true <-> inside routeBox d) /\ (forall d, fout d = true <-> ~ inside routeBox d))) /\
  NoDup (concat (map sn_pins subs)) /\
  (forall id, In id (concat (map sn_pins subs)) <-> exists k, found pins_at routeBox objs id k).
Proof.
  intros objs ext pins_at routeBox ok. eexists. intros pick fuel Hf.
  destruct (initNets_spec objs ext ok pins_at routeBox pick fuel Hf) as (subs & groups & H1 & H2 & H3 & H4 & H5 & H6 & H7 & H8).
  exists subs, groups. tauto.
Qed.

Print Assumptions C30_component_labels.
Print Assumptions C30_sub_nets.
Print Assumptions C81_nothing_lost.

(* Non-vacuity: an L of two wires with a patch at its corner, a via on the middle of the first wire with a
   pin below, a second component reaching out of the clip, and a wire that crosses the first one in the
   middle of both: it is a sub-net of its own. *)
Definition ex_box := mkBox (mkPt 0 0) (mkPt 100 100).
Definition ex_objs : list dfig :=
  [DFig (RSeg (mkPt 10 10) (mkPt 50 10) 2 true true);
   DFig (RSeg (mkPt 60 60) (mkPt 60 120) 4 true false);
   DFig (RSeg (mkPt 50 10) (mkPt 50 40) 2 true true);
   DFig (RVia (mkPt 30 10) 2 4);
   DPatch (mkPt 50 10) 2;
   DFig (RSeg (mkPt 20 0) (mkPt 20 30) 2 true true)].
Definition ex_pins_at (p : point) (l : Z) : list Z := if (l =? 2) && (px p =? 10) then [7] else if (l =? 4) && (py p =? 60) then [8] else [].
Example ex_wires_ok : wires_ok ex_objs.
Proof.
  split.
  - intros o H. cbn in H. repeat (destruct H as [H|H]; [try discriminate; injection H as <-; cbn; lia|]). destruct H.
  - intros i j a b Hn Ha Hb.
    do 6 (destruct i as [|i]; [cbn in Ha; try discriminate; injection Ha as <-;
      do 6 (destruct j as [|j]; [try congruence; cbn in Hb; try discriminate; injection Hb as <-; cbn; lia|]); destruct j; discriminate|]).
    destruct i; discriminate.
Qed.
Example ex_subs : initNets ex_pins_at ex_box (fun _ _ => 0%nat) 100 ex_objs [] = Some
  [mkSub [DFig (RSeg (mkPt 10 10) (mkPt 50 10) 2 true true); DFig (RSeg (mkPt 50 10) (mkPt 50 40) 2 true true);
          DFig (RVia (mkPt 30 10) 2 4); DPatch (mkPt 50 10) 2] [] [7];
   mkSub [] [DFig (RSeg (mkPt 60 60) (mkPt 60 120) 4 true false)] [8];
   mkSub [DFig (RSeg (mkPt 20 0) (mkPt 20 30) 2 true true)] [] []].
Proof. vm_compute. reflexivity. Qed.
