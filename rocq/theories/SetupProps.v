(* C140: the blocked edges of a clip after set-up. *)
From Coq Require Import Permutation.
From Verif Require Import Base Stl GeomModel GeomSpec GeomProofs GridModel GridSpec GridProofs GridProofs2 CostModel CostSpec CostProofs CostProps SetupModel SetupSpec SetupProofs SetupProofs2 SetupProofs3 SetupProofs4 SetupProofs5 SetupProofs6.

(* after set-up an edge of the grid is blocked exactly if the fixed shapes or the access points forbid it:
   an IO pin forbids to leave it except along its longer side; else the last access point at an end of the
   edge decides; else obstructions and power wires forbid the edges of the grid points on them (wires are
   allowed on pins of instances), and crowded power cuts forbid vias beside them *)
Theorem C140_blocked : forall S E g aps figs p d,
  grid_sorted g -> good_stack E g -> layers_ok S g -> shapes_ok S E -> unblocked g ->
  (forall a, In a aps -> valid g (a_mi a)) -> Forall (good_fig E g) figs ->
  d <> DUnk -> valid g p -> valid g (step p d) ->
  (isBlocked (setup S E g aps figs) p d = true <-> forbidden S E g aps p d).
Proof. intros. apply setup_blocked; assumption. Qed.
Print Assumptions C140_blocked.

(* after set-up a grid point is marked for a special via exactly if an access point there has one, and the
   via used there is that of the last such access point *)
Theorem C140_special_vias : forall S E g aps figs q,
  grid_sorted g -> good_stack E g -> (forall a, In a aps -> valid g (a_mi a)) -> Forall (good_fig E g) figs ->
  valid g q -> read g q ASVia = 0 ->
  (read (setup S E g aps figs) q ASVia = 1 <-> exists v, last_via aps q v) /\ (forall v, last_via aps q v <-> svia_of aps q = Some v).
Proof. intros. apply setup_svia; assumption. Qed.
Print Assumptions C140_special_vias.

(* what the access points decided stays: set-up leaves the wires of the nets out of it *)
Theorem C140_wires_do_not_block : forall S E g aps figs figs' p d,
  grid_sorted g -> good_stack E g -> layers_ok S g -> shapes_ok S E -> unblocked g ->
  (forall a, In a aps -> valid g (a_mi a)) -> Forall (good_fig E g) figs -> Forall (good_fig E g) figs' ->
  d <> DUnk -> valid g p -> valid g (step p d) ->
  isBlocked (setup S E g aps figs) p d = isBlocked (setup S E g aps figs') p d.
Proof.
  intros S E g aps figs figs' p d GS ST LO SO UB VA GF GF' D VP VQ.
  pose proof (setup_blocked S E g aps figs GS ST VA GF p d LO SO UB D VP VQ) as A.
  pose proof (setup_blocked S E g aps figs' GS ST VA GF' p d LO SO UB D VP VQ) as B.
  destruct (isBlocked (setup S E g aps figs) p d), (isBlocked (setup S E g aps figs') p d); try reflexivity.
  - symmetry. apply B, A. reflexivity.
  - apply A, B. reflexivity.
Qed.
Print Assumptions C140_wires_do_not_block.

(* ---- a clip with an obstruction, a cell pin on it, an IO pin, and two power vias too close ---- *)
Definition su_blk : fobj := mkFO (mkBox (mkPt (-10) (-10)) (mkPt 50 10)) KBlk.
Definition su_pin : fobj := mkFO (mkBox (mkPt (-10) (-5)) (mkPt 10 5)) (KInstTerm 1 1).
Definition su_power : fobj := mkFO (mkBox (mkPt (-10) (-5)) (mkPt 10 5)) (KWire true).
Definition su_io : fobj := mkFO (mkBox (mkPt 70 70) (mkPt 130 90)) (KTerm 2 2).
Definition su_cut (x : Z) : fobj := mkFO (mkBox (mkPt (x - 5) 75) (mkPt (x + 5) 85)) (KVia true (mkBox (mkPt (x - 5) 75) (mkPt (x + 5) 85))).
Definition su_shapes (order : list fobj) (l : Z) : list fobj :=
  if l =? 2 then order else if l =? 6 then [su_io] else if l =? 3 then [su_cut 0; su_cut 20] else [].
Definition su_env (order : list fobj) : senv :=
  mkSE 2 6 (fun l => (l =? 2) || (l =? 4) || (l =? 6)) (fun l => (l =? 3) || (l =? 5)) (fun l _ => su_shapes order l)
       (mkBox (mkPt 0 0) (mkPt 120 80)) (fun _ => mkTerm true []) (fun _ => []) (fun _ => 40).
Definition su_tech : cenv :=
  mkCE (fun _ => 20) (fun l => l =? 4) (fun _ => Some (spc_plain 20)) (fun _ => 20)
       (fun l => if (l =? 3) || (l =? 5) then Some demo_via else None) (fun _ => None)
       (fun _ => []) (fun _ => 800) 5 (fun l => if l =? 3 then [mkCut 15 false false false 3 20 false (-1)] else [])
       (fun _ _ => None) (fun _ _ _ => false) false.
Definition su_ap (x : Z) (ok : dir -> bool) (v : option cvia) : apat := mkAP (mkMI x 1 0) ok v.
Definition only_up (d : dir) : bool := match d with DU => true | _ => false end.
Definition all_ok (d : dir) : bool := true.
Definition su_aps : list apat := [su_ap 1 all_ok (Some demo_via); su_ap 3 only_up None].
Definition su_figs : list cfig := [CPatch 0 (mkBox (mkPt 30 30) (mkPt 60 50))].
Definition su_run (order : list fobj) (aps : list apat) : gg := setup (su_env order) su_tech demo_clip aps su_figs.

Example C140_ex_env : forall order, (forall o, In o order -> In o [su_blk; su_pin; su_power]) ->
  good_stack su_tech demo_clip /\ layers_ok (su_env order) demo_clip /\ shapes_ok (su_env order) su_tech /\ unblocked demo_clip /\
  (forall a, In a su_aps -> valid demo_clip (a_mi a)) /\ Forall (good_fig su_tech demo_clip) su_figs.
Proof.
  intros order HO.
  split; [|split; [|split; [|split; [|split]]]].
  - split; [|split; [reflexivity|reflexivity]]. intros z Hz. assert (H : z = 0 \/ z = 1 \/ z = 2) by (change (nz demo_clip) with 3 in Hz; lia). destruct H as [->|[->| ->]]; reflexivity.
  - split; [|split].
    + intros l. cbn [su_env se_bot se_top se_rout gzs demo_clip]. rewrite !orb_true_iff, !Z.eqb_eq. cbn [In]. lia.
    + intros l. cbn [su_env se_cutl se_rout]. intros H. apply orb_true_iff in H as [H|H]; apply Z.eqb_eq in H; subst l; reflexivity.
    + intros z Hz Hz'. assert (H : z = 0 \/ z = 1) by (change (nz demo_clip) with 3 in Hz'; lia). destruct H as [->| ->]; (split; [reflexivity|discriminate]).
  - split; [|split; [|split]].
    + intros l b o. cbn [su_env se_q]. unfold su_shapes. repeat destruct (_ =? _); intros H.
      * apply HO in H. cbn in H. destruct H as [<-|[<-|[<-|[]]]]; split; cbn; lia.
      * destruct H as [<-|[]]; split; cbn; lia.
      * destruct H as [<-|[<-|[]]]; split; cbn; lia.
      * destruct H.
    + intros l o pg. unfold found. cbn [su_env se_q se_rout]. unfold su_shapes. intros H K. destruct (l =? 2) eqn:E2; [reflexivity|]. exfalso. destruct (l =? 6); [|destruct (l =? 3)].
      * destruct H as [<-|[]]. discriminate K.
      * destruct H as [<-|[<-|[]]]; discriminate K.
      * destruct H.
    + intros l. cbn [su_tech ce_cut]. destruct (l =? 3); repeat constructor. cbn. lia.
    + intros l. cbn. lia.
  - intros q V. split; [|split]; reflexivity.
  - intros a [<-|[<-|[]]]; unfold valid, on_grid; cbn; lia.
  - repeat constructor; cbn; lia.
Qed.
(* edges of the pin: east is open for the wire although the obstruction covers it, up is not; the IO pin opens
   only east and west; no via at the power cuts; the access points open and close theirs *)
Example C140_ex : forall q, q = su_run [su_blk; su_pin] su_aps ->
  map (isBlocked q (mkMI 0 0 0)) [DE; DN; DU] = [false; false; true] /\
  map (isBlocked q (mkMI 1 0 0)) [DE; DN; DU] = [true; false; true] /\
  map (isBlocked q (mkMI 2 2 2)) [DE; DW; DS; DD] = [false; false; true; true] /\
  map (isBlocked q (mkMI 0 2 0)) [DE; DS; DU] = [false; false; true] /\
  map (isBlocked q (mkMI 1 1 0)) [DE; DW; DN; DS; DU] = [false; false; false; false; false] /\
  map (isBlocked q (mkMI 3 1 0)) [DW; DN; DS; DU] = [true; true; true; false] /\
  read q (mkMI 1 1 0) ASVia = 1 /\ read q (mkMI 3 1 0) ASVia = 0.
Proof. intros q ->. vm_compute. repeat split. Qed.

(* REFUTED: the same shapes, found in another order, give the same blocked edges: the later of a power wire
   and a pin of an instance on it decides *)
Theorem C140_order_free_refuted : exists S S' E g aps figs p d,
  (forall l, Permutation (found S l) (found S' l)) /\ se_rout S = se_rout S' /\ se_bot S = se_bot S' /\ se_top S = se_top S' /\
  grid_sorted g /\ good_stack E g /\ layers_ok S g /\ layers_ok S' g /\ shapes_ok S E /\ shapes_ok S' E /\ unblocked g /\
  valid g p /\ valid g (step p d) /\
  isBlocked (setup S E g aps figs) p d = true /\ isBlocked (setup S' E g aps figs) p d = false.
Proof.
  exists (su_env [su_pin; su_power]), (su_env [su_power; su_pin]), su_tech, demo_clip, [], [], (mkMI 0 0 0), DE.
  destruct (C140_ex_env [su_pin; su_power]) as (A & B & C & D & _); [cbn; intros o [<-|[<-|[]]]; auto|].
  destruct (C140_ex_env [su_power; su_pin]) as (_ & B' & C' & _); [cbn; intros o [<-|[<-|[]]]; auto|].
  split; [|split; [reflexivity|split; [reflexivity|split; [reflexivity|split; [apply demo_clip_sorted|]]]]].
  - intros l. unfold found. cbn [su_env se_q]. unfold su_shapes. destruct (l =? 2); [apply perm_swap|]. reflexivity.
  - refine (conj A (conj B (conj B' (conj C (conj C' (conj D (conj _ (conj _ (conj _ _))))))))); try (unfold valid, on_grid; cbn; lia); vm_compute; reflexivity.
Qed.
Print Assumptions C140_order_free_refuted.

(* REFUTED: a direction in which an access point may be left is not blocked: another access point beside it,
   later in the order, that may not be left towards it blocks the edge between them *)
Theorem C140_access_kept_refuted : exists S E g aps p d a,
  grid_sorted g /\ good_stack E g /\ layers_ok S g /\ shapes_ok S E /\ unblocked g /\ (forall a, In a aps -> valid g (a_mi a)) /\
  In a aps /\ a_mi a = p /\ a_ok a d = true /\ ~ io_forbids S g p d /\ valid g (step p d) /\
  isBlocked (setup S E g aps []) p d = true.
Proof.
  exists (su_env []), su_tech, demo_clip, [su_ap 1 all_ok None; su_ap 2 only_up None], (mkMI 1 1 0), DE, (su_ap 1 all_ok None).
  destruct (C140_ex_env []) as (A & B & C & D & _); [intros o []|].
  refine (conj demo_clip_sorted (conj A (conj B (conj C (conj D (conj _ (conj _ (conj _ (conj _ (conj _ (conj _ _))))))))))).
  - intros a [<-|[<-|[]]]; unfold valid, on_grid; cbn; lia.
  - left. reflexivity.
  - reflexivity.
  - reflexivity.
  - intros (q & e & o & AE & [HO _] & _). destruct AE as [[-> _]|[-> _]]; destruct HO.
  - unfold valid, on_grid; cbn; lia.
  - vm_compute. reflexivity.
Qed.
Print Assumptions C140_access_kept_refuted.
