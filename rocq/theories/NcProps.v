(* C141: costs of the grid while one net is routed. *)
From Coq Require Import Permutation.
From Verif Require Import Base Stl GeomModel GeomSpec GeomProofs GridModel GridSpec GridProofs GridProofs2 CostModel CostSpec CostProofs CostProps SetupModel SetupSpec SetupProofs SetupProofs6 SetupProps NcModel NcSpec NcProofs NcProofs2 NcProofs3 NcProofs4 NcProofs5 NcProofs6 NcProofs7 NcProofs8.

(* after set-up and any number of nets routed before, when a net begins: a step of a wire costs extra for fixed
   shapes exactly if the end of a wire at its target would be too close to a fixed shape or to a pin of ANOTHER net;
   the net's own pins cost it nothing (but shapes of cell pins on the lowest layer count as fixed for everyone) *)
Theorem C141_own_pins_free : forall S E g aps figs follow l h N h' p d,
  good_tech E -> good_stack E g -> grid_sorted g -> layers_ok S g -> shapes_ok S E -> rects_ok S E g ->
  (forall a, In a aps -> valid g (a_mi a)) -> (forall a v, In a aps -> a_via a = Some v -> good_via v) -> Forall (good_fig E g) figs ->
  Forall (fun NH => net_ok E g (fst NH) /\ search_ok g (snd NH)) l ->
  rounds S (with_svia E aps) follow (setup S E g aps figs) l = Some h ->
  net_ok E g N -> net_begin S (with_svia E aps) follow h N = Some h' ->
  planar d = true -> valid g (step p d) -> read g (step p d) AShapeX = 0 -> few S E g (step p d) ->
  (hasShapeCost h' p d = true <->
   fixed_near S E g (step p d) \/ exists n t, n <> dn_net N /\ term_found S g n t /\ pin_near S E g (step p d) t).
Proof.
  intros S E g aps figs follow l h N h' p d GT ST GS LO SO RO VA GV GF OK HR NO HB PL V R0 FEW.
  pose proof (setup_count S E g aps figs GT ST GS LO SO RO VA GF (step p d) V R0 FEW) as C0.
  pose proof (setup_shape S E g aps figs ST GS VA GF) as S0.
  destruct (rounds_count S E g aps GT ST GS LO SO RO GV (step p d) V FEW follow l _ h OK S0 C0 HR) as [S1 C1].
  destruct (begin_count S E g aps GT ST GS LO SO RO GV (step p d) V follow h N h' S1 C1 NO HB) as [S2 C2].
  rewrite hasShapeCost_read by (intros ->; discriminate PL). rewrite PL, C2, negb_true_iff, Z.eqb_neq.
  apply (others_pos S E g GT GS LO SO RO (step p d) V N).
Qed.
Print Assumptions C141_own_pins_free.

(* between two nets every fixed-shape cost of wires is what it was after set-up: a step costs extra exactly if the
   wire end would be too close to a fixed shape or to a pin of any net *)
Theorem C141_pins_restored : forall S E g aps figs follow l h q,
  good_tech E -> good_stack E g -> grid_sorted g -> layers_ok S g -> shapes_ok S E -> rects_ok S E g ->
  (forall a, In a aps -> valid g (a_mi a)) -> (forall a v, In a aps -> a_via a = Some v -> good_via v) -> Forall (good_fig E g) figs ->
  Forall (fun NH => net_ok E g (fst NH) /\ search_ok g (snd NH)) l ->
  rounds S (with_svia E aps) follow (setup S E g aps figs) l = Some h ->
  valid g q -> read g q AShapeX = 0 -> few S E g q ->
  read h q AShapeX = read (setup S E g aps figs) q AShapeX /\
  exists F T, sums (obj_wire S E g q) (all_fixed S) F /\ sums (term_wire S E g q) (map snd (terms_met S g)) T /\ read h q AShapeX = F + T.
Proof.
  intros S E g aps figs follow l h q GT ST GS LO SO RO VA GV GF OK HR V R0 FEW.
  pose proof (setup_count S E g aps figs GT ST GS LO SO RO VA GF q V R0 FEW) as C0.
  pose proof (setup_shape S E g aps figs ST GS VA GF) as S0.
  destruct (rounds_count S E g aps GT ST GS LO SO RO GV q V FEW follow l _ h OK S0 C0 HR) as [S1 C1].
  split; [congruence|]. exists (FF S E g q), (TT S E g q (terms_met S g)).
  split; [apply (fixed_sums S E g GT GS LO SO RO q V)|]. split; [apply (T_sums S E g GT GS RO q V)|exact C1].
Qed.
Print Assumptions C141_pins_restored.

(* the net's own wires and vias outside the clip cost it nothing while it is routed, and count again afterwards *)
Theorem C141_outside_wires : forall S E g follow h N q k,
  good_tech E -> svia_good E -> good_stack E g -> grid_sorted g -> same_shape g h -> valid g q -> net_ok E g N ->
  Forall (fig_wide E g) (dn_ext N) -> sums (fig_wire E g q) (dn_ext N) k ->
  (forall h', k <= read h q ADrcX -> net_begin S E follow h N = Some h' -> read h' q ADrcX = read h q ADrcX - k) /\
  (forall h', read h q ADrcX + k <= 255 -> net_end S E follow h N = Some h' -> read h' q ADrcX = read h q ADrcX + k).
Proof.
  intros S E g follow h N q k GT SV ST GS SH V NO FW HS. split; intros h' B H.
  - exact (proj2 (ext_through S E g GT SV ST GS q V follow h N false h' k SH NO FW HS B H)).
  - exact (proj2 (ext_through S E g GT SV ST GS q V follow h N true h' k SH NO FW HS B H)).
Qed.
Print Assumptions C141_outside_wires.

(* a via up from an access point of the net that may be left upwards costs nothing for fixed shapes while the net is
   routed; the exception ends with the net, and concerns no other grid point *)
Theorem C141_access_vias : forall S E g follow h N q,
  good_stack E g -> grid_sorted g -> same_shape g h -> valid g q -> net_ok E g N ->
  (forall h', net_begin S E follow h N = Some h' ->
     (up_access N q -> hasShapeCost h' q DU = false) /\ (~ up_access N q -> read h' q AOverride = read h q AOverride)) /\
  (forall h', net_end S E follow h N = Some h' ->
     (up_access N q -> read h' q AOverride = 0) /\ (~ up_access N q -> read h' q AOverride = read h q AOverride)).
Proof.
  intros S E g follow h N q ST GS SH V NO. split; intros h' H.
  - destruct (flag_through S E follow g h N false h' q AOverride SH ST GS NO V (or_introl eq_refl) H) as (its & EI & A & B).
    assert (HI : hit_in q AOverride its <-> up_access N q).
    { rewrite (hit_items_over h false q (net_items S E N) its); [apply item_over|apply (net_items_ok S E h N)|exact EI].
      destruct NO as [X Y]. split; [intros P a HP Ha; apply (valid_shape g h _ SH); eauto|eapply Forall_impl; [|exact Y]; intros f; apply good_fig_shape, SH]. }
    rewrite <- HI. split; [|exact B]. intros U. apply A in U. cbn in U. rewrite hasShapeCost_read by discriminate. cbn [planar owner]. rewrite U. reflexivity.
  - destruct (flag_through S E follow g h N true h' q AOverride SH ST GS NO V (or_introl eq_refl) H) as (its & EI & A & B).
    assert (HI : hit_in q AOverride its <-> up_access N q).
    { rewrite (hit_items_over h true q (net_items S E N) its); [apply item_over|apply (net_items_ok S E h N)|exact EI].
      destruct NO as [X Y]. split; [intros P a HP Ha; apply (valid_shape g h _ SH); eauto|eapply Forall_impl; [|exact Y]; intros f; apply good_fig_shape, SH]. }
    rewrite <- HI. split; [intros U; exact (A U)|exact B].
Qed.
Print Assumptions C141_access_vias.

(* while the net is routed, the edges of the lines from its access points carry no off-track penalty; afterwards
   they all carry it; no other edge changes *)
Theorem C141_access_lines : forall S E g follow h N x e,
  (forall l, 0 <= ce_width E l) -> good_stack E g -> grid_sorted g -> same_shape g h -> e <> DUnk -> valid g (owner x e) -> net_ok E g N ->
  (forall h', net_begin S E follow h N = Some h' ->
     (access_edge S E g N x e -> hasGridCost h' x e = false) /\ (~ access_edge S E g N x e -> hasGridCost h' x e = hasGridCost h x e)) /\
  (forall h', net_end S E follow h N = Some h' ->
     (access_edge S E g N x e -> hasGridCost h' x e = true) /\ (~ access_edge S E g N x e -> hasGridCost h' x e = hasGridCost h x e)).
Proof.
  intros S E g follow h N x e W ST GS SH NE V NO.
  assert (OKL : forall p d len, In (Line p d len) (net_items S E N) -> planar d = true /\ 0 <= len).
  { intros p d len I. apply item_line in I as (std & P & a & _ & [(_ & PL & _ & _ & ->)|(_ & _ & _ & _ & _ & HD & ->)]).
    - split; [exact PL|]. pose proof (W (na_lay a)). lia.
    - pose proof (W (na_lay a + 2)). split; [|lia]. destruct (ce_horz E _); destruct HD as [-> | ->]; reflexivity. }
  assert (A4 : gattr e = AOverride \/ gattr e = AGridE \/ gattr e = AGridN \/ gattr e = AGridU) by (destruct e; cbn; auto; congruence).
  assert (NV : gattr e <> AOverride) by (destruct e; discriminate).
  assert (HI : forall add its, item_ops h add (net_items S E N) = Some its -> hit_in (owner x e) (gattr e) its <-> access_edge S E g N x e).
  { intros add its EI. rewrite (hit_items_line h add x e (sorted_shape g h SH GS) NE (net_items S E N) its OKL EI). unfold access_edge.
    split; intros (p & d & len & q & e' & A & B & C); exists p, d, len, q, e'; (split; [apply item_line, A || exact (proj2 (item_line S E N p d len) A)|split; [|exact C]]); apply (in_line_shape g h p d len q SH); exact B. }
  split; intros h' H.
  - destruct (flag_through S E follow g h N false h' (owner x e) (gattr e) SH ST GS NO V A4 H) as (its & EI & A & B).
    rewrite <- (HI false its EI), !hasGridCost_read by exact NE. fold (gattr e). destruct (attr_eq_dec (gattr e) AOverride) as [C|_]; [contradiction|].
    split; intros U; [rewrite (A U)|rewrite (B U)]; reflexivity.
  - destruct (flag_through S E follow g h N true h' (owner x e) (gattr e) SH ST GS NO V A4 H) as (its & EI & A & B).
    rewrite <- (HI true its EI), !hasGridCost_read by exact NE. fold (gattr e). destruct (attr_eq_dec (gattr e) AOverride) as [C|_]; [contradiction|].
    split; intros U; [rewrite (A U)|rewrite (B U)]; reflexivity.
Qed.
Print Assumptions C141_access_lines.

(* ---- a clip with the pins of two nets on layer 4, and an obstruction ---- *)
Definition nc_pin (x : Z) : box := mkBox (mkPt (x - 5) 35) (mkPt (x + 5) 45).
Definition nc_env (mc : list mcon) : senv :=
  mkSE 2 6 (fun l => (l =? 2) || (l =? 4) || (l =? 6)) (fun l => (l =? 3) || (l =? 5))
       (fun l _ => if l =? 4 then [mkFO (nc_pin 40) (KInstTerm 1 1); mkFO (nc_pin 80) (KInstTerm 2 2); mkFO (mkBox (mkPt 115 75) (mkPt 125 85)) KBlk] else [])
       (mkBox (mkPt 0 0) (mkPt 120 80)) (fun t => mkTerm true [(4, nc_pin (40 * t))]) (fun l => if l =? 4 then mc else []) (fun _ => 25).
Definition nc_tech (s : Z) : cenv :=
  mkCE (fun _ => 2) (fun l => l =? 4) (fun _ => Some (spc_plain s)) (fun _ => s)
       (fun l => if (l =? 3) || (l =? 5) then Some demo_via else None) (fun _ => None)
       (fun _ => []) (fun _ => 800) 5 (fun _ => []) (fun _ _ => None) (fun _ _ _ => false) false.
Definition nc_ok (d : dir) : bool := match d with DE | DU => true | _ => false end.
Definition nc_ap : nap := mkNA (mkMI 1 1 1) 4 nc_ok true true.
Definition nc_net : dnet := mkDN 1 [mkNP (Some false) [nc_ap]] [CPatch 1 (nc_pin 0)] [].
Definition nc_aps : list apat := [mkAP (mkMI 1 1 1) nc_ok (Some demo_via)].
Definition nc_figs : list cfig := [CPatch 1 (nc_pin 0)].
Definition nc_start : gg := setup (nc_env []) (nc_tech 36) demo_clip nc_aps nc_figs.
Definition the (o : option gg) : gg := match o with Some g => g | None => demo_clip end.
Definition nc_during : gg := the (net_begin (nc_env []) (with_svia (nc_tech 36) nc_aps) false nc_start nc_net).
Definition nc_after : gg := the (net_end (nc_env []) (with_svia (nc_tech 36) nc_aps) false nc_during nc_net).

Example C141_ex_env : forall mc s, 5 <= s ->
  good_tech (nc_tech s) /\ good_stack (nc_tech s) demo_clip /\ layers_ok (nc_env mc) demo_clip /\ shapes_ok (nc_env mc) (nc_tech s) /\
  rects_ok (nc_env mc) (nc_tech s) demo_clip /\ (forall a, In a nc_aps -> valid demo_clip (a_mi a)) /\
  (forall a v, In a nc_aps -> a_via a = Some v -> good_via v) /\ Forall (good_fig (nc_tech s) demo_clip) nc_figs /\ net_ok (nc_tech s) demo_clip nc_net.
Proof.
  intros mc s Hs. split; [|split; [|split; [|split; [|split; [|split; [|split; [|split]]]]]]].
  - constructor; cbn.
    + intros _. lia.
    + lia.
    + intros l f E. inversion E. subst f. unfold spc_plain. split; [lia|]. split; [intros; lia|]. split; [intros; lia|]. intros; lia.
    + intros l. constructor.
    + intros l v. destruct (_ || _); intros E; inversion E. apply demo_via_good.
    + intros l. constructor.
    + intros l1 l2 c E. discriminate E.
  - split; [|split; [reflexivity|reflexivity]]. intros z Hz. assert (H : z = 0 \/ z = 1 \/ z = 2) by (change (nz demo_clip) with 3 in Hz; lia). destruct H as [->|[->| ->]]; reflexivity.
  - split; [|split].
    + intros l. cbn [nc_env se_bot se_top se_rout gzs demo_clip]. rewrite !orb_true_iff, !Z.eqb_eq. cbn [In]. lia.
    + intros l. cbn [nc_env se_cutl se_rout]. intros H. apply orb_true_iff in H as [H|H]; apply Z.eqb_eq in H; subst l; reflexivity.
    + intros z Hz Hz'. assert (H : z = 0 \/ z = 1) by (change (nz demo_clip) with 3 in Hz'; lia). destruct H as [->| ->]; (split; [reflexivity|discriminate]).
  - split; [|split; [|split]].
    + intros l b o. cbn [nc_env se_q]. destruct (_ =? _); intros H; [|destruct H].
      destruct H as [<-|[<-|[<-|[]]]]; split; cbn; lia.
    + intros l o pg. unfold found. cbn [nc_env se_q]. destruct (_ =? _); intros H K; [|destruct H]. destruct H as [<-|[<-|[<-|[]]]]; discriminate K.
    + intros l. constructor.
    + intros l. cbn. lia.
  - split.
    + intros l o. unfold found. cbn [nc_env se_q]. destruct (_ =? _); intros H K; [|destruct H].
      destruct H as [<-|[<-|[<-|[]]]]; (split; [unfold good_box|unfold wide_enough]; cbn; lia).
    + intros n t l b (l' & o & _ & _ & HO & HK). unfold found in HO. cbn [nc_env se_q] in HO. destruct (_ =? _); [|destruct HO].
      cbn [nc_env se_term te_figs]. intros [HI|[]] _. injection HI as <- <-. split; [cbn; auto|].
      destruct HO as [<-|[<-|[<-|[]]]]; cbn in HK; destruct HK as [HK|HK]; try discriminate HK; injection HK as _ <-; (split; [unfold good_box|unfold wide_enough]; cbn; lia).
  - intros a [<-|[]]; unfold valid, on_grid; cbn; lia.
  - intros a v [<-|[]] E. injection E as <-. apply demo_via_good.
  - repeat constructor; cbn; lia.
  - split; [|repeat constructor; cbn; lia]. intros P a [<-|[]] [<-|[]]. unfold valid, on_grid. cbn. lia.
Qed.
Lemma rect_wire_small s q z b blk n : rect_wire (nc_tech s) demo_clip q z b blk n -> n <= 1.
Proof.
  intros (a & e & HA & HE & ->).
  assert (e = 0). { destruct HE as [[_ T]|[_ ->]]; [|reflexivity]. unfold all_regions in T. cbn [nc_tech ce_eol flat_map map] in T. inversion T. reflexivity. }
  assert (a <= 1). { unfold wire_near in HA. cbn [nc_tech ce_spc] in HA. destruct HA as [[_ O]|[_ ->]]; [|lia]. unfold one in O. destruct O as [[_ ->]|[_ ->]]; lia. }
  lia.
Qed.
Example C141_ex_few : forall mc s q, few (nc_env mc) (nc_tech s) demo_clip q.
Proof.
  intros mc s q F T HF HT.
  change (all_fixed (nc_env mc)) with [(4, mkFO (nc_pin 40) (KInstTerm 1 1)); (4, mkFO (nc_pin 80) (KInstTerm 2 2)); (4, mkFO (mkBox (mkPt 115 75) (mkPt 125 85)) KBlk)] in HF.
  change (map snd (terms_met (nc_env mc) demo_clip)) with [1; 2] in HT.
  assert (HF' : F <= 3).
  { inversion HF as [|x l n m R1 HF2]; subst. inversion HF2 as [|x l n' m' R2 HF3]; subst. inversion HF3 as [|x l n2 m2 R3 HF4]; subst. inversion HF4; subst.
    cbn in R1, R2. unfold obj_wire in R3. cbn [fst snd fo_kind nc_env se_rout] in R3. change ((4 =? 2) || (4 =? 4) || (4 =? 6)) with true in R3. cbn iota in R3. apply rect_wire_small in R3. subst. lia. }
  assert (HT' : T <= 2).
  { inversion HT as [|x l n m R1 HT2]; subst. inversion HT2 as [|x l n' m' R2 HT3]; subst. inversion HT3; subst.
    assert (TW : forall t k, term_wire (nc_env mc) (nc_tech s) demo_clip q t k -> k <= 1).
    { intros t k H. unfold term_wire in H. cbn [nc_env se_term te_figs] in H. inversion H as [|x l a c R H2]; subst. inversion H2; subst. cbn [fst snd] in R.
      change (se_rout (nc_env mc) 4) with true in R. cbn iota in R. apply rect_wire_small in R. lia. }
    apply TW in R1. apply TW in R2. lia. }
  lia.
Qed.
(* at the pin of net 2, 39 away from that of net 1: charged for both after set-up, for the other net's while net 1 is
   routed; at the own pin only for net 2's; net 1's wire outside the clip is charged except while it is routed; the
   via at its access point becomes free and its line cheap *)
Example C141_ex :
  (exists h', net_begin (nc_env []) (with_svia (nc_tech 36) nc_aps) false nc_start nc_net = Some h' /\ h' = nc_during) /\
  (exists h', net_end (nc_env []) (with_svia (nc_tech 36) nc_aps) false nc_during nc_net = Some h' /\ h' = nc_after) /\
  map (fun h => map (fun q => read h q AShapeX) [mkMI 1 1 1; mkMI 2 1 1; mkMI 3 1 1; mkMI 0 1 1; mkMI 3 2 1]) [nc_start; nc_during; nc_after] =
    [[2; 2; 2; 1; 1]; [1; 1; 2; 0; 1]; [2; 2; 2; 1; 1]] /\
  map (fun h => read h (mkMI 1 1 1) ADrcX) [nc_start; nc_during; nc_after] = [1; 0; 1] /\
  map (fun h => hasShapeCost h (mkMI 1 1 1) DU) [nc_start; nc_during; nc_after] = [true; false; true].
Proof.
  split; [eexists; split; [vm_compute; reflexivity|vm_compute; reflexivity]|].
  split; [eexists; split; [vm_compute; reflexivity|vm_compute; reflexivity]|].
  vm_compute. repeat split; reflexivity.
Qed.

(* REFUTED: after a net the off-track penalties are what they were before it.  The end of a net puts a penalty on
   every edge of the lines from its access points, also where there was none. *)
Theorem C141_grid_costs_restored_refuted : exists S E g aps figs N h' h'' x e,
  good_tech E /\ good_stack E g /\ grid_sorted g /\ layers_ok S g /\ shapes_ok S E /\ rects_ok S E g /\ net_ok E g N /\
  valid g x /\ valid g (step x e) /\ planar e = true /\
  net_begin S (with_svia E aps) false (setup S E g aps figs) N = Some h' /\ net_end S (with_svia E aps) false h' N = Some h'' /\
  hasGridCost (setup S E g aps figs) x e = false /\ hasGridCost h'' x e = true.
Proof.
  exists (nc_env []), (nc_tech 36), demo_clip, nc_aps, nc_figs, nc_net, nc_during, nc_after, (mkMI 1 1 1), DE.
  destruct (C141_ex_env [] 36 ltac:(lia)) as (A & B & C & D & E & _ & _ & _ & F).
  refine (conj A (conj B (conj demo_clip_sorted (conj C (conj D (conj E (conj F (conj _ (conj _ (conj eq_refl (conj _ (conj _ (conj _ _))))))))))))); try (unfold valid, on_grid; cbn; lia); vm_compute; reflexivity.
Qed.
Print Assumptions C141_grid_costs_restored_refuted.

(* REFUTED: routing a net is always defined.  The line from an access point is followed by the lengths of edges read
   ahead of it; near the border of the clip an edge outside the grid is read. *)
Theorem C141_walk_outside_refuted : exists S E g aps figs N,
  good_tech E /\ good_stack E g /\ grid_sorted g /\ layers_ok S g /\ shapes_ok S E /\ rects_ok S E g /\ net_ok E g N /\
  (forall a, In a aps -> valid g (a_mi a)) /\ Forall (good_fig E g) figs /\
  (forall P a, In P (dn_pins N) -> In a (np_aps P) -> na_ok a DE = true -> valid g (step (na_mi a) DE)) /\
  net_begin S (with_svia E aps) false (setup S E g aps figs) N = None.
Proof.
  exists (nc_env []), (nc_tech 36), demo_clip, nc_aps, nc_figs, (mkDN 1 [mkNP (Some false) [mkNA (mkMI 2 1 1) 4 nc_ok true true]] [] []).
  destruct (C141_ex_env [] 36 ltac:(lia)) as (A & B & C & D & E & F & _ & G & _).
  refine (conj A (conj B (conj demo_clip_sorted (conj C (conj D (conj E (conj _ (conj F (conj G (conj _ _)))))))))).
  - split; [|constructor]. intros P a [<-|[]] [<-|[]]. unfold valid, on_grid. cbn. lia.
  - intros P a [<-|[]] [<-|[]] _. unfold valid, on_grid. cbn. lia.
  - vm_compute. reflexivity.
Qed.
Print Assumptions C141_walk_outside_refuted.

(* REFUTED: after a net the fixed-shape costs of vias are what they were after set-up.  Set-up checks the
   minimum-cut rule with the default via of the layer, begin and end of a net with the via of the access point. *)
Definition nc_big : cvia :=
  mkCV (mkBox (mkPt (-15) (-15)) (mkPt 15 15)) (mkBox (mkPt (-15) (-15)) (mkPt 15 15))
       (mkBox (mkPt (-14) (-14)) (mkPt 14 14)) [mkBox (mkPt (-14) (-14)) (mkPt 14 14)].
Definition nc_aps2 : list apat := [mkAP (mkMI 2 2 1) nc_ok (Some nc_big)].
Theorem C141_via_costs_restored_refuted : exists S E g aps figs N h' h'' q,
  good_tech E /\ good_stack E g /\ grid_sorted g /\ layers_ok S g /\ shapes_ok S E /\ rects_ok S E g /\ net_ok E g N /\
  (forall a, In a aps -> valid g (a_mi a)) /\ (forall a v, In a aps -> a_via a = Some v -> good_via v) /\ valid g q /\
  net_begin S (with_svia E aps) false (setup S E g aps figs) N = Some h' /\ net_end S (with_svia E aps) false h' N = Some h'' /\
  hasShapeCost (setup S E g aps figs) q DU = false /\ hasShapeCost h'' q DU = true.
Proof.
  set (S := nc_env [mkMC 5 (Some (8, 20)) None]). set (E := nc_tech 20). set (N := mkDN 1 [] [] []).
  exists S, E, demo_clip, nc_aps2, [], N, (the (net_begin S (with_svia E nc_aps2) false (setup S E demo_clip nc_aps2 []) N)),
    (the (net_end S (with_svia E nc_aps2) false (the (net_begin S (with_svia E nc_aps2) false (setup S E demo_clip nc_aps2 []) N)) N)), (mkMI 2 2 1).
  destruct (C141_ex_env [mkMC 5 (Some (8, 20)) None] 20 ltac:(lia)) as (A & B & C & D & F & _).
  refine (conj A (conj B (conj demo_clip_sorted (conj C (conj D (conj F (conj _ (conj _ (conj _ (conj _ (conj _ (conj _ (conj _ _))))))))))))).
  - split; [|constructor]. intros P a [].
  - intros a [<-|[]]; unfold valid, on_grid; cbn; lia.
  - intros a v [<-|[]] X. injection X as <-. unfold good_via, good_box, solid, nc_big, bleft, bright, bbottom, btop; cbn.
    split; [lia|]. split; [lia|]. split; [lia|]. constructor; [unfold solid; cbn; lia | constructor].
  - unfold valid, on_grid. cbn. lia.
  - vm_compute. reflexivity.
  - vm_compute. reflexivity.
  - vm_compute. reflexivity.
  - vm_compute. reflexivity.
Qed.
Print Assumptions C141_via_costs_restored_refuted.

(* a via of the net outside the clip weighs on the vias that start on either of its metals, upwards and downwards: wherever a
   minimum-cut rule applies to one of the metals and the grid point is in reach, the cost is taken off while the net is routed *)
Theorem C141_outside_vias : forall S E h follow N h' bi ei pt v up b z c dv p,
  In (CVia bi ei pt v) (dn_ext N) -> (b, z) = (at_pt (cv_b1 v) pt, mz bi) \/ (b, z) = (at_pt (cv_b2 v) pt, mz ei) ->
  via_of E (getLayerNum h z) up = Some dv -> In c (se_mincut S (getLayerNum h z)) -> mincut_applies S c b up = true ->
  let d := mincut_dist S c (getLayerNum h z) in let vb := cv_cutbb dv in
  In p (window h (box_set (bleft b - d - bright vb + 1) (bbottom b - d - btop vb + 1) (bright b + d + (0 - bleft vb) - 1) (btop b + d + (0 - bbottom vb) - 1)) z) ->
  mincut_hit S c (getLayerNum h z) b (at_pt (match ce_svia E (via_pt p up) with Some s => cv_cutbb s | None => vb end) (getPoint h p)) = true ->
  net_begin S E follow h N = Some h' -> exists ops, net_ops2 S E h N false = Some ops /\ incl (mk_via 1 (via_pt p up)) ops.
Proof.
  intros S E h follow N h' bi ei pt v up b z c dv p IN BZ EV IC AP d vb IW HIT NB. unfold net_begin in NB. destruct (net_ops2 S E h N false) as [ops|] eqn:EO; [|discriminate]. exists ops. split; [reflexivity|].
  unfold net_ops2 in EO. destruct (item_ops _ _ _) as [ap|]; [|discriminate]. injection EO as <-. intros o O. apply in_or_app. left. apply in_flat_map. exists (CVia bi ei pt v). split; [exact IN|].
  assert (M : In o (mod_mincut S E h 1 b z up)). { unfold mod_mincut. rewrite EV. apply in_flat_map. exists c. split; [exact IC|]. rewrite AP. apply in_flat_map. exists p. split; [exact IW|]. cbv zeta. fold vb. rewrite HIT. exact O. }
  cbn [mincut_ops]. rewrite !in_app_iff. destruct BZ as [BZ|BZ]; injection BZ as -> ->; destruct up; tauto.
Qed.
Print Assumptions C141_outside_vias.
(* a wide via outside the clip, at (40, 40): a via upwards from its upper metal is among the changed grid points *)
Example c141_outside_vias : let S := nc_env [mkMC 5 None None] in let E := nc_tech 20 in
  let v := mkCV (mkBox (mkPt (-30) (-30)) (mkPt 30 30)) (mkBox (mkPt (-30) (-30)) (mkPt 30 30)) (cv_cutbb demo_via) (cv_cuts demo_via) in
  let N := mkDN 1 [] [CVia (mkMI 1 1 0) (mkMI 1 1 1) (mkPt 40 40) v] [] in
  exists ops, net_ops2 S E demo_clip N false = Some ops /\ incl (mk_via 1 (via_pt (mkMI 1 1 1) true)) ops.
Proof.
  cbv zeta. eexists. split; [vm_compute; reflexivity|]. intros o O. vm_compute in O. vm_compute. tauto.
Qed.
