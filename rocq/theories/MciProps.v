(* C152: the costs of vias on and near wide pins of macros. *)
From Verif Require Import Base Stl GeomModel GeomSpec GeomProofs GridModel GridSpec GridProofs GridProofs2 CostModel CostSpec CostProofs CostProofs2 CostProofs4 CostProps SetupModel MciSpec MciProofs.

(* C152: a pin changes the via counter of exactly the grid points whose via has its cuts on the pin, for a
   rule without a length, or beyond a corner of the pin, for a rule with one; once per rule; no other cost
   changes.  Missing: vias on the pin or straight beside it under a rule with a length (refuted below), and
   points with a special access via. *)
Theorem C152_mincut_cost_partial S E g type b z upper p :
  good_stack E g -> grid_sorted g -> 0 <= z < nz g -> valid g p -> kind_ok type -> ce_svia E p = None ->
  (forall l v, ce_via E l = Some v -> good_box (cv_cutbb v)) -> (forall l, 0 <= se_pitch S l) -> (forall l, Forall good_mcon (se_mincut S l)) ->
  let ops := mod_mincut S E g type b z upper in
  no_limit g ops ->
  exists n, mincut_hits S E g b z upper p n /\
    read (grun g ops) p (via_counter type) = read g p (via_counter type) + kind_sign type * n /\
    (forall a, a <> via_counter type -> read (grun g ops) p a = read g p a).
Proof.
  intros GS Hs Hz Hv K SV GV P FM ops NL.
  destruct (mod_mincut_net S E g type b z upper p Hs (xy_of_valid g p Hv) K SV (fun v => GV _ v) (P _) (FM _)) as (n & H & N).
  pose proof (mod_mincut_in S E g type b z upper GS Hs Hz) as OI.
  assert (R : forall a, read (grun g ops) p a = read g p a + net ops p a) by (intros a; apply no_limit_net; assumption).
  exists n. split; [exact H|]. split.
  - rewrite R. unfold ops. rewrite N, at_counter_same. reflexivity.
  - intros a Ha. rewrite R. unfold ops. rewrite N, at_counter_other by assumption. lia.
Qed.
Print Assumptions C152_mincut_cost_partial.

(* adding and then taking away the cost of a pin leaves every counter as it was *)
Theorem C152_undone S E g b z upper p a :
  good_stack E g -> grid_sorted g -> 0 <= z < nz g -> valid g p -> ce_svia E p = None ->
  (forall l v, ce_via E l = Some v -> good_box (cv_cutbb v)) -> (forall l, 0 <= se_pitch S l) -> (forall l, Forall good_mcon (se_mincut S l)) ->
  let ops := mod_mincut S E g 1 b z upper ++ mod_mincut S E g 0 b z upper in
  no_limit g ops -> read (grun g ops) p a = read g p a.
Proof.
  intros GS Hs Hz Hv SV GV P FM ops NL.
  destruct (mod_mincut_net S E g 1 b z upper p Hs (xy_of_valid g p Hv) ltac:(unfold kind_ok; lia) SV (fun v => GV _ v) (P _) (FM _)) as (n & H & N).
  destruct (mod_mincut_net S E g 0 b z upper p Hs (xy_of_valid g p Hv) ltac:(unfold kind_ok; lia) SV (fun v => GV _ v) (P _) (FM _)) as (m & H' & M).
  assert (OI : ops_in g ops) by (apply Forall_app; split; apply mod_mincut_in; assumption).
  assert (R : read (grun g ops) p a = read g p a + net ops p a) by (apply no_limit_net; assumption).
  assert (EQ : n = m).
  { unfold mincut_hits in H, H'. destruct (ce_via E _); [|congruence]. destruct H as [(T & A)|(T & ->)], H' as [(T' & B)|(T' & ->)]; try contradiction; [|reflexivity].
    clear - A B. revert m B. induction A; intros m B; inversion B; subst; try contradiction; auto; f_equal; auto. }
  rewrite R. unfold ops. rewrite net_app, N, M, EQ. change (via_counter 0) with (via_counter 1). change (kind_sign 1) with 1. change (kind_sign 0) with (-1). unfold at_counter. destruct (attr_eq_dec _ _); lia.
Qed.
Print Assumptions C152_undone.

Definition mci_env (cs : list mcon) : senv :=
  mkSE 2 6 (fun l => (l =? 2) || (l =? 4) || (l =? 6)) (fun l => (l =? 3) || (l =? 5)) (fun _ _ => []) (mkBox (mkPt 0 0) (mkPt 120 80))
       (fun _ => mkTerm true []) (fun l => if l =? 4 then cs else []) (fun _ => 20).
Definition mci_pin : box := mkBox (mkPt (-100) (-60)) (mkPt 20 20).
(* Refuted: under a rule with a length, a via whose cut lies on the pin, and one ten units straight beside
   it, cost nothing, while one beyond the corner at the same distances costs *)
Theorem C152_beside_refuted :
  exists S E g b z c d, rule_for c b true /\ se_mincut S (getLayerNum g z) = [c] /\ (exists len, mc_len c = Some (len, d)) /\
    good_stack E g /\ grid_sorted g /\ 0 <= z < nz g /\ good_box b /\
    (exists p v, ce_via E (getLayerNum g z + 1) = Some v /\ valid g p /\ mz p = z /\ meet b (moved (cv_cutbb v) (getPoint g p)) /\
       read (grun g (mod_mincut S E g 1 b z true)) p ADrcU = read g p ADrcU) /\
    (exists p v, ce_via E (getLayerNum g z + 1) = Some v /\ valid g p /\ mz p = z /\
       bleft (moved (cv_cutbb v) (getPoint g p)) - bright b = 10 /\ 10 < d /\
       bbottom b < bbottom (moved (cv_cutbb v) (getPoint g p)) /\ btop (moved (cv_cutbb v) (getPoint g p)) < btop b /\
       read (grun g (mod_mincut S E g 1 b z true)) p ADrcU = read g p ADrcU) /\
    (exists p, valid g p /\ mz p = z /\ read (grun g (mod_mincut S E g 1 b z true)) p ADrcU = read g p ADrcU + 1).
Proof.
  set (c := mkMC 30 (Some (50, 40)) (Some true)).
  exists (mci_env [c]), (demo_tech 20 (fun _ => None) (-1)), demo_clip, mci_pin, 1, c, 40.
  split; [unfold rule_for; cbn; repeat split; lia|]. split; [reflexivity|]. split; [exists 50; reflexivity|]. split; [apply demo_clip_stack|]. split; [apply demo_clip_sorted|].
  split; [cbn; lia|]. split; [unfold good_box; cbn; lia|]. split; [|split].
  - exists (mkMI 0 0 1), demo_via. split; [reflexivity|]. split; [unfold valid, on_grid; cbn; lia|]. split; [reflexivity|]. split; [unfold meet; cbn; lia|vm_compute; reflexivity].
  - exists (mkMI 1 0 1), demo_via. split; [reflexivity|]. split; [unfold valid, on_grid; cbn; lia|]. split; [reflexivity|]. do 4 (split; [vm_compute; reflexivity|]). vm_compute. reflexivity.
  - exists (mkMI 1 1 1). split; [unfold valid, on_grid; cbn; lia|]. split; [reflexivity|]. vm_compute. reflexivity.
Qed.
Print Assumptions C152_beside_refuted.

(* three rules: one for every via on a pin wider than 30, one for upper vias near, one the pin is too narrow for *)
Example C152_ex :
  let E := demo_tech 20 (fun _ => None) (-1) in let S := mci_env [mkMC 30 None None; mkMC 30 (Some (50, 40)) (Some true); mkMC 80 None None] in
  (forall l v, ce_via E l = Some v -> good_box (cv_cutbb v)) /\ (forall l, Forall good_mcon (se_mincut S l)) /\ no_limit demo_clip (mod_mincut S E demo_clip 1 mci_pin 1 true ++ mod_mincut S E demo_clip 0 mci_pin 1 true) /\
  map (fun p => read (grun demo_clip (mod_mincut S E demo_clip 1 mci_pin 1 true)) p ADrcU) [mkMI 0 0 1; mkMI 1 1 1; mkMI 1 0 1; mkMI 2 1 1] = [1; 1; 0; 0] /\
  map (fun p => read (grun demo_clip (mod_mincut S E demo_clip 1 mci_pin 1 false)) p ADrcU) [mkMI 0 0 0; mkMI 1 1 0; mkMI 1 0 0; mkMI 0 0 1] = [1; 0; 0; 0].
Proof.
  cbv zeta. split; [intros l v; cbn; destruct (_ || _); intros X; inversion X; unfold good_box; cbn; lia|].
  split; [intros l; unfold mci_env; cbn [se_mincut]; destruct (l =? 4); [|constructor]; repeat (constructor; [unfold good_mcon; cbn; lia|]); constructor|].
  split; [vm_compute; repeat split; intros; discriminate|]. split; vm_compute; reflexivity.
Qed.
