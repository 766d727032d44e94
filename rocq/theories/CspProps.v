(* C151: LEF 5.8 cut spacing rules are read as written. *)
From Verif Require Import Base CspModel CspSpec CspProofs CspProofs2.
From Coq Require Import List String.
Open Scope list_scope.

(* rules that are read as written, among rules of other kinds: not for one mask, not by the larger of the distances; to
   another layer: not for every cut of a class, not by width alone; by adjacent cuts: with one distance, ending in a class *)
Theorem C151_read_partial : forall (T : Type) (dbu int_of : T -> Z) (cls : word T -> option Z) (rs : list (rule T)),
  Forall (fun r => match r with
    | RLayer _ r => h_maxxy T (lr_head T r) = false /\ h_mask T (lr_head T r) = false /\ (forall c, lr_second T r <> LClass T c (KAny T)) /\ (forall c w, lr_second T r <> LClass T c (KAbove T w None))
    | RCuts _ r => h_maxxy T (c_head T r) = false /\ h_mask T (c_head T r) = false /\ c_within1 T r = None /\ (exists c, c_class T r = Some (c, false)) /\ c_prl T r = None /\ c_mask T r = false
    | ROther _ ws => forall k, In (K T k) ws -> k <> SPACING /\ k <> SEMI /\ k <> LAYER /\ k <> ADJACENTCUTS
    end) rs ->
  cut_spacing T dbu int_of cls (flat_map (words T) rs) = Some (flat_map (mean T dbu int_of cls) rs).
Proof.
  intros T dbu int_of cls rs F. unfold cut_spacing. rewrite cut_spacing_effect.
  - f_equal. induction F as [|r rs H F IH]; [reflexivity|]. cbn [flat_map]. rewrite IH. f_equal. destruct r as [r|r|ws]; cbn [effect mean]; [| |reflexivity].
    + destruct H as (A & B & C & D). replace (layer_kept T r) with true.
      * unfold layer_mean, plain_layer. cbn [lr_head lr_layer lr_second]. unfold plain_head. destruct (lr_head T r) as [s a b c n]; cbn in A, B; subst a b. reflexivity.
      * unfold layer_kept. destruct (lr_second T r) as [| |x|c [| | | | |w [e|]| |]]; try reflexivity; [destruct (C c eq_refl)|destruct (D c w eq_refl)].
    + destruct H as (A & B & C & (c & D) & E & G). replace (cuts_kept T r) with true by (unfold cuts_kept; rewrite C, D, E, G; reflexivity).
      unfold cuts_mean, cuts_settings, plain_cuts. cbn [c_within1 c_class c_prl c_mask c_head c_num c_exact c_two c_within c_pg c_all c_encl].
      unfold plain_head. destruct (c_head T r) as [s a b d n]; cbn in A, B; subst a b. reflexivity.
  - eapply Forall_impl; [|exact F]. intros [r|r|ws] H; try exact I. exact H.
Qed.
Print Assumptions C151_read_partial.
(* every rule by adjacent cuts that does not end in the name of a class is lost *)
Theorem C151_adjacent_lost : forall (T : Type) (dbu int_of : T -> Z) (cls : word T -> option Z) (r : cuts_rule T),
  c_class T r = None \/ (exists c, c_class T r = Some (c, true)) \/ c_prl T r <> None \/ c_mask T r = true \/ c_within1 T r <> None ->
  cut_spacing T dbu int_of cls (cuts_words T r) = Some [].
Proof.
  intros T dbu int_of cls r H. pose proof (cut_spacing_effect T dbu int_of cls [RCuts T r] []) as X. cbn [flat_map words] in X. rewrite !app_nil_r in X. unfold cut_spacing. rewrite X by (repeat constructor).
  f_equal. cbn [effect]. replace (cuts_kept T r) with false; [reflexivity|]. unfold cuts_kept.
  destruct (c_within1 T r); [reflexivity|]. destruct (c_class T r) as [[c [|]]|]; try reflexivity. destruct (c_prl T r); [reflexivity|]. destruct (c_mask T r); [reflexivity|].
  exfalso. destruct H as [H|[(c' & H)|[H|[H|H]]]]; congruence.
Qed.
Print Assumptions C151_adjacent_lost.
(* and every rule to another layer for a class with nothing more, or for wires above a width *)
Theorem C151_layer_lost : forall (T : Type) (dbu int_of : T -> Z) (cls : word T -> option Z) (r : layer_rule T) c,
  lr_second T r = LClass T c (KAny T) \/ (exists w, lr_second T r = LClass T c (KAbove T w None)) -> cut_spacing T dbu int_of cls (layer_words T r) = Some [].
Proof.
  intros T dbu int_of cls r c H. pose proof (cut_spacing_effect T dbu int_of cls [RLayer T r] []) as X. cbn [flat_map words] in X. rewrite !app_nil_r in X. unfold cut_spacing. rewrite X by (repeat constructor).
  f_equal. cbn [effect]. replace (layer_kept T r) with false; [reflexivity|]. unfold layer_kept. destruct H as [-> |(w & ->)]; reflexivity.
Qed.
Print Assumptions C151_layer_lost.
(* a rule for cuts of one mask becomes one for all cuts *)
Theorem C151_mask_lost : forall (T : Type) (dbu int_of : T -> Z) (cls : word T -> option Z) s a b c n l k,
  cut_spacing T dbu int_of cls (layer_words T (mkLR T (mkH T s a b c n) l k)) = cut_spacing T dbu int_of cls (layer_words T (mkLR T (mkH T s false false c n) l k)).
Proof.
  intros. unfold cut_spacing. pose proof (fun r => cut_spacing_effect T dbu int_of cls [RLayer T r] []) as X. cbn [flat_map words] in X.
  pose proof (X (mkLR T (mkH T s a b c n) l k)) as X1. pose proof (X (mkLR T (mkH T s false false c n) l k)) as X2. rewrite !app_nil_r in X1, X2. rewrite X1, X2 by (repeat constructor). reflexivity.
Qed.
Print Assumptions C151_mask_lost.
Theorem C151_read_refuted : exists (r : cuts_rule Z) (r' : layer_rule Z), mean Z (fun x => x) (fun x => x) (fun _ => Some 0) (RCuts Z r) <> [] /\ cut_spacing Z (fun x => x) (fun x => x) (fun _ => Some 0) (cuts_words Z r) = Some [] /\
  mean Z (fun x => x) (fun x => x) (fun _ => Some 0) (RLayer Z r') = [[CutSpacing Z 70; SameMask Z; SecondLayer Z (Other Z "V1")]] /\
  cut_spacing Z (fun x => x) (fun x => x) (fun _ => Some 0) (layer_words Z r') = Some [[CutSpacing Z 70; SecondLayer Z (Other Z "V1")]].
Proof.
  exists (mkCR Z (mkH Z 80 false false false (NAny)) 3 None None None 100 false None None None None false), (mkLR Z (mkH Z 70 false true false (NAny)) "V1" (LAny Z)).
  split; [discriminate|]. split; [lazy; reflexivity|]. split; lazy; reflexivity.
Qed.
Print Assumptions C151_read_refuted.
(* the reader ends if a number follows every TWOCUTSSPACING, and may not end if one is missing *)
Theorem C151_ends_partial : forall (T : Type) (dbu int_of : T -> Z) (cls : word T -> option Z) ws,
  (forall a b, ws = a ++ [K T TWOCUTSSPACING] ++ b -> exists x c, b = Num T x :: c) -> cut_spacing T dbu int_of cls ws <> None.
Proof. intros T dbu int_of cls ws H. apply spacing_ends. exact H. Qed.
Print Assumptions C151_ends_partial.
Theorem C151_ends_refuted : exists ws : list (word Z), cut_spacing Z (fun x => x) (fun x => x) (fun _ => None) ws = None.
Proof. exists [K Z SPACING; Num Z 80; K Z ADJACENTCUTS; Num Z 3; K Z TWOCUTS; Num Z 2; K Z TWOCUTSSPACING; K Z SAMECUT; K Z WITHIN; Num Z 100; K Z SEMI]. lazy. reflexivity. Qed.
Print Assumptions C151_ends_refuted.
(* a rule by area, one to a layer for a concave corner of a class, one by adjacent cuts for a class *)
Definition ex_layer : layer_rule Z := mkLR Z (mkH Z 70 false false true NMetal) "V1" (LClass Z "VA" (KConcave Z (CcEdge Z 10 11 12))).
Definition ex_cuts : cuts_rule Z := mkCR Z (mkH Z 80 false false false NNet) 3 (Some 2) (Some (2, Some 90, true)) None 100 true (Some 5) (Some (Some false, 7)) (Some ("VA"%string, false)) None false.
Example C151_ex : cut_spacing Z (fun x => x) (fun x => x) (fun _ => Some 4) (flat_map (words Z) [ROther Z [Num Z 9; K Z AREA; Num Z 4]; RLayer Z ex_layer; RCuts Z ex_cuts]) =
  Some [[CutSpacing Z 70; CenterToCenter Z; SameMetal Z; SecondLayer Z (Other Z "V1"); ClassName Z (Other Z "VA"); ClassIdx Z 4; CspModel.ConcaveCorner Z; EdgeLength Z 10; EdgeEnclosure Z 11; AdjEnclosure Z 12];
        [CutSpacing Z 80; SameNet Z; AdjacentCuts Z 3; ExactAligned Z 2; TwoCuts Z 2; TwoCutsSpacing Z 90; SameCut Z; CutWithin Z 100; ExceptSamePGNet Z; ExceptAllWithin Z 5; Below Z; Enclosure Z 7; ClassName Z (Other Z "VA"); ClassIdx Z 4]] /\
  (forall k, In (K Z k) [Num Z 9; K Z AREA; Num Z 4] -> k <> SPACING /\ k <> SEMI /\ k <> LAYER /\ k <> ADJACENTCUTS).
Proof.
  split; [lazy; reflexivity|]. intros k [H|[H|[H|[]]]]; try discriminate H. injection H as <-. repeat split; discriminate.
Qed.
