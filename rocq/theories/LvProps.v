(* C150: the vias of LEF are read as written. *)
From Verif Require Import Base GeomModel LvModel LvSpec LvProofs.
From Coq Require Import List String Permutation.
Open Scope list_scope.

(* one via: read exactly if its three layers are one above the other, in any order, with a cut; then it has the metal of
   the lower one below, of the upper one above, the cuts between, and the class of its cut.  It is skipped exactly if one
   of three layers is unknown.  In every other case the program ends *)
Theorem C150_via : forall T dbu layer_num cut_classes (v : lef_via T), layers_differ T layer_num v ->
  (forall d, read_via T dbu layer_num cut_classes v = Some (Some d) <-> is_via T dbu layer_num cut_classes v d) /\
  (read_via T dbu layer_num cut_classes v = Some None <-> List.length (v_layers v) = 3%nat /\ ~ known_layers T layer_num v).
Proof. intros T dbu layer_num cut_classes v D. split; [intros d; apply read_is_via; exact D|apply read_skipped]. Qed.
Print Assumptions C150_via.

(* the order of the layers in the file does not matter *)
Theorem C150_any_order : forall T dbu layer_num cut_classes (v v' : lef_via T), layers_differ T layer_num v ->
  v_name v' = v_name v -> v_default v' = v_default v -> Permutation (v_layers v) (v_layers v') ->
  read_via T dbu layer_num cut_classes v' = read_via T dbu layer_num cut_classes v.
Proof.
  intros T dbu layer_num cut_classes v v' D N F P.
  assert (D' : layers_differ T layer_num v') by (unfold layers_differ in *; apply (Permutation_NoDup (Permutation_map _ P)), D).
  assert (IV : forall d, is_via T dbu layer_num cut_classes v d -> is_via T dbu layer_num cut_classes v' d).
  { intros d (n & b & c & t & Q & B & C & E & A1 & A2 & R). exists n, b, c, t. split; [exact (perm_trans (Permutation_sym P) Q)|]. rewrite N, F. auto 10. }
  assert (IV' : forall d, is_via T dbu layer_num cut_classes v' d -> is_via T dbu layer_num cut_classes v d).
  { intros d (n & b & c & t & Q & B & C & E & A1 & A2 & R). exists n, b, c, t. split; [exact (perm_trans P Q)|]. rewrite <- N, <- F. auto 10. }
  destruct (read_via T dbu layer_num cut_classes v) as [[d|]|] eqn:R.
  - apply (read_is_via T dbu layer_num cut_classes v' d D'), IV, (read_is_via T dbu layer_num cut_classes v d D), R.
  - apply read_skipped in R as (L & K). apply read_skipped. split; [rewrite <- (Permutation_length P); exact L|]. intros K'. apply K. intros l I. apply K', (Permutation_in l P), I.
  - destruct (read_via T dbu layer_num cut_classes v') as [[d|]|] eqn:R'; [| |reflexivity].
    + apply (read_is_via T dbu layer_num cut_classes v' d D'), IV', (read_is_via T dbu layer_num cut_classes v d D) in R'. congruence.
    + apply read_skipped in R' as (L & K). assert (X : read_via T dbu layer_num cut_classes v = Some None); [|congruence]. apply read_skipped. split; [rewrite (Permutation_length P); exact L|]. intros K'. apply K. intros l I. apply K', (Permutation_in l (Permutation_sym P)), I.
Qed.
Print Assumptions C150_any_order.

(* the whole file: the vias read, in order, without those skipped *)
Theorem C150_file : forall T dbu layer_num cut_classes (vs : list (lef_via T)) ds, Forall (layers_differ T layer_num) vs ->
  read_vias T dbu layer_num cut_classes vs [] = Some ds <->
  exists os, ds = flat_map (fun o => match o with Some d => [d] | None => [] end) os /\
    Forall2 (fun v o => match o with Some d => is_via T dbu layer_num cut_classes v d | None => List.length (v_layers v) = 3%nat /\ ~ known_layers T layer_num v end) vs os.
Proof.
  intros T dbu layer_num cut_classes vs ds F. set (kept := fun o : option via_def => match o with Some d => [d] | None => [] end).
  assert (G0 : forall acc, read_vias T dbu layer_num cut_classes vs acc = Some (acc ++ ds) <-> exists os, ds = flat_map kept os /\
    Forall2 (fun v o => match o with Some d => is_via T dbu layer_num cut_classes v d | None => List.length (v_layers v) = 3%nat /\ ~ known_layers T layer_num v end) vs os); [|exact (G0 [])].
  revert ds. induction F as [|v vs D F IH]; intros ds acc; cbn [read_vias].
  - split.
    + intros H. exists []. split; [injection H as H; apply (app_inv_head acc); rewrite app_nil_r, <- H; reflexivity|constructor].
    + intros (os & -> & G). inversion G; subst. cbn. rewrite app_nil_r. reflexivity.
  - destruct (C150_via T dbu layer_num cut_classes v D) as (A & B). destruct (read_via T dbu layer_num cut_classes v) as [[d|]|].
    + assert (V := proj1 (A d) eq_refl). split.
      * intros H. destruct ds as [|d' ds]; [|].
        -- exfalso. assert (HL : forall ws a r, read_vias T dbu layer_num cut_classes ws a = Some r -> (List.length a <= List.length r)%nat).
           { induction ws as [|w ws IHw]; intros a r E; cbn [read_vias] in E; [injection E as <-; lia|]. destruct (read_via T dbu layer_num cut_classes w) as [[x|]|]; [apply IHw in E; rewrite app_length in E; cbn in E; lia|exact (IHw _ _ E)|discriminate]. }
           apply HL in H. rewrite !app_length in H. cbn in H. lia.
        -- assert (HP : forall ws a r, read_vias T dbu layer_num cut_classes ws a = Some r -> exists s, r = a ++ s).
           { induction ws as [|w ws IHw]; intros a r E; cbn [read_vias] in E; [injection E as <-; exists []; rewrite app_nil_r; reflexivity|]. destruct (read_via T dbu layer_num cut_classes w) as [[x|]|]; [apply IHw in E as (s & ->); exists (x :: s); rewrite <- app_assoc; reflexivity|exact (IHw _ _ E)|discriminate]. }
           destruct (HP _ _ _ H) as (s & E). rewrite <- app_assoc in E. apply app_inv_head in E. injection E as -> ->. change (acc ++ d :: s) with (acc ++ [d] ++ s) in H. rewrite app_assoc in H. apply IH in H as (os & -> & G). exists (Some d :: os). split; [reflexivity|]. constructor; assumption.
      * intros (os & -> & G). inversion G as [|? o ? os' H G']; subst. destruct o as [d'|].
        -- assert (E := proj2 (A d') H). injection E as <-. change (flat_map kept (Some d :: os')) with ([d] ++ flat_map kept os'). rewrite (app_assoc acc). apply IH. exists os'. split; [reflexivity|exact G'].
        -- apply B in H. discriminate.
    + split.
      * intros H. apply IH in H as (os & -> & G). exists (None :: os). split; [reflexivity|]. constructor; [apply B; reflexivity|exact G].
      * intros (os & -> & G). inversion G as [|? o ? os' H G']; subst. destruct o as [d'|]; [apply A in H; discriminate|]. change (flat_map kept (None :: os')) with (flat_map kept os'). apply IH. exists os'. split; [reflexivity|exact G'].
    + split; [discriminate|]. intros (os & -> & G). inversion G as [|? o ? os' H G']; subst. destruct o as [d'|]; [apply A in H|apply B in H]; discriminate.
Qed.
Print Assumptions C150_file.

(* without layers that differ: a via with one metal layer twice is taken, the other metal as its cut *)
Theorem C150_same_layer_refuted : exists (layer_num : string -> option Z) (v : lef_via Z) d,
  map (fun l => layer_num (vl_name l)) (v_layers v) = [Some 2; Some 2; Some 4] /\
  read_via Z (fun x => x) layer_num (fun _ => []) v = Some (Some d) /\ map shape_layer (d_cut d) = [4] /\ d_layer2 d = [].
Proof.
  exists (fun s => if String.eqb s "M1" then Some 2 else if String.eqb s "V1" then Some 3 else if String.eqb s "M2" then Some 4 else None).
  exists (mkLV "v" true [mkVL "M1" [(0, 0, 10, 10)] []; mkVL "M1" [(0, 0, 10, 10)] []; mkVL "M2" [(0, 0, 10, 10)] []])%string. eexists. split; [reflexivity|]. split; [lazy; reflexivity|]. split; reflexivity.
Qed.
Print Assumptions C150_same_layer_refuted.

(* layers from the top, two cuts of which the second has a class *)
Example C150_ex : let layer_num := fun s => if String.eqb s "M1" then Some 2 else if String.eqb s "V1" then Some 3 else if String.eqb s "M2" then Some 4 else None in
  let v := mkLV "v" true [mkVL "M2" [(-20, -10, 20, 10)] []; mkVL "V1" [(-15, -5, -5, 5); (15, 10, 5, -10)] []; mkVL "M1" [] [[(-20, -10); (20, -10); (20, 10); (-20, 10)]]]%string in
  layers_differ Z layer_num v /\
  read_via Z (fun x => x) layer_num (fun _ => [(9, 9); (10, 20)]) v =
    Some (Some (mkVD "v" true [SPoly 2 [mkPt (-20) (-10); mkPt 20 (-10); mkPt 20 10; mkPt (-20) 10]] [SRect 3 (mkBox (mkPt (-15) (-5)) (mkPt (-5) 5)); SRect 3 (mkBox (mkPt 5 (-10)) (mkPt 15 10))] [SRect 4 (mkBox (mkPt (-20) (-10)) (mkPt 20 10))] (Some 1%nat))).
Proof. split; [|lazy; reflexivity]. unfold layers_differ. cbn. repeat constructor; cbn; intuition discriminate. Qed.
Example C150_unknown_ex : read_via Z (fun x => x) (fun s => if String.eqb s "M1" then Some 2 else None) (fun _ => []) (mkLV "v" false [mkVL "M1" [] []; mkVL "V1" [] []; mkVL "MX" [] []])%string = Some None.
Proof. reflexivity. Qed.
