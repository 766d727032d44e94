(* What the copy of the floor plan and of the components in the routed DEF file says. *)
From Coq Require Import String.
From Verif Require Import Base DwModel DwSpec DwProofs DwProofs2 DwProofs3.
Local Open Scope string_scope.
Local Open Scope Z_scope.
Local Open Scope list_scope.

(* C162: a number printed with %g is read back unchanged exactly if it has at most six significant digits *)
Theorem C162_number_kept : forall n, g6 n = n <-> six_digits n.
Proof. exact g6_exact. Qed.
Print Assumptions C162_number_kept.
(* and is never off by more than five parts in a million *)
Theorem C162_number_error : forall n, 200000 * Z.abs (g6 n - n) <= Z.abs n.
Proof. exact g6_error. Qed.
Print Assumptions C162_number_error.
(* rows, tracks and gcell grids without row properties: the copy can always be read, statement by statement in the same order; it is the input exactly if every printed number is short *)
Theorem C162_plan_kept : forall ty l fuel, (forall s, In s l -> stmt_wf s /\ no_row_properties s) -> (length (print_plan l) < fuel)%nat ->
  exists l', read_plan ty fuel (print_plan l) = Some l' /\ length l' = length l /\ (l' = l <-> forall s, In s l -> stmt_short s).
Proof.
  intros ty l fuel H F. exists (map rounded l). split; [apply plan_read; assumption|]. split; [apply map_length|]. clear F. induction l as [|s l IH]; [split; [intros _ s []|reflexivity]|]. cbn [map].
  assert (IH' := IH (fun x X => H x (or_intror X))). destruct (H s (or_introl eq_refl)) as [_ N]. pose proof (rounded_same s N) as R. split.
  - intros E. injection E as E1 E2. intros x [<-|X]; [apply R; exact E1|apply IH'; assumption].
  - intros G. rewrite (proj2 R) by (apply G; left; reflexivity). rewrite (proj2 IH') by (intros x X; apply G; right; exact X). reflexivity.
Qed.
Print Assumptions C162_plan_kept.
(* what is not printed with %g is kept anyway: row names, sites, origins and orientations, the layers and masks of tracks *)
Theorem C162_names_kept : forall ty l fuel, (forall s, In s l -> stmt_wf s /\ no_row_properties s) -> (length (print_plan l) < fuel)%nat ->
  exists l', read_plan ty fuel (print_plan l) = Some l' /\
  Forall2 (fun s s' => match s, s' with
    | SRow w, SRow w' => r_name w' = r_name w /\ r_site w' = r_site w /\ r_x w' = r_x w /\ r_y w' = r_y w /\ r_orient w' = r_orient w
    | STrack t, STrack t' => t_isx t' = t_isx t /\ t_layers t' = t_layers t /\ t_mask t' = t_mask t /\ t_same t' = t_same t
    | SGrid g, SGrid g' => gg_isx g' = gg_isx g /\ gg_x g' = gg_x g /\ gg_num g' = gg_num g
    | _, _ => False end) l l'.
Proof.
  intros ty l fuel H F. exists (map rounded l). split; [apply plan_read; assumption|]. clear. induction l as [|s l IH]; [constructor|]. cbn [map]. constructor; [|exact IH]. destruct s; cbn; repeat split; reflexivity.
Qed.
Print Assumptions C162_names_kept.
(* tracks that start beyond a million units are moved *)
Theorem C162_long_numbers_refuted : exists t ty, track_wf t /\ read_plan ty 100 (print_plan [STrack t]) = Some [STrack (mkTrk (t_isx t) (t_x t + 3) (t_num t) (t_step t) (t_mask t) (t_same t) (t_layers t))].
Proof.
  exists (mkTrk true 1234567 100 200 0 false ["M1"]), (fun _ => PNumber). split; [|vm_compute; reflexivity].
  repeat split; cbn; try discriminate; try lia. intros l [<-|[]] X. cbn in X. repeat destruct X as [X|X]; try discriminate X; exact X.
Qed.
Print Assumptions C162_long_numbers_refuted.
(* a row property is printed behind the semicolon that ends the row: whatever follows, the file cannot be read on *)
Theorem C162_row_property_refuted : forall ty w l fuel, row_wf w -> r_props w <> [] -> read_plan ty fuel (print_plan (SRow w :: l)) = None.
Proof.
  intros ty w l fuel H P. destruct fuel as [|f]; [reflexivity|]. unfold print_plan. cbn [flat_map print_stmt read_plan]. destruct (print_row w ++ flat_map print_stmt l) as [|t r] eqn:E; [exfalso; unfold print_row in E; cbn in E; discriminate|]. rewrite <- E. clear E t r.
  assert (E : read_stmt ty (print_row w ++ flat_map print_stmt l) = option_map (fun x => (SRow (fst x), snd x)) (read_row ty (print_row w ++ flat_map print_stmt l))) by reflexivity.
  rewrite E, row_read by exact H. unfold stray. destruct (r_props w) as [|p ps]; [contradiction|]. cbn [flat_map option_map fst snd]. destruct f as [|f]; reflexivity.
Qed.
Print Assumptions C162_row_property_refuted.

Definition t1 : track := mkTrk false 190 1024 380 1 true ["metal1"; "metal2"].
Definition w1 : row := mkRow "ROW_0" "core" 20140 22400 4 (Some (3107, 1, Some (380, 0))) [].
Definition g1 : gcgrid := mkGc true 0 251 4200.
Example c162_kept : read_plan (fun _ => PNumber) 200 (print_plan [SRow w1; STrack t1; SGrid g1]) = Some [SRow w1; STrack t1; SGrid g1]. Proof. vm_compute. reflexivity. Qed.
Example c162_wf : forall s, In s [SRow w1; STrack t1; SGrid g1] -> stmt_wf s /\ no_row_properties s /\ stmt_short s.
Proof.
  assert (D : forall n, Z.abs n < 1000000 -> six_digits n) by (intros n B; exists n, 0; repeat split; lia).
  intros s [<-|[<-|[<-|[]]]]; (split; [|split; [|cbn; repeat split; apply D; cbn; lia]]); cbn; try exact I; try reflexivity.
  - repeat split; cbn; try lia; intros X; repeat destruct X as [X|X]; try discriminate X; exact X.
  - repeat split; cbn; try discriminate; try lia. intros l X Y. destruct X as [<-|[<-|[]]]; repeat destruct Y as [Y|Y]; try discriminate Y; exact Y.
Qed.
Example c162_number : g6 1234567 = 1234570 /\ g6 (-2000050) = -2000050 /\ g6 12345650 = 12345600. Proof. vm_compute. auto. Qed.

(* C163: a component without COVER placement and without properties is read back as it was *)
Theorem C163_component_kept : forall ty c rest, comp_wf c -> ~ is_cover c -> c_props c = [] -> read_comp ty (print_comp c ++ rest) = Some (c, rest).
Proof. exact comp_read. Qed.
Print Assumptions C163_component_kept.
(* the section is read back as it was exactly if its count is the number of its components, and there is one (a lone component survives a count of 0) *)
Theorem C163_section_kept : forall ty n l rest, (forall c, In c l -> comp_wf c /\ ~ is_cover c /\ c_props c = []) ->
  eat "-" rest = None -> eat "END" rest = None ->
  (read_section ty (print_section n l ++ rest) = Some (n, l, rest) <-> Z.of_nat (length l) = Z.max 1 n).
Proof.
  intros ty n l rest H E1 E2. split.
  - intros R. destruct (Z.lt_trichotomy (Z.max 1 n) (Z.of_nat (length l))) as [L|[L|L]]; [|congruence|].
    + destruct (section_less ty n l rest H) as (r & Q); [intros ->; cbn in L; lia|lia|]. rewrite Q in R. injection R as R _. assert (X : length (firstn (Z.to_nat (Z.max 1 n)) l) = length l) by (rewrite R; reflexivity). rewrite firstn_length in X. lia.
    + rewrite (section_more ty n l rest H) in R; [discriminate| |exact E1|exact E2]. destruct l as [|c l]; [right; reflexivity|left]. cbn [length] in *. lia.
  - intros E. apply section_read; [exact H|congruence].
Qed.
Print Assumptions C163_section_kept.
(* a count that is too small drops components: only the first n are in the section that is read *)
Theorem C163_small_count_drops : forall ty n l rest, (forall c, In c l -> comp_wf c /\ ~ is_cover c /\ c_props c = []) -> 1 <= n < Z.of_nat (length l) ->
  exists r, read_section ty (print_section n l ++ rest) = Some (n, firstn (Z.to_nat n) l, r).
Proof.
  intros ty n l rest H B. destruct (section_less ty n l rest H) as (r & Q); [intros ->; cbn in B; lia|lia|]. exists r. rewrite Q. replace (Z.max 1 n) with n by lia. reflexivity.
Qed.
Print Assumptions C163_small_count_drops.
(* a design without components gets a section that does not end; so does one whose count is too large *)
Theorem C163_no_components_refuted : forall ty n l rest, (forall c, In c l -> comp_wf c /\ ~ is_cover c /\ c_props c = []) -> l = [] \/ Z.of_nat (length l) < n ->
  eat "-" rest = None -> eat "END" rest = None -> read_section ty (print_section n l ++ rest) = None.
Proof. intros ty n l rest H N. apply section_more; [exact H|tauto]. Qed.
Print Assumptions C163_no_components_refuted.
(* a component with COVER placement or with a property makes the section unreadable *)
Theorem C163_cover_or_property_refuted : forall ty n l c l' rest, (forall d, In d l -> comp_wf d /\ ~ is_cover d /\ c_props d = []) -> Z.of_nat (length l) < n ->
  comp_wf c -> is_cover c \/ c_props c <> [] -> read_section ty (print_section n (l ++ c :: l') ++ rest) = None.
Proof. intros ty n l c l' rest H N. apply section_broken; [exact H|left; exact N]. Qed.
Print Assumptions C163_cover_or_property_refuted.

Definition c1 : comp := mkCo "u1" "INVX1" ["n1"; "n2"] (Some "DIST") (Placed 100 (-200) 6) (Some ("gen", "")) (Some 5) None (Some "reg") None (Some (true, (1, 2, 3, 4))) (Some (100, "M1", "M4")) [].
Definition c2 : comp := mkCo "u2" "PAD" [] None (Cover 10 20 0) None None None None None None None [].
Definition c3 : comp := mkCo "u3" "PAD" [] None Unplaced None None None None None None None [("strength", "1", PNumber)].
Example c163_wf : comp_wf c1 /\ ~ is_cover c1 /\ c_props c1 = [] /\ comp_wf c2 /\ is_cover c2 /\ comp_wf c3 /\ c_props c3 <> [].
Proof.
  unfold comp_wf. repeat split; cbn [c1 c2 c3 c_id c_model c_nets c_source c_place c_gen c_eeq c_region c_mask c_rhalo c_props is_cover place_wf]; intros; try discriminate; try tauto; try (unfold is_orient; lia);
  repeat match goal with H : Some _ = Some _ |- _ => inversion H; clear H; subst | H : In _ _ |- _ => cbn [In] in H; repeat destruct H as [<-|H]; try contradiction end; cbn [fst snd]; try (apply sign_name; reflexivity); try (cbn; tauto).
  all: match goal with H : _ = Some _ |- _ => vm_compute in H; inversion H; subst; apply sign_name; reflexivity end.
Qed.
Example c163_kept : read_section (fun _ => PNumber) (print_section 1 [c1] ++ [W "PINS"]) = Some (1, [c1], [W "PINS"]). Proof. vm_compute. reflexivity. Qed.
Example c163_lost : read_section (fun _ => PNumber) (print_section 2 [c1; c2] ++ [W "PINS"]) = None /\ read_section (fun _ => PNumber) (print_section 1 [c3] ++ [W "PINS"]) = None /\ read_section (fun _ => PNumber) (print_section 0 [] ++ [W "PINS"]) = None.
Proof. vm_compute. auto. Qed.
