(* What the copy of the pins in the routed DEF file says. *)
From Coq Require Import String.
From Verif Require Import Base DwModel DwSpec DwProofs SnModel SnSpec SnProofs SnProofs2 DpModel DpSpec DpProofs.
Local Open Scope string_scope.
Local Open Scope Z_scope.
Local Open Scope list_scope.

Lemma not_open p : last_placed p -> d_place p <> DNone -> ports_open false (d_ports p) = false.
Proof. intros [L|[L|(l & q & E & N)]] P; [contradiction|rewrite L; reflexivity|rewrite E, ports_open_last]. destruct (q_place q); [contradiction|reflexivity..]. Qed.
(* C165: name, net, direction, use, sensitivities, layers, ports with polygons, vias and placement, placement and SPECIAL of a pin are read back as they were *)
Theorem C165_pin_kept : forall p rest, pin_wf p -> ~ broken p -> faithful p -> read_pin (print_pin p ++ rest) = Some (p, rest).
Proof.
  intros p rest Wf NB (V & L). rewrite pin_read by assumption. f_equal. f_equal.
  assert (E : d_polys p = []) by (destruct (d_polys p) eqn:X; [reflexivity|elim NB; left; rewrite X; discriminate]).
  assert (V' : d_vias p = []). { destruct V as [V|V]; [|exact V]. destruct (d_vias p) eqn:Y; [reflexivity|]. elim NB. right; left. rewrite Y. split; [exact V|discriminate]. }
  assert (A : d_ant p = []) by (destruct (d_ant p) eqn:X; [reflexivity|elim NB; right; right; right; rewrite X; discriminate]).
  pose proof (not_open p L) as O. unfold got. destruct p as [a b c d e f g h i j k l m]. cbn [d_name d_net d_dir d_use d_supply d_ground d_layers d_polys d_vias d_ports d_place d_special d_ant] in *. subst h i m.
  destruct k; [destruct l; reflexivity|..]; (rewrite O by discriminate; destruct l; reflexivity).
Qed.
Print Assumptions C165_pin_kept.
(* VIA statements of a pin without layers and polygons are dropped *)
Theorem C165_vias_dropped : forall p p' rest, pin_wf p -> ~ broken p -> last_placed p ->
  p' = mkDp (d_name p) (d_net p) (d_dir p) (d_use p) (d_supply p) (d_ground p) (d_layers p) (d_polys p) [] (d_ports p) (d_place p) (d_special p) (d_ant p) -> read_pin (print_pin p ++ rest) = Some (p', rest).
Proof.
  intros p p' rest Wf NB L ->. rewrite pin_read by assumption. f_equal. f_equal.
  assert (E : d_polys p = []) by (destruct (d_polys p) eqn:X; [reflexivity|elim NB; left; rewrite X; discriminate]).
  assert (A : d_ant p = []) by (destruct (d_ant p) eqn:X; [reflexivity|elim NB; right; right; right; rewrite X; discriminate]).
  pose proof (not_open p L) as O. unfold got. destruct p as [a b c d e f g h i j k l m]. cbn [d_name d_net d_dir d_use d_supply d_ground d_layers d_polys d_vias d_ports d_place d_special d_ant] in *. subst h m.
  destruct k; [destruct l; reflexivity|..]; (rewrite O by discriminate; destruct l; reflexivity).
Qed.
Print Assumptions C165_vias_dropped.
(* the placement of a pin whose last port has none is read back as the placement of that port *)
Theorem C165_placement_moved : forall p l q p' rest, pin_wf p -> ~ broken p -> d_vias p = [] -> d_ports p = l ++ [q] -> q_place q = DNone -> d_place p <> DNone ->
  p' = mkDp (d_name p) (d_net p) (d_dir p) (d_use p) (d_supply p) (d_ground p) (d_layers p) (d_polys p) [] (l ++ [mkPort (q_layers q) (q_polys q) (q_vias q) (d_place p)]) DNone (d_special p) (d_ant p) ->
  read_pin (print_pin p ++ rest) = Some (p', rest) /\ p' <> p.
Proof.
  intros p l q p' rest Wf NB V EP N P ->. rewrite pin_read by assumption.
  assert (E : d_polys p = []) by (destruct (d_polys p) eqn:X; [reflexivity|elim NB; left; rewrite X; discriminate]).
  assert (A : d_ant p = []) by (destruct (d_ant p) eqn:X; [reflexivity|elim NB; right; right; right; rewrite X; discriminate]).
  rewrite EP, ports_open_last, N. cbn [still_open]. destruct p as [a b c d e f g h i j k s m]. cbn [d_name d_net d_dir d_use d_supply d_ground d_layers d_polys d_vias d_ports d_place d_special d_ant] in *. subst h i j m. split.
  - f_equal. f_equal. unfold got. cbn [d_name d_net d_dir d_use d_supply d_ground d_layers d_polys d_vias d_ports d_place d_special d_ant].
    destruct k; [contradiction|..]; unfold set_dplace, with_ports; cbn [d_name d_net d_dir d_use d_supply d_ground d_layers d_polys d_vias d_ports d_place d_special d_ant]; rewrite upd_last_app; destruct s; reflexivity.
  - intros X. injection X. intros. congruence.
Qed.
Print Assumptions C165_placement_moved.
(* a pin with a polygon, a layer and a via, a port with a layer or an antenna statement cannot be read at all *)
Theorem C165_shapes_refuted : forall p rest, pin_wf p -> broken p -> read_pin (print_pin p ++ rest) = None.
Proof. exact pin_broken. Qed.
Print Assumptions C165_shapes_refuted.
(* the whole section, whatever the count it declares *)
Lemma pins_step l : forall f r, (forall p, In p l -> pin_wf p /\ ~ broken p /\ faithful p) ->
  read_pinlist (length l + f) (flat_map print_pin l ++ r) = match read_pinlist f r with Some (l', r') => Some (l ++ l', r') | None => None end.
Proof.
  induction l as [|p l IH]; intros f r H; cbn [length Nat.add flat_map app]. { destruct (read_pinlist f r) as [[? ?]|]; reflexivity. }
  rewrite <- app_assoc. cbn [read_pinlist]. assert (E : exists x, eat "-" (print_pin p ++ flat_map print_pin l ++ r) = Some x) by (eexists; reflexivity). destruct E as (x & ->). destruct (H p (or_introl eq_refl)) as (G1 & G2 & G3). rewrite C165_pin_kept by assumption. rewrite IH by (intros; apply H; right; assumption). destruct (read_pinlist f r) as [[? ?]|]; reflexivity.
Qed.
Lemma pins_len l : (length l <= length (flat_map print_pin l))%nat.
Proof. induction l as [|p l IH]; cbn [flat_map length]; [lia|]. rewrite app_length. assert (1 <= length (print_pin p))%nat by (unfold print_pin; cbn [app length]; lia). lia. Qed.
Theorem C165_section_kept : forall k l rest, (forall p, In p l -> pin_wf p /\ ~ broken p /\ faithful p) -> read_pins (print_pins k l ++ rest) = Some (k, l, rest).
Proof.
  intros k l rest H. unfold read_pins, print_pins. repeat rewrite <- app_assoc. cbn [app]. rewrite eat_same. cbn [num]. rewrite eat_same.
  set (ts := flat_map print_pin l ++ _). assert (L : exists f, S (length ts) = (length l + S f)%nat). { subst ts. rewrite app_length. pose proof (pins_len l). cbn [length]. exists (length (flat_map print_pin l) - length l + S (S (length rest)))%nat. lia. }
  destruct L as (f & ->). subst ts. rewrite pins_step by exact H. cbn. rewrite app_nil_r. reflexivity.
Qed.
Print Assumptions C165_section_kept.
(* one broken pin loses the section *)
Theorem C165_section_refuted : forall k l p m rest, (forall x, In x l -> pin_wf x /\ ~ broken x /\ faithful x) -> pin_wf p -> broken p -> read_pins (print_pins k (l ++ p :: m) ++ rest) = None.
Proof.
  intros k l p m rest H Wf B. unfold read_pins, print_pins. repeat rewrite <- app_assoc. cbn [app]. rewrite eat_same. cbn [num]. rewrite eat_same. rewrite flat_map_app. repeat rewrite <- app_assoc.
  match goal with |- context[flat_map print_pin l ++ ?x] => set (tl := x) end. set (ts := flat_map print_pin l ++ tl). assert (L : exists f, S (length ts) = (length l + S f)%nat). { subst ts. rewrite app_length. pose proof (pins_len l). exists (length (flat_map print_pin l) - length l + length tl)%nat. lia. }
  destruct L as (f & ->). subst ts. rewrite pins_step by exact H. subst tl. cbn [flat_map]. repeat rewrite <- app_assoc. cbn [read_pinlist].
  match goal with |- context[eat "-" ?x] => assert (E : exists y, eat "-" x = Some y) by (eexists; reflexivity) end. destruct E as (y & ->). rewrite pin_broken by assumption. reflexivity.
Qed.
Print Assumptions C165_section_refuted.

Definition m1 (a b c d : Z) : dlayer := (("metal1", Some 1, Spc 200), (a, b, c, d)).
Definition pa : dpin := mkDp "clk" "clk" (Some "INPUT") (Some "CLOCK") (Some "VDD") None [m1 0 0 100 100; (("metal2", None, Drw 50), (0, 0, 10, 10))] [] [] 
  [mkPort [] [(("metal3", None, NoRule), [(0, 0); (10, 0); (10, 10)])] [("via1", Some 12, (5, 5))] (DFixed 0 500 0); mkPort [] [] [] (DPlaced 10 20 4)] (DPlaced 0 0 0) true [].
Definition pb : dpin := mkDp "a[0]" "n1" None None None None [m1 (-5) 0 5 10] [] [] [] (DFixed 1000 0 2) false [].
Example c165_kept : read_pins (print_pins 2 [pa; pb] ++ [W "NETS"]) = Some (2, [pa; pb], [W "NETS"]). Proof. vm_compute. reflexivity. Qed.
Ltac nm := apply sign_name; reflexivity.
Example c165_wf : (pin_wf pa /\ ~ broken pa /\ faithful pa) /\ (pin_wf pb /\ ~ broken pb /\ faithful pb).
Proof.
  split; (split; [|split]).
  - split; [nm|]. split; [nm|]. split; [intros s E; injection E as <-; nm|]. split; [intros s E; injection E as <-; cbn; tauto|]. split; [intros s E; injection E as <-; nm|]. split; [intros s E; discriminate|].
    split; [intros l [<-|[<-|[]]]; nm|]. split; [intros x []|]. split; [intros x []|]. split; [|split; [cbn; unfold is_orient; lia|intros x []]].
    intros q [<-|[<-|[]]]; (split; [intros x []|]); (split; [|split; [|cbn; unfold is_orient; lia]]).
    + intros x [<-|[]]. split; [nm|cbn; lia].
    + intros x [<-|[]]. split; [nm|intros z E; injection E as <-; lia].
    + intros x [].
    + intros x [].
  - intros [X|[[_ X]|[(q & [<-|[<-|[]]] & X)|X]]]; apply X; reflexivity.
  - split; [left; discriminate|]. right; right. exists [mkPort [] [(("metal3", None, NoRule), [(0, 0); (10, 0); (10, 10)])] [("via1", Some 12, (5, 5))] (DFixed 0 500 0)], (mkPort [] [] [] (DPlaced 10 20 4)). split; [reflexivity|discriminate].
  - split; [nm|]. split; [nm|]. do 4 (split; [intros s E; discriminate|]). split; [intros l [<-|[]]; nm|]. split; [intros x []|]. split; [intros x []|]. split; [intros x []|]. split; [cbn; unfold is_orient; lia|intros x []].
  - intros [X|[[_ X]|[(q & [] & X)|X]]]; apply X; reflexivity.
  - split; [left; discriminate|]. right; left. reflexivity.
Qed.
(* each way of losing a pin *)
Definition bare (ls : list dlayer) ps vs qs pl an : dpin := mkDp "a" "a" None None None None ls ps vs qs pl false an.
Example c165_polygon : read_pin (print_pin (bare [] [(("metal1", None, NoRule), [(0, 0); (9, 0); (9, 9)])] [] [] DNone [])) = None. Proof. vm_compute. reflexivity. Qed.
Example c165_via : read_pin (print_pin (bare [m1 0 0 9 9] [] [("via1", None, (0, 0))] [] DNone [])) = None. Proof. vm_compute. reflexivity. Qed.
Example c165_port : read_pin (print_pin (bare [] [] [] [mkPort [m1 0 0 9 9] [] [] (DPlaced 0 0 0)] DNone [])) = None. Proof. vm_compute. reflexivity. Qed.
Example c165_antenna : read_pin (print_pin (bare [m1 0 0 9 9] [] [] [] DNone [("ANTENNAPINGATEAREA", 4, Some "metal1")])) = None. Proof. vm_compute. reflexivity. Qed.
Example c165_moved : read_pin (print_pin (bare [] [] [] [mkPort [] [] [] DNone] (DPlaced 1 2 0) [])) = Some (bare [] [] [] [mkPort [] [] [] (DPlaced 1 2 0)] DNone [], []). Proof. vm_compute. reflexivity. Qed.
