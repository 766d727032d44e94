(* What the copy of the special nets in the routed DEF file says. *)
From Coq Require Import String.
From Verif Require Import Base DwModel DwSpec DwProofs SnModel SnSpec SnProofs SnProofs2.
Local Open Scope string_scope.
Local Open Scope Z_scope.
Local Open Scope list_scope.

(* C164: connections, wires (status, layers, widths, shapes, styles, points, masks, vias with rotation and array) and options of a special net are read back as they were *)
Theorem C164_net_kept : forall n rest, snet_wf n -> no_synthesized n -> all_drawn n -> no_shapes n -> undropped n -> read_snet (print_snet n ++ rest) = Some (n, rest).
Proof. intros n rest H1 H2 H3 H4 (H5 & H6). rewrite snet_read by assumption. unfold drop. rewrite <- H5, <- H6. destruct n; reflexivity. Qed.
Print Assumptions C164_net_kept.
(* VIA statements and the style of a net are dropped *)
Theorem C164_vias_dropped : forall n rest, snet_wf n -> no_synthesized n -> all_drawn n -> no_shapes n ->
  read_snet (print_snet n ++ rest) = Some (drop n, rest) /\ (drop n = n <-> undropped n).
Proof.
  intros n rest H1 H2 H3 H4. split; [apply snet_read; assumption|]. unfold undropped, drop. destruct n. cbn. split; [intros E; injection E; intros; subst; split; reflexivity|intros [-> ->]; reflexivity].
Qed.
Print Assumptions C164_vias_dropped.
Lemma strip_items l : (forall m a b c d, ~ In (IRect (Some m) a b c d) l) -> flat_map print_item (filter drawnb l) = flat_map print_item l.
Proof.
  induction l as [|i l IH]; intros H; [reflexivity|]. assert (IH' : flat_map print_item (filter drawnb l) = flat_map print_item l) by (apply IH; intros m a b c d X; apply (H m a b c d); right; exact X).
  destruct i as [m n o a|m p|m a b c d|x y]; cbn [filter drawnb flat_map]; rewrite IH'; try reflexivity. destruct m as [m|]; [elim (H m a b c d); left; reflexivity|]. reflexivity.
Qed.
Lemma strip_path_print p : (forall m a b c d, ~ In (IRect (Some m) a b c d) (p_items p)) -> print_path (strip_path p) = print_path p.
Proof. intros H. unfold print_path, strip_path. cbn [p_layer p_width p_opts p_first p_items]. rewrite strip_items by exact H. reflexivity. Qed.
Lemma strip_paths_print l : (forall p m a b c d, In p l -> ~ In (IRect (Some m) a b c d) (p_items p)) -> print_paths (map strip_path l) = print_paths l.
Proof.
  intros H. destruct l as [|p l]; [reflexivity|]. cbn [map print_paths]. rewrite strip_path_print by (intros; apply H; left; reflexivity). f_equal. assert (H' : forall p m a b c d, In p l -> ~ In (IRect (Some m) a b c d) (p_items p)) by (intros q m a b c d Q; apply H; right; exact Q). clear H.
  induction l as [|q l IH]; [reflexivity|]. cbn [map flat_map]. rewrite strip_path_print by (intros; apply H'; left; reflexivity). rewrite IH; [reflexivity|]. intros r m a b c d R. apply H'. right. exact R.
Qed.
Lemma strip_wires_print l : (forall w p m a b c d, In w l -> In p (w_paths w) -> ~ In (IRect (Some m) a b c d) (p_items p)) -> flat_map print_wire (map strip_wire l) = flat_map print_wire l.
Proof.
  induction l as [|w l IH]; intros H; [reflexivity|]. cbn [map flat_map]. rewrite IH by (intros w' p m a b c d Q; apply H; right; exact Q). f_equal.
  unfold print_wire, strip_wire. cbn [w_status w_paths]. rewrite strip_paths_print; [reflexivity|]. intros p m a b c d. apply H. left. reflexivity.
Qed.
Lemma strip_print n : no_masked_rect n -> print_snet (strip n) = print_snet n.
Proof.
  intros H. rewrite !print_snet_eq. cbn [strip n_name n_conns n_wires n_polys n_rects n_bump n_weight n_source n_pattern n_original n_use]. rewrite strip_wires_print by exact H. reflexivity.
Qed.
(* virtual points and rectangles inside a wire are dropped: what was not connected is read back as connected *)
Theorem C164_virtual_dropped : forall n rest, snet_wf n -> no_synthesized n -> no_masked_rect n -> no_shapes n -> read_snet (print_snet n ++ rest) = Some (drop (strip n), rest).
Proof.
  intros n rest Wf SY NM NS. rewrite <- strip_print by exact NM. apply snet_read; try assumption.
  - destruct Wf as (W1 & W2 & W3 & W4 & W5). refine (conj W1 (conj W2 (conj W3 (conj _ W5)))). cbn [strip n_wires].
    intros w X. apply in_map_iff in X. destruct X as (w' & <- & X). destruct (W4 w' X) as (P1 & P2 & P3). split; [|split; [|exact P3]].
    + cbn. intros E. apply P1. destruct (w_paths w'); [reflexivity|discriminate].
    + intros p H. cbn in H. apply in_map_iff in H. destruct H as (q & <- & Q). destruct (P2 q Q) as (A & B & C). split; [exact A|]. split; [exact B|]. cbn. intros i I. apply filter_In in I. apply C. apply I.
  - intros w p i Iw Ip Ii. cbn in Iw. apply in_map_iff in Iw. destruct Iw as (w' & <- & Iw). cbn in Ip. apply in_map_iff in Ip. destruct Ip as (q & <- & Iq). cbn in Ii. apply filter_In in Ii. destruct Ii as [_ Ii]. destruct i; cbn in *; try exact I; discriminate.
Qed.
Print Assumptions C164_virtual_dropped.
(* a RECT or POLYGON statement, printed without parentheses, or a synthesized pin makes the net unreadable *)
Theorem C164_rect_polygon_refuted : forall n rest, snet_wf n -> no_synthesized n -> all_drawn n -> ~ no_shapes n -> read_snet (print_snet n ++ rest) = None.
Proof. exact snet_shapes_lost. Qed.
Print Assumptions C164_rect_polygon_refuted.
Theorem C164_synthesized_refuted : forall n rest, snet_wf n -> ~ no_synthesized n -> read_snet (print_snet n ++ rest) = None.
Proof. exact snet_synth_lost. Qed.
Print Assumptions C164_synthesized_refuted.
(* the whole section, whatever the count it declares *)
Lemma nets_step l : forall f r, (forall n, In n l -> snet_wf n /\ no_synthesized n /\ all_drawn n /\ no_shapes n) ->
  read_nets (length l + f) (flat_map print_snet l ++ r) = match read_nets f r with Some (l', r') => Some (map drop l ++ l', r') | None => None end.
Proof.
  induction l as [|n l IH]; intros f r H; cbn [length Nat.add flat_map app map]. { destruct (read_nets f r) as [[? ?]|]; reflexivity. }
  rewrite <- app_assoc. cbn [read_nets]. assert (E : exists x, eat "-" (print_snet n ++ flat_map print_snet l ++ r) = Some x) by (eexists; reflexivity). destruct E as (x & ->). destruct (H n (or_introl eq_refl)) as (G1 & G2 & G3 & G4). rewrite snet_read by assumption. rewrite IH by (intros; apply H; right; assumption). destruct (read_nets f r) as [[? ?]|]; reflexivity.
Qed.
Lemma nets_len l : (length l <= length (flat_map print_snet l))%nat.
Proof. induction l as [|n l IH]; cbn [flat_map length]; [lia|]. rewrite app_length. assert (1 <= length (print_snet n))%nat by (rewrite print_snet_eq; cbn [app length]; lia). lia. Qed.
Theorem C164_section_kept : forall k l rest, (forall n, In n l -> snet_wf n /\ no_synthesized n /\ all_drawn n /\ no_shapes n /\ undropped n) -> read_snets (print_snets k l ++ rest) = Some (k, l, rest).
Proof.
  intros k l rest H. unfold read_snets, print_snets. repeat rewrite <- app_assoc. cbn [app]. rewrite eat_same. cbn [num]. rewrite eat_same.
  set (ts := flat_map print_snet l ++ _). assert (L : exists f, S (length ts) = (length l + S f)%nat). { subst ts. rewrite app_length. pose proof (nets_len l). cbn [length]. exists (length (flat_map print_snet l) - length l + S (S (length rest)))%nat. lia. }
  destruct L as (f & ->). subst ts. rewrite nets_step by (intros n I; destruct (H n I) as (A & B & C & D & _); exact (conj A (conj B (conj C D)))). cbn. rewrite app_nil_r.
  assert (E : map drop l = l). { clear -H. induction l as [|n l IH]; [reflexivity|]. cbn [map]. rewrite IH by (intros; apply H; right; assumption). f_equal. destruct (H n (or_introl eq_refl)) as (_ & _ & _ & _ & A & B). unfold drop. rewrite <- A, <- B. destruct n; reflexivity. }
  rewrite E. reflexivity.
Qed.
Print Assumptions C164_section_kept.

Definition via1 : item := IVia (Some 13) "via1_2" (Some 4) (Some (2, 3, 100, 200)).
Definition p1 : path := mkPath "metal1" 400 [OShape "STRIPE"; OStyle 1] (Plain 0 0) [IPt (Some 2) (Flush 0 1000 50); via1; IPt None (Plain 500 1000)].
Definition p2 : path := mkPath "metal2" 0 [] (Plain 500 1000) [IVia None "via1_2" None None].
Definition vdd : snet := mkSn "VDD" [("*", "VDD", false); ("PIN", "VDD", false)] [mkWire SRouted [p1; p2]; mkWire (SShield "clk") [p2]] [] [] [] true (Some 3) (Some "USER") (Some "TRUNK") (Some "V") (Some "POWER") None.
Example c164_kept : read_snets (print_snets 1 [vdd] ++ [W "NETS"]) = Some (1, [vdd], [W "NETS"]). Proof. vm_compute. reflexivity. Qed.
Ltac nm := apply sign_name; reflexivity.
Ltac notin := intros X; cbn in X; repeat (destruct X as [X|X]; [discriminate X|]); exact X.
Lemma p1_wf : path_wf p1.
Proof.
  split; [nm|]. split; [intros o [<-|[<-|[]]]; cbn; tauto|]. intros i [<-|[<-|[<-|[]]]]; try exact I. cbn. split; [split; [nm|notin]|]. split; intros x E; injection E; intros <-; [unfold is_orient; lia|lia].
Qed.
Lemma p2_wf : path_wf p2.
Proof. split; [nm|]. split; [intros o []|]. intros i [<-|[]]. cbn. split; [split; [nm|notin]|]. split; intros x E; discriminate. Qed.
Example c164_wf : snet_wf vdd /\ no_synthesized vdd /\ all_drawn vdd /\ no_shapes vdd /\ undropped vdd.
Proof.
  split; [|split; [|split; [|split; [split; reflexivity|split; reflexivity]]]].
  - split; [nm|]. split; [discriminate|]. split. { intros c [<-|[<-|[]]]; split; nm. }
    split. { intros w [<-|[<-|[]]]; (split; [discriminate|split; [|try exact I; nm]]); intros p P; cbn in P; repeat destruct P as [<-|P]; try contradiction; first [apply p1_wf|apply p2_wf]. }
    split; [intros p []|]. split; [intros p []|]. split; [|split; [|split]]; intros s E; injection E as <-; first [nm|cbn; tauto].
  - intros c [<-|[<-|[]]]; reflexivity.
  - intros w p i [<-|[<-|[]]] B C; cbn in B; repeat destruct B as [<-|B]; try contradiction; destruct i; try exact I; cbn in C; intuition discriminate.
Qed.
(* a virtual connection becomes a piece of wire *)
Theorem C164_virtual_refuted : exists n m, n_wires n = [mkWire SRouted [mkPath "metal2" 400 [] (Plain 0 0) [IVirtual 5000 0; IPt None (Plain 6000 0)]]] /\
  n_wires m = [mkWire SRouted [mkPath "metal2" 400 [] (Plain 0 0) [IPt None (Plain 6000 0)]]] /\ read_snet (print_snet n) = Some (m, []).
Proof.
  exists (mkSn "VDD" [] [mkWire SRouted [mkPath "metal2" 400 [] (Plain 0 0) [IVirtual 5000 0; IPt None (Plain 6000 0)]]] [] [] [] false None None None None None None).
  exists (mkSn "VDD" [] [mkWire SRouted [mkPath "metal2" 400 [] (Plain 0 0) [IPt None (Plain 6000 0)]]] [] [] [] false None None None None None None). vm_compute. repeat split.
Qed.
Print Assumptions C164_virtual_refuted.
(* the mask of a dropped rectangle is put on the point after it *)
Theorem C164_rect_mask_refuted : exists n m, n_wires n = [mkWire SRouted [mkPath "metal2" 400 [] (Plain 0 0) [IRect (Some 2) 0 0 10 10; IPt None (Plain 6000 0)]]] /\
  n_wires m = [mkWire SRouted [mkPath "metal2" 400 [] (Plain 0 0) [IPt (Some 2) (Plain 6000 0)]]] /\ read_snet (print_snet n) = Some (m, []).
Proof.
  exists (mkSn "VDD" [] [mkWire SRouted [mkPath "metal2" 400 [] (Plain 0 0) [IRect (Some 2) 0 0 10 10; IPt None (Plain 6000 0)]]] [] [] [] false None None None None None None).
  exists (mkSn "VDD" [] [mkWire SRouted [mkPath "metal2" 400 [] (Plain 0 0) [IPt (Some 2) (Plain 6000 0)]]] [] [] [] false None None None None None None). vm_compute. repeat split.
Qed.
Print Assumptions C164_rect_mask_refuted.
Definition vss : snet := mkSn "VSS" [] [] [] [(0, "metal1", (0, 0, 100, 100))] [] false None None None None (Some "GROUND") None.
Example c164_rect_lost : read_snet (print_snet vss) = None /\ ~ no_shapes vss. Proof. split; [vm_compute; reflexivity|]. intros [_ E]. discriminate. Qed.
