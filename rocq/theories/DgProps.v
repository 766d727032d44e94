(* What the copies of the groups, the pin properties, the slots and the fills in the routed DEF file say. *)
From Coq Require Import String.
From Verif Require Import Base DwModel DwSpec DwProofs SnModel SnProofs DpProofs DvModel DvSpec DvProofs DnModel DnSpec DnProofs DgModel DgSpec DgProofs.
Local Open Scope string_scope.
Local Open Scope Z_scope.
Local Open Scope list_scope.

Lemma def_group_dash g : exists r, def_group g = W "-" :: r. Proof. eexists. reflexivity. Qed.
Lemma group_dash g : exists r, print_group g = W "-" :: r. Proof. eexists. reflexivity. Qed.
(* C171: the parser reads the groups of a DEF file as they are written there *)
Theorem C171_input_read : forall ty n l rest, (forall g, In g l -> group_wf g /\ forall p, In p (gp_props g) -> declared ty p) ->
  read_sec "GROUPS" (read_group ty) ([W "GROUPS"; Nu n; W ";"] ++ flat_map def_group l ++ W "END" :: W "GROUPS" :: rest) = Some (n, l, rest).
Proof. intros ty n l rest H. apply sec_text; [exact def_group_dash|]. intros g G r. destruct (H g G). apply group_input; assumption. Qed.
Print Assumptions C171_input_read.
(* a group without properties is read back as it was: name, members in order, region *)
Theorem C171_group_kept : forall ty g rest, group_wf g -> gp_props g = [] -> read_group ty (print_group g ++ rest) = Some (g, rest).
Proof. exact group_read. Qed.
Print Assumptions C171_group_kept.
(* a group with a property cannot be read *)
Theorem C171_property_refuted : forall ty g rest, group_wf g -> gp_props g <> [] -> read_group ty (print_group g ++ rest) = None.
Proof. exact group_broken. Qed.
Print Assumptions C171_property_refuted.
Theorem C171_section_kept : forall ty n l rest, (forall g, In g l -> group_wf g /\ gp_props g = []) -> eat "-" rest = None -> eat "END" rest = None ->
  (read_sec "GROUPS" (read_group ty) (print_sec "GROUPS" print_group n l ++ rest) = Some (n, l, rest) <-> Z.of_nat (length l) = Z.max 1 n).
Proof. intros ty n l rest H. apply sec_kept; [exact group_dash|]. intros g G r. destruct (H g G). apply group_read; assumption. Qed.
Print Assumptions C171_section_kept.
Theorem C171_small_count_drops : forall ty n l rest, (forall g, In g l -> group_wf g /\ gp_props g = []) -> 1 <= n < Z.of_nat (length l) ->
  exists r, read_sec "GROUPS" (read_group ty) (print_sec "GROUPS" print_group n l ++ rest) = Some (n, firstn (Z.to_nat n) l, r).
Proof. intros ty n l rest H. apply sec_small; [exact group_dash|]. intros g G r. destruct (H g G). apply group_read; assumption. Qed.
Print Assumptions C171_small_count_drops.
Theorem C171_section_refuted : forall ty n l m rest, (forall g, In g l -> group_wf g /\ gp_props g = []) -> l = [] \/ Z.of_nat (length l) < n ->
  (m = [] /\ eat "-" rest = None /\ eat "END" rest = None) \/ (exists g m', m = g :: m' /\ group_wf g /\ gp_props g <> []) ->
  read_sec "GROUPS" (read_group ty) (print_sec "GROUPS" print_group n (l ++ m) ++ rest) = None.
Proof.
  intros ty n l m rest H N C. assert (G : forall g, In g l -> reads_back print_group (read_group ty) g) by (intros g I r; destruct (H g I); apply group_read; assumption). destruct C as [(-> & E1 & E2)|(g & m' & -> & Wf & P)].
  - rewrite app_nil_r. apply sec_open; try assumption. exact group_dash.
  - apply sec_broken; [exact group_dash|exact G| |exact N]. intros r. apply group_broken; assumption.
Qed.
Print Assumptions C171_section_refuted.

(* limits of SOFT and points of REGION are passed over, however many there are *)
Lemma soft_read l : forall f r, (forall k v, In (k, v) l -> In k ["MAXX"; "MAXY"; "MAXHALFPERIMETER"]) -> stops r -> (length l < f)%nat -> read_soft f (flat_map (fun p => [W (fst p); Nu (snd p)]) l ++ r) = Some r.
Proof.
  induction l as [|[k v] l IH]; intros f r H S L; (destruct f as [|f]; [cbn [length] in L; lia|]); cbn [flat_map app fst snd].
  - destruct r as [|[s|z] r]; [reflexivity| |reflexivity]. cbn [read_soft]. cbn [stops] in S. destruct (existsb (String.eqb s) ["MAXX"; "MAXY"; "MAXHALFPERIMETER"]) eqn:E; [|reflexivity].
    exfalso. apply existsb_exists in E. destruct E as (x & I & X). apply String.eqb_eq in X. subst x. destruct I as [<-|[<-|[<-|[]]]]; discriminate S.
  - cbn [read_soft]. assert (E : existsb (String.eqb k) ["MAXX"; "MAXY"; "MAXHALFPERIMETER"] = true). { apply existsb_exists. exists k. split; [apply (H k v); left; reflexivity|apply String.eqb_refl]. }
    rewrite E. cbn [num]. apply IH; [intros k' v' I; apply (H k' v'); right; exact I|exact S|cbn [length] in L; lia].
Qed.
Lemma soft_len l : (length l <= length (flat_map (fun p : string * Z => [W (fst p); Nu (snd p)]) l))%nat.
Proof. induction l as [|p l IH]; cbn [flat_map length app]; lia. Qed.
Theorem C171_soft_passed_over : forall ty g l rest, group_wf g -> gp_region g = None -> gp_props g = [] -> (forall k v, In (k, v) l -> In k ["MAXX"; "MAXY"; "MAXHALFPERIMETER"]) ->
  forall a b c d, read_group ty ([W "-"; W (gp_name g)] ++ map W (gp_members g) ++ [W "+"; W "SOFT"] ++ flat_map (fun p => [W (fst p); Nu (snd p)]) l ++ [W "+"; W "REGION"] ++ def_point (a, b) ++ def_point (c, d) ++ W ";" :: rest) = Some (g, rest).
Proof.
  intros ty g l rest (N & L & _) R P H a b c d. cbn [app]. rewrite group_head; [|exact N|exact L|reflexivity]. cbn [read_gopts]. rewrite eat_other by discriminate. rewrite eat_same. unfold read_gopt at 1. rewrite eat_same.
  rewrite soft_read; [|exact H|reflexivity|rewrite app_length; pose proof (soft_len l); lia]. cbn [length]. rewrite app_length. cbn [length]. rewrite Nat.add_succ_r. cbn [read_gopts]. rewrite eat_other by discriminate. rewrite eat_same. unfold read_gopt at 1. rewrite eat_other by discriminate. rewrite eat_same.
  change (eat "(" (def_point (a, b) ++ ?r)) with (Some (Nu a :: Nu b :: W ")" :: r)). change (two_pts (def_point (a, b) ++ def_point (c, d) ++ ?r)) with (Some ((a, b, c, d), r)). cbv iota beta.
  rewrite Nat.add_succ_r. cbn [read_gopts]. rewrite eat_same. destruct g as [n ms t ps]. cbn [gp_name gp_members gp_region gp_props] in *. subst t ps. reflexivity.
Qed.
Print Assumptions C171_soft_passed_over.

Lemma def_pprop_dash p : exists r, def_pprop p = W "-" :: r. Proof. eexists. reflexivity. Qed.
Lemma pprop_dash p : exists r, print_pprop p = W "-" :: r. Proof. eexists. reflexivity. Qed.
(* C172: the parser reads the properties of pins as a DEF file gives them *)
Theorem C172_input_read : forall ty n l rest, (forall p, In p l -> pprop_wf p /\ forall q, In q (pp_props p) -> declared ty q) ->
  read_sec "PINPROPERTIES" (read_pprop ty) ([W "PINPROPERTIES"; Nu n; W ";"] ++ flat_map def_pprop l ++ W "END" :: W "PINPROPERTIES" :: rest) = Some (n, l, rest).
Proof. intros ty n l rest H. apply sec_text; [exact def_pprop_dash|]. intros p P r. destruct (H p P). apply pprop_input; assumption. Qed.
Print Assumptions C172_input_read.
(* an entry keeps its pin and component *)
Theorem C172_pin_kept : forall ty p rest, pprop_wf p -> exists r, read_pprop ty (print_pprop p ++ rest) = Some (mkPp (pp_inst p) (pp_pin p) [], r) /\ (pp_props p = [] -> r = rest).
Proof. intros ty p rest Wf. eexists. split; [apply pprop_read; exact Wf|]. intros E. unfold pp_stray. rewrite E. reflexivity. Qed.
Print Assumptions C172_pin_kept.
Lemma pprop_plain ty p rest : pprop_wf p -> pp_props p = [] -> read_pprop ty (print_pprop p ++ rest) = Some (p, rest).
Proof. intros Wf E. rewrite pprop_read by exact Wf. unfold pp_stray. rewrite E. cbn [app]. destruct p as [i n ps]. cbn [pp_inst pp_pin pp_props] in *. subst ps. reflexivity. Qed.
(* a section of entries without properties is read back as it was exactly if its count is right *)
Theorem C172_section_kept : forall ty n l rest, (forall p, In p l -> pprop_wf p /\ pp_props p = []) -> eat "-" rest = None -> eat "END" rest = None ->
  (read_sec "PINPROPERTIES" (read_pprop ty) (print_sec "PINPROPERTIES" print_pprop n l ++ rest) = Some (n, l, rest) <-> Z.of_nat (length l) = Z.max 1 n).
Proof. intros ty n l rest H. apply sec_kept; [exact pprop_dash|]. intros p P r. destruct (H p P). apply pprop_plain; assumption. Qed.
Print Assumptions C172_section_kept.
(* a section whose first entry with a property comes before its count is used up cannot be read *)
Theorem C172_property_refuted : forall ty n l p m rest, (forall q, In q l -> pprop_wf q /\ pp_props q = []) -> pprop_wf p -> pp_props p <> [] -> l = [] \/ Z.of_nat (length l) < n ->
  read_sec "PINPROPERTIES" (read_pprop ty) (print_sec "PINPROPERTIES" print_pprop n (l ++ p :: m) ++ rest) = None.
Proof.
  intros ty n l p m rest H Wf P N.
  assert (G : forall q, In q l -> reads_back print_pprop (read_pprop ty) q) by (intros q I r; destruct (H q I); apply pprop_plain; assumption).
  destruct (sec_step "PINPROPERTIES" print_pprop (read_pprop ty) pprop_dash n l (p :: m) rest G N) as (f & -> & _). cbn [print_counted]. repeat rewrite <- app_assoc. cbn [read_counted].
  match goal with |- context[eat "-" ?z] => assert (E : exists y, eat "-" z = Some y) by (eexists; reflexivity) end. destruct E as (y & ->). rewrite pprop_read by exact Wf.
  unfold pp_stray. destruct (pp_props p) as [|q ps]; [contradiction|]. destruct f as [|f]; [reflexivity|]. cbn [flat_map]. repeat rewrite <- app_assoc. reflexivity.
Qed.
Print Assumptions C172_property_refuted.

(* PIN stands for a pin of the design in capital and in small letters, and no other word does *)
Theorem C172_design_pin : forall ty s n rest, is_name s -> is_name n -> exists p, read_pprop ty (W "-" :: W s :: W n :: W ";" :: rest) = Some (p, rest) /\ pp_pin p = n /\ (pp_inst p = None <-> s = "PIN" \/ s = "pin") /\ (forall i, pp_inst p = Some i -> i = s).
Proof.
  intros ty s n rest S N. exists (set_name s n). split; [unfold read_pprop; rewrite eat_same; rewrite word_name by exact S; rewrite word_name by exact N; cbn [read_ppopts]; rewrite eat_same; reflexivity|]. split; [reflexivity|].
  unfold set_name. cbn [pp_inst]. destruct (String.eqb_spec s "PIN") as [E|E]; [|destruct (String.eqb_spec s "pin") as [F|F]]; cbn [orb]; split; try (intros i X; congruence); split; intros X; try tauto; try discriminate; try reflexivity.
Qed.
Print Assumptions C172_design_pin.

Lemma def_slot_dash s : exists r, def_slot s = W "-" :: r. Proof. eexists. reflexivity. Qed.
Lemma def_fill_dash f : exists r, def_fill f = W "-" :: r. Proof. destruct f; eexists; reflexivity. Qed.
Lemma slot_dash s : exists r, print_slot s = W "-" :: r. Proof. eexists. reflexivity. Qed.
Lemma fill_dash f : exists r, print_fill f = W "-" :: r. Proof. destruct f; eexists; reflexivity. Qed.
(* C173: the parser reads slots and fills as a DEF file gives them *)
Theorem C173_slots_input_read : forall n l rest, (forall s, In s l -> slot_wf s) ->
  read_sec "SLOTS" read_slot ([W "SLOTS"; Nu n; W ";"] ++ flat_map def_slot l ++ W "END" :: W "SLOTS" :: rest) = Some (n, l, rest).
Proof. intros n l rest H. apply sec_text; [exact def_slot_dash|]. intros s I r. apply slot_input. apply H. exact I. Qed.
Print Assumptions C173_slots_input_read.
Theorem C173_fills_input_read : forall n l rest, (forall f, In f l -> fill_wf f) ->
  read_sec "FILLS" read_fill ([W "FILLS"; Nu n; W ";"] ++ flat_map def_fill l ++ W "END" :: W "FILLS" :: rest) = Some (n, l, rest).
Proof. intros n l rest H. apply sec_text; [exact def_fill_dash|]. intros f I r. apply fill_input. apply H. exact I. Qed.
Print Assumptions C173_fills_input_read.
(* but no section of slots or fills can be read once it has been copied *)
Theorem C173_slots_refuted : forall n l rest, (l = [] -> eat "-" rest = None /\ eat "END" rest = None) -> read_sec "SLOTS" read_slot (print_sec "SLOTS" print_slot n l ++ rest) = None.
Proof.
  intros n [|s l] rest E.
  - apply sec_open; [exact slot_dash|intros y []|left; reflexivity|apply E; reflexivity|apply E; reflexivity].
  - apply (sec_broken "SLOTS" print_slot read_slot slot_dash n [] s l rest); [intros y []|intros r; apply slot_broken|left; reflexivity].
Qed.
Print Assumptions C173_slots_refuted.
Theorem C173_fills_refuted : forall n l rest, (l = [] -> eat "-" rest = None /\ eat "END" rest = None) -> read_sec "FILLS" read_fill (print_sec "FILLS" print_fill n l ++ rest) = None.
Proof.
  intros n [|s l] rest E.
  - apply sec_open; [exact fill_dash|intros y []|left; reflexivity|apply E; reflexivity|apply E; reflexivity].
  - apply (sec_broken "FILLS" print_fill read_fill fill_dash n [] s l rest); [intros y []|intros r; apply fill_broken|left; reflexivity].
Qed.
Print Assumptions C173_fills_refuted.
(* a slot or a fill alone cannot be read either, whatever its shapes, masks and points *)
Theorem C173_slot_refuted : forall s rest, read_slot (print_slot s ++ rest) = None. Proof. exact slot_broken. Qed.
Print Assumptions C173_slot_refuted.
Theorem C173_fill_refuted : forall f rest, read_fill (print_fill f ++ rest) = None. Proof. exact fill_broken. Qed.
Print Assumptions C173_fill_refuted.

(* a polygon of fewer than three points is an error *)
Theorem C173_short_polygon : forall n l r rest, (length l < 3)%nat -> read_slot ([W "-"; W "LAYER"; W n; W "POLYGON"] ++ flat_map def_point l ++ W ";" :: r ++ rest) = None.
Proof.
  intros n l r rest L. cbn [app]. unfold read_slot. do 2 rewrite eat_same. destruct (word _) as [[k q]|] eqn:E; [|reflexivity]. cbn [word] in E. destruct (sign n); [discriminate|]. injection E as <- <-.
  unfold read_geom. rewrite eat_other by discriminate. rewrite eat_same. rewrite def_points_read; [|reflexivity|rewrite app_length; pose proof (def_points_len l); lia]. destruct (Z.leb_spec 3 (Z.of_nat (length l))); [lia|reflexivity].
Qed.
Print Assumptions C173_short_polygon.

(* --- cases --- *)
Ltac nm := cbn; unfold is_name; cbn; intuition discriminate.
Definition g1 : group := mkGp "g1" ["u1/*"; "u2"] (Some "r1") [].
Definition g2 : group := mkGp "g2" ["u3"] None [("weight", "3", PInteger)].
Definition ty (_ : string) : ptype := PInteger.
Example c171_wf : group_wf g1 /\ group_wf g2.
Proof.
  split; (split; [nm|split; [|split]]); cbn.
  - intros s [<-|[<-|[]]]; nm.
  - intros s E. injection E as <-. nm.
  - intros p [].
  - intros s [<-|[]]; nm.
  - discriminate.
  - intros p [<-|[]]. split; nm.
Qed.
Example c171_ex : read_group ty (print_group g1 ++ [W "x"]) = Some (g1, [W "x"]) /\ read_group ty (print_group g2 ++ [W "x"]) = None /\ read_group ty (def_group g2 ++ [W "x"]) = Some (g2, [W "x"]).
Proof. split; [|split]; vm_compute; reflexivity. Qed.
Example c171_sec : read_sec "GROUPS" (read_group ty) (print_sec "GROUPS" print_group 1 [g1] ++ [W "x"]) = Some (1, [g1], [W "x"]) /\ read_sec "GROUPS" (read_group ty) (print_sec "GROUPS" print_group 1 [g1; g1] ++ [W "x"]) <> Some (1, [g1; g1], [W "x"]).
Proof. split; vm_compute; [reflexivity|discriminate]. Qed.
(* limits of SOFT and rectangles of REGION are passed over *)
Example c171_soft : read_group ty ([W "-"; W "g"; W "u1"; W "+"; W "SOFT"; W "MAXX"; Nu 9; W "MAXHALFPERIMETER"; Nu 8; W "+"; W "REGION"; W "("; Nu 0; Nu 0; W ")"; W "("; Nu 9; Nu 9; W ")"; W ";"]) = Some (mkGp "g" ["u1"] None [], []). Proof. vm_compute. reflexivity. Qed.
Definition p1 : pprop := mkPp (Some "u1") "A" [("weight", "3", PInteger)].
Definition p2 : pprop := mkPp None "clk" [].
Example c172_wf : pprop_wf p1 /\ pprop_wf p2.
Proof.
  split; (split; [|split; [nm|]]); cbn.
  - intros s E. injection E as <-. split; [nm|split; discriminate].
  - intros p [<-|[]]. split; nm.
  - discriminate.
  - intros p [].
Qed.
Example c172_ex : read_pprop ty (def_pprop p1) = Some (p1, []) /\ read_pprop ty (print_pprop p2) = Some (p2, []) /\
  read_sec "PINPROPERTIES" (read_pprop ty) (print_sec "PINPROPERTIES" print_pprop 2 [p2; p1] ++ [W "x"]) = None /\ read_sec "PINPROPERTIES" (read_pprop ty) (print_sec "PINPROPERTIES" print_pprop 1 [p2] ++ [W "x"]) = Some (1, [p2], [W "x"]).
Proof. repeat split; vm_compute; reflexivity. Qed.
Definition s1 : slot := mkSl "metal1" [(0, 0, 9, 9); (20, 0, 29, 9)] [[(0, 0); (0, 5); (5, 5)]].
Definition f1 : fill := FVia "via1" 13 true [(5, 5); (9, 9)].
Example c173_wf : slot_wf s1 /\ fill_wf (FLayer 2 true s1) /\ fill_wf f1.
Proof. assert (S1 : slot_wf s1) by (split; [nm|split; [left; discriminate|intros l [<-|[]]; cbn; lia]]). split; [exact S1|split; [exact S1|split; [nm|discriminate]]]. Qed.
Example c173_ex : read_slot (def_slot s1) = Some (s1, []) /\ read_slot (print_slot s1) = None /\ read_fill (def_fill f1) = Some (f1, []) /\ read_fill (print_fill f1) = None /\ read_fill (def_fill (FLayer 2 true s1)) = Some (FLayer 2 true s1, []).
Proof. repeat split; vm_compute; reflexivity. Qed.
(* the print of a slot: its numbers are there, the parentheses are not *)
Example c173_text : print_slot (mkSl "m1" [(1, 2, 3, 4)] [[(5, 6); (7, 8); (9, 0)]]) = [W "-"; W "LAYER"; W "m1"; W "RECT"; Nu 1; Nu 2; Nu 3; Nu 4; W "POLYGON"; Nu 5; Nu 6; Nu 7; Nu 8; Nu 9; Nu 0; W ";"; W ";"]. Proof. reflexivity. Qed.
