From Coq Require Import String.
From Verif Require Import Base DwModel DwSpec DwProofs DwProofs2 SnModel SnSpec SnProofs SnProofs2 DpModel DpSpec.
Local Open Scope string_scope.
Local Open Scope Z_scope.
Local Open Scope list_scope.

(* behind a shape head comes a number or a parenthesis *)
Definition shape_next (ts : list tok) : Prop := match ts with Nu _ :: _ => True | W s :: _ => s = "(" | [] => False end.
Lemma head_read h r : head_wf h -> shape_next r -> read_head (print_head h ++ r) = Some (h, r).
Proof.
  intros H N. destruct h as [[s m] q]. unfold head_wf in H. cbn [fst snd] in H. unfold read_head, print_head. repeat rewrite <- app_assoc. cbn [app]. rewrite word_name by exact H.
  assert (E : eat "MASK" r = None /\ eat "SPACING" r = None /\ eat "DESIGNRULEWIDTH" r = None). { destruct r as [|[x|z] r]; [contradiction| |repeat split; reflexivity]. cbn in N. subst x. repeat split; reflexivity. }
  destruct E as (E1 & E2 & E3). destruct m as [m|]; cbn [print_mask opt app]; unfold read_mask_opt.
  - rewrite eat_same. cbn [num]. destruct q; cbn [print_rule app]; unfold read_rule; [rewrite E2, E3|rewrite eat_same|rewrite eat_other by discriminate; rewrite eat_same]; reflexivity.
  - destruct q; cbn [print_rule app]; unfold read_rule; [rewrite E1, E2, E3|rewrite eat_other by discriminate; rewrite eat_same|do 2 (rewrite eat_other by discriminate); rewrite eat_same]; reflexivity.
Qed.
Lemma pts_read l : forall f r, eat "(" r = None -> (length l < f)%nat -> read_pts f (flat_map (fun q => [W "("; Nu (fst q); Nu (snd q); W ")"]) l ++ r) = Some (l, r).
Proof.
  induction l as [|[x y] l IH]; intros f r E L; (destruct f as [|f]; [cbn in L; lia|]).
  - cbn [flat_map app read_pts]. rewrite E. reflexivity.
  - cbn [flat_map fst snd app read_pts]. rewrite eat_same. change (pt (W "(" :: Nu x :: Nu y :: W ")" :: ?r)) with (Some (x, y, r)). cbv iota beta. rewrite IH; [reflexivity|exact E|cbn [length] in L; lia].
Qed.
Lemma pts_len (l : list (Z * Z)) : (length l <= length (flat_map (fun q => [W "("; Nu (fst q); Nu (snd q); W ")"]) l))%nat.
Proof. induction l as [|[x y] l IH]; cbn [flat_map length app]; lia. Qed.
Lemma upd_last_app f l q : upd_last f (l ++ [q]) = l ++ [f q].
Proof. unfold upd_last. rewrite rev_app_distr. cbn [rev app]. rewrite rev_involutive. reflexivity. Qed.

(* no further point follows *)
Definition stopp (ts : list tok) : Prop := eat "(" ts = None.
Section T.
Variable Q : dpin -> bool -> list tok -> Prop.
Hypothesis Q_step : forall p h p' h' b rest, read_pinopt p h (b ++ rest) = Some (p', h', rest) -> Q p' h' rest -> Q p h ((W "+" :: b) ++ rest).

Definition g_dir (o : option string) := opt (fun s => [W "+"; W "DIRECTION"; W s]) o.
Definition g_use (o : option string) := opt (fun s => [W "+"; W "USE"; W s]) o.
Definition g_supply (o : option string) := opt (fun s => [W "+"; W "SUPPLYSENSITIVITY"; W s]) o.
Definition g_ground (o : option string) := opt (fun s => [W "+"; W "GROUNDSENSITIVITY"; W s]) o.
Lemma r_dir a b o c d e f g h i j k l hp rest : (forall s, o = Some s -> is_name s) -> Q (mkDp a b o c d e f g h i j k l) hp rest -> Q (mkDp a b None c d e f g h i j k l) hp (g_dir o ++ rest).
Proof.
  intros H R. destruct o as [s|]; [|exact R]. apply (Q_step _ _ (mkDp a b (Some s) c d e f g h i j k l) hp [W "DIRECTION"; W s]); [|exact R].
  change (read_pinopt ?p hp ([W "DIRECTION"; W s] ++ rest)) with (match word (W s :: rest) with Some (x, y) => Some (set_dir x p, hp, y) | None => None end). rewrite word_name by (apply H; reflexivity). reflexivity.
Qed.
Lemma r_use a b o c d e f g h i j k l hp rest : (forall s, o = Some s -> In s uses) -> Q (mkDp a b c o d e f g h i j k l) hp rest -> Q (mkDp a b c None d e f g h i j k l) hp (g_use o ++ rest).
Proof.
  intros H R. destruct o as [s|]; [|exact R]. apply (Q_step _ _ (mkDp a b c (Some s) d e f g h i j k l) hp [W "USE"; W s]); [|exact R].
  change (read_pinopt ?p hp ([W "USE"; W s] ++ rest)) with (match one_of uses (W s :: rest) with Some (x, y) => Some (set_duse x p, hp, y) | None => None end). rewrite one_of_read; [reflexivity|apply H; reflexivity|exact uses_names].
Qed.
Lemma r_supply a b o c d e f g h i j k l hp rest : (forall s, o = Some s -> is_name s) -> Q (mkDp a b c d o e f g h i j k l) hp rest -> Q (mkDp a b c d None e f g h i j k l) hp (g_supply o ++ rest).
Proof.
  intros H R. destruct o as [s|]; [|exact R]. apply (Q_step _ _ (mkDp a b c d (Some s) e f g h i j k l) hp [W "SUPPLYSENSITIVITY"; W s]); [|exact R].
  change (read_pinopt ?p hp ([W "SUPPLYSENSITIVITY"; W s] ++ rest)) with (match word (W s :: rest) with Some (x, y) => Some (set_supply x p, hp, y) | None => None end). rewrite word_name by (apply H; reflexivity). reflexivity.
Qed.
Lemma r_ground a b o c d e f g h i j k l hp rest : (forall s, o = Some s -> is_name s) -> Q (mkDp a b c d e o f g h i j k l) hp rest -> Q (mkDp a b c d e None f g h i j k l) hp (g_ground o ++ rest).
Proof.
  intros H R. destruct o as [s|]; [|exact R]. apply (Q_step _ _ (mkDp a b c d e (Some s) f g h i j k l) hp [W "GROUNDSENSITIVITY"; W s]); [|exact R].
  change (read_pinopt ?p hp ([W "GROUNDSENSITIVITY"; W s] ++ rest)) with (match word (W s :: rest) with Some (x, y) => Some (set_ground x p, hp, y) | None => None end). rewrite word_name by (apply H; reflexivity). reflexivity.
Qed.
Lemma r_layers ls : forall a b c d e o f g h i j k l rest, (forall x, In x ls -> head_wf (fst x)) -> Q (mkDp a b c d e o (f ++ ls) g h i j k l) false rest -> Q (mkDp a b c d e o f g h i j k l) false (flat_map print_dlayer ls ++ rest).
Proof.
  induction ls as [|[hd [[[x1 y1] x2] y2]] ls IH]; intros a b c d e o f g h i j k l rest H R. { rewrite app_nil_r in R. exact R. }
  cbn [flat_map]. rewrite <- app_assoc. pose proof (H _ (or_introl eq_refl)) as H0. cbn [fst] in H0.
  unfold print_dlayer at 1. cbn [app]. 
  change (W "+" :: W "LAYER" :: ?r ++ ?s) with ((W "+" :: (W "LAYER" :: r)) ++ s).
  apply (Q_step _ _ (mkDp a b c d e o (f ++ [(hd, (x1, y1, x2, y2))]) g h i j k l) false).
  - cbn [app]. rewrite <- app_assoc. change (read_pinopt ?p false (W "LAYER" :: ?rr)) with (match read_head rr with Some (h, r) => match pt r with Some (a, b, r) => match pt r with Some (c, d, r) => Some (add_dlayer false (h, (a, b, c, d)) p, false, r) | None => None end | None => None end | None => None end). rewrite head_read; [reflexivity|exact H0|reflexivity].
  - apply IH; [intros x X; apply H; right; exact X|]. rewrite <- app_assoc. exact R.
Qed.
(* the shapes of an open port *)
Lemma r_qpolys ps : forall a b c d e o f g h i q j k l rest, (forall x, In x ps -> poly_wf x) -> stopp rest ->
  Q (mkDp a b c d e o f g h (i ++ [mkPort (q_layers q) (q_polys q ++ ps) (q_vias q) (q_place q)]) j k l) true rest -> Q (mkDp a b c d e o f g h (i ++ [q]) j k l) true (flat_map print_qpoly ps ++ rest).
Proof.
  induction ps as [|[hd pts] ps IH]; intros a b c d e o f g h i q j k l rest H ST R. { rewrite app_nil_r in R. destruct q; exact R. }
  cbn [flat_map]. rewrite <- app_assoc. destruct (H _ (or_introl eq_refl)) as [H0 H1]. cbn [fst snd] in H0, H1. unfold print_qpoly at 1. cbn [fst snd app].
  assert (S' : stopp (flat_map print_qpoly ps ++ rest)). { destruct ps as [|p' ps']; [exact ST|]. reflexivity. }
  change (W "+" :: W "POLYGON" :: ?r ++ ?s) with ((W "+" :: (W "POLYGON" :: r)) ++ s).
  apply (Q_step _ _ (mkDp a b c d e o f g h (i ++ [mkPort (q_layers q) (q_polys q ++ [(hd, pts)]) (q_vias q) (q_place q)]) j k l) true).
  - cbn [app]. rewrite <- app_assoc. change (read_pinopt ?p true (W "POLYGON" :: ?rr)) with (match read_head rr with Some (h, r) => match read_pts (S (length r)) r with Some (l, r) => if (3 <=? Z.of_nat (length l))%Z then Some (add_dpoly true (h, l) p, true, r) else None | None => None end | None => None end).
    rewrite head_read; [|exact H0|destruct pts as [|[? ?] ?]; [cbn in H1; lia|reflexivity]]. rewrite pts_read; [|exact S'|rewrite app_length; pose proof (pts_len pts); lia]. destruct (Z.leb_spec 3 (Z.of_nat (length pts))); [|lia]. unfold add_dpoly, with_ports. cbn [d_name d_net d_dir d_use d_supply d_ground d_layers d_polys d_vias d_ports d_place d_special d_ant]. rewrite upd_last_app. reflexivity.
  - apply IH; [intros x X; apply H; right; exact X|exact ST|]. cbn [q_layers q_polys q_vias q_place]. rewrite <- app_assoc. exact R.
Qed.
Lemma r_qvias vs : forall a b c d e o f g h i q j k l rest, (forall x, In x vs -> dvia_wf x) ->
  Q (mkDp a b c d e o f g h (i ++ [mkPort (q_layers q) (q_polys q) (q_vias q ++ vs) (q_place q)]) j k l) true rest -> Q (mkDp a b c d e o f g h (i ++ [q]) j k l) true (flat_map print_qvia vs ++ rest).
Proof.
  induction vs as [|[[s m] [x y]] vs IH]; intros a b c d e o f g h i q j k l rest H R. { rewrite app_nil_r in R. destruct q; exact R. }
  cbn [flat_map]. rewrite <- app_assoc. destruct (H _ (or_introl eq_refl)) as [H0 H1]. cbn [fst snd] in H0, H1. unfold print_qvia at 1. cbn [app].
  change (W "+" :: W "VIA" :: W s :: ?r ++ ?t) with ((W "+" :: (W "VIA" :: W s :: r)) ++ t).
  apply (Q_step _ _ (mkDp a b c d e o f g h (i ++ [mkPort (q_layers q) (q_polys q) (q_vias q ++ [(s, m, (x, y))]) (q_place q)]) j k l) true).
  - cbn [app]. rewrite <- app_assoc. change (read_pinopt ?p true (W "VIA" :: ?rr)) with (match word rr with Some (s, r) => match read_mask_opt r with Some (m, r) => match pt r with Some (x, y, r) => Some (add_dvia true (s, m, (x, y)) p, true, r) | None => None end | None => None end | None => None end). rewrite word_name by exact H0.
    assert (E : forall r, read_mask_opt (print_viamask m ++ W "(" :: r) = Some (m, W "(" :: r)). { intros r. destruct m as [m|]; cbn [print_viamask opt app]; unfold read_mask_opt; [|reflexivity]. rewrite eat_same. cbn [num]. rewrite digits3 by (apply H1; reflexivity). reflexivity. }
    cbn [app]. rewrite E. change (pt (W "(" :: Nu x :: Nu y :: W ")" :: ?r)) with (Some (x, y, r)). cbv iota beta. unfold add_dvia, with_ports. cbn [d_name d_net d_dir d_use d_supply d_ground d_layers d_polys d_vias d_ports d_place d_special d_ant]. rewrite upd_last_app. reflexivity.
  - apply IH; [intros z Z; apply H; right; exact Z|]. cbn [q_layers q_polys q_vias q_place]. rewrite <- app_assoc. exact R.
Qed.
Definition still_open (hp : bool) (x : dplace) : bool := match x with DNone => hp | _ => false end.
Lemma r_place x : forall p hp rest, dplace_wf x -> Q (match x with DNone => p | _ => set_dplace hp x p end) (still_open hp x) rest -> Q p hp (print_dplace x ++ rest).
Proof.
  intros p hp rest H R. destruct x as [|a b o|a b o|a b o]; cbn [print_dplace still_open dplace_wf] in *; [exact R| | |].
  - apply (Q_step _ _ (set_dplace hp (DPlaced a b o) p) false [W "PLACED"; W "("; Nu a; Nu b; W ")"; W (orient_str o)]); [|exact R]. change (read_pinopt p hp ([W "PLACED"; W "("; Nu a; Nu b; W ")"; W (orient_str o)] ++ rest)) with (match pt_orient (W "(" :: Nu a :: Nu b :: W ")" :: W (orient_str o) :: rest) with Some (x, y, o, r) => Some (set_dplace hp (DPlaced x y o) p, false, r) | None => None end). rewrite pt_orient_ok by exact H. reflexivity.
  - apply (Q_step _ _ (set_dplace hp (DCover a b o) p) false [W "COVER"; W "("; Nu a; Nu b; W ")"; W (orient_str o)]); [|exact R]. change (read_pinopt p hp ([W "COVER"; W "("; Nu a; Nu b; W ")"; W (orient_str o)] ++ rest)) with (match pt_orient (W "(" :: Nu a :: Nu b :: W ")" :: W (orient_str o) :: rest) with Some (x, y, o, r) => Some (set_dplace hp (DCover x y o) p, false, r) | None => None end). rewrite pt_orient_ok by exact H. reflexivity.
  - apply (Q_step _ _ (set_dplace hp (DFixed a b o) p) false [W "FIXED"; W "("; Nu a; Nu b; W ")"; W (orient_str o)]); [|exact R]. change (read_pinopt p hp ([W "FIXED"; W "("; Nu a; Nu b; W ")"; W (orient_str o)] ++ rest)) with (match pt_orient (W "(" :: Nu a :: Nu b :: W ")" :: W (orient_str o) :: rest) with Some (x, y, o, r) => Some (set_dplace hp (DFixed x y o) p, false, r) | None => None end). rewrite pt_orient_ok by exact H. reflexivity.
Qed.
Lemma vias_stop vs r : stopp r -> stopp (flat_map print_qvia vs ++ r).
Proof. intros H. destruct vs as [|[[s m] [x y]] vs]; [exact H|]. reflexivity. Qed.
Lemma place_stop x r : stopp r -> stopp (print_dplace x ++ r).
Proof. intros H. destruct x; [exact H| | |]; reflexivity. Qed.
(* a port without layers *)
Lemma r_port q : forall a b c d e o f g h i j k l hp rest, port_wf q -> q_layers q = [] -> stopp rest ->
  Q (mkDp a b c d e o f g h (i ++ [q]) j k l) (still_open true (q_place q)) rest -> Q (mkDp a b c d e o f g h i j k l) hp (print_port q ++ rest).
Proof.
  intros a b c d e o f g h i j k l hp rest (H1 & H2 & H3 & H4) NL S R. destruct q as [ls ps vs pl]. cbn [q_layers q_polys q_vias q_place] in *. subst ls. unfold print_port. cbn [q_layers q_polys q_vias q_place flat_map]. repeat rewrite <- app_assoc.
  apply (Q_step _ _ (mkDp a b c d e o f g h (i ++ [mkPort [] [] [] DNone]) j k l) true [W "PORT"]); [reflexivity|]. cbn [app].
  apply r_qpolys; [exact H2|apply vias_stop, place_stop; exact S|]. cbn [q_layers q_polys q_vias q_place app]. apply r_qvias; [exact H3|]. cbn [q_layers q_polys q_vias q_place app]. apply r_place; [exact H4|].
  destruct pl; [exact R| | |]; unfold set_dplace, with_ports; cbn [d_name d_net d_dir d_use d_supply d_ground d_layers d_polys d_vias d_ports d_place d_special d_ant]; rewrite upd_last_app; exact R.
Qed.
Fixpoint ports_open (hp : bool) (l : list port) : bool := match l with [] => hp | q :: r => ports_open (still_open true (q_place q)) r end.
Lemma ports_stop l r : stopp r -> stopp (flat_map print_port l ++ r).
Proof. intros H. destruct l as [|q l]; [exact H|]. reflexivity. Qed.
Lemma r_ports l0 : forall a b c d e o f g h i j k l hp rest, (forall q, In q l0 -> port_wf q /\ q_layers q = []) -> stopp rest ->
  Q (mkDp a b c d e o f g h (i ++ l0) j k l) (ports_open hp l0) rest -> Q (mkDp a b c d e o f g h i j k l) hp (flat_map print_port l0 ++ rest).
Proof.
  induction l0 as [|q l0 IH]; intros a b c d e o f g h i j k l hp rest H S R. { rewrite app_nil_r in R. exact R. }
  cbn [flat_map]. rewrite <- app_assoc. destruct (H q (or_introl eq_refl)) as [H1 H2]. apply r_port; [exact H1|exact H2|apply ports_stop; exact S|]. apply IH; [intros x X; apply H; right; exact X|exact S|]. rewrite <- app_assoc. exact R.
Qed.
Lemma r_special p hp (b : bool) rest : Q (if b then set_special p else p) hp rest -> Q p hp ((if b then [W "+"; W "SPECIAL"] else []) ++ rest).
Proof. intros R. destruct b; [|exact R]. apply (Q_step _ _ (set_special p) hp [W "SPECIAL"]); [reflexivity|exact R]. Qed.
End T.

Lemma ports_open_last l : forall hp q, ports_open hp (l ++ [q]) = still_open true (q_place q).
Proof. induction l as [|x l IH]; intros hp q; [reflexivity|]. cbn [app ports_open]. apply IH. Qed.
Definition reads x (p : dpin) (h : bool) (ts : list tok) : Prop := exists f, (f <= S (length ts))%nat /\ read_pinopts f p h ts = Some x.
Lemma reads_step x p h p' h' b rest : read_pinopt p h (b ++ rest) = Some (p', h', rest) -> reads x p' h' rest -> reads x p h ((W "+" :: b) ++ rest).
Proof. intros H (f & L & R). exists (S f). split; [cbn [app length]; rewrite app_length; lia|]. cbn [app read_pinopts]. rewrite eat_same, H. exact R. Qed.
Definition fails (p : dpin) (h : bool) (ts : list tok) : Prop := forall f, read_pinopts f p h ts = None.
Lemma fails_step p h p' h' b rest : read_pinopt p h (b ++ rest) = Some (p', h', rest) -> fails p' h' rest -> fails p h ((W "+" :: b) ++ rest).
Proof. intros H R [|f]; [reflexivity|]. cbn [app read_pinopts]. rewrite eat_same, H. apply R. Qed.
Lemma po_mono f : forall f' p h ts x, (f <= f')%nat -> read_pinopts f p h ts = Some x -> read_pinopts f' p h ts = Some x.
Proof.
  induction f as [|f IH]; intros f' p h ts x L H; [discriminate|]. destruct f' as [|f']; [lia|]. cbn [read_pinopts] in *. destruct (eat "+" ts) as [r|]; [|exact H]. destruct (read_pinopt p h r) as [[[p' h'] r']|]; [|exact H]. apply IH; [lia|exact H].
Qed.
Definition shapes_of (p : dpin) : list tok := match d_layers p, d_polys p with [], [] => [] | _, _ => flat_map print_dlayer (d_layers p) ++ flat_map print_dpoly (d_polys p) ++ flat_map print_dvia (d_vias p) end.
Definition end_of (p : dpin) (rest : list tok) : list tok := flat_map print_ant (d_ant p) ++ W ";" :: rest.
Definition after_ports (p : dpin) (rest : list tok) : list tok := print_dplace (d_place p) ++ (if d_special p then [W "+"; W "SPECIAL"] else []) ++ end_of p rest.
Definition tail_of (p : dpin) (rest : list tok) : list tok :=
  g_dir (d_dir p) ++ g_use (d_use p) ++ g_supply (d_supply p) ++ g_ground (d_ground p) ++ shapes_of p ++ flat_map print_port (d_ports p) ++ after_ports p rest.
Lemma print_pin_eq p rest : print_pin p ++ rest = [W "-"; W (d_name p); W "+"; W "NET"; W (d_net p)] ++ tail_of p rest.
Proof. unfold print_pin, tail_of, after_ports, end_of. repeat rewrite <- app_assoc. reflexivity. Qed.
Definition pin0 (p : dpin) : dpin := mkDp (d_name p) (d_net p) None None None None [] [] [] [] DNone false [].
Lemma pin_head p rest : pin_wf p -> read_pin (print_pin p ++ rest) = match read_pinopts (S (length (tail_of p rest))) (pin0 p) false (tail_of p rest) with
    | Some (p, r) => match eat ";" r with Some r => Some (p, r) | None => None end | None => None end.
Proof.
  intros (N1 & N2 & _). rewrite print_pin_eq. cbn [app]. unfold read_pin. rewrite eat_same, word_name by exact N1. cbv iota beta. rewrite eat_same. cbv iota beta. rewrite eat_same, word_name by exact N2. reflexivity.
Qed.
Lemma ant_stop p rest : pin_wf p -> stopp (end_of p rest).
Proof.
  intros (_ & _ & _ & _ & _ & _ & _ & _ & _ & _ & _ & A). unfold end_of. destruct (d_ant p) as [|[[k z] l] r]; [reflexivity|]. specialize (A _ (or_introl eq_refl)). cbn [fst] in A. cbn [flat_map print_ant app]. unfold stopp. apply eat_other. intros X0; subst k; cbn in A. intuition discriminate.
Qed.
Lemma ap_stop p rest : pin_wf p -> stopp (after_ports p rest).
Proof. intros H. unfold after_ports. apply place_stop. destruct (d_special p); [reflexivity|apply ant_stop; exact H]. Qed.
(* the state after all printed options, when nothing is broken *)
Definition got (p : dpin) (hp : bool) : dpin :=
  let q := mkDp (d_name p) (d_net p) (d_dir p) (d_use p) (d_supply p) (d_ground p) (d_layers p) [] [] (d_ports p) DNone false [] in
  let q := match d_place p with DNone => q | _ => set_dplace hp (d_place p) q end in if d_special p then set_special q else q.
Section U.
Variable Q : dpin -> bool -> list tok -> Prop.
Hypothesis Q_step : forall p h p' h' b rest, read_pinopt p h (b ++ rest) = Some (p', h', rest) -> Q p' h' rest -> Q p h ((W "+" :: b) ++ rest).
Lemma to_shapes p rest r : pin_wf p -> Q (mkDp (d_name p) (d_net p) (d_dir p) (d_use p) (d_supply p) (d_ground p) [] [] [] [] DNone false []) false (shapes_of p ++ r) ->
  tail_of p rest = g_dir (d_dir p) ++ g_use (d_use p) ++ g_supply (d_supply p) ++ g_ground (d_ground p) ++ shapes_of p ++ r -> Q (pin0 p) false (tail_of p rest).
Proof.
  intros (_ & _ & A & B & C & D & _) H ->. apply (r_dir Q Q_step); [exact A|]. apply (r_use Q Q_step); [exact B|]. apply (r_supply Q Q_step); [exact C|]. apply (r_ground Q Q_step); [exact D|]. exact H.
Qed.
Lemma to_ports p r : pin_wf p -> d_polys p = [] -> (d_layers p = [] \/ d_vias p = []) ->
  Q (mkDp (d_name p) (d_net p) (d_dir p) (d_use p) (d_supply p) (d_ground p) (d_layers p) [] [] [] DNone false []) false r ->
  Q (mkDp (d_name p) (d_net p) (d_dir p) (d_use p) (d_supply p) (d_ground p) [] [] [] [] DNone false []) false (shapes_of p ++ r).
Proof.
  intros (_ & _ & _ & _ & _ & _ & A & _) E V H. unfold shapes_of. rewrite E. change (flat_map print_dpoly []) with (@nil tok). cbn [app]. destruct (d_layers p) as [|x l] eqn:EL; [exact H|]. destruct V as [V|V]; [discriminate|]. rewrite V. change (flat_map print_dvia []) with (@nil tok). rewrite !app_nil_r.
  apply (r_layers Q Q_step); [exact A|]. exact H.
Qed.
Lemma to_end p rest : pin_wf p -> d_polys p = [] -> (d_layers p = [] \/ d_vias p = []) -> (forall q, In q (d_ports p) -> q_layers q = []) ->
  Q (got p (ports_open false (d_ports p))) (still_open (ports_open false (d_ports p)) (d_place p)) (end_of p rest) -> Q (pin0 p) false (tail_of p rest).
Proof.
  intros Wf E V NL H. apply (to_shapes _ rest (flat_map print_port (d_ports p) ++ after_ports p rest)); [exact Wf| |reflexivity]. apply to_ports; [exact Wf|exact E|exact V|].
  apply (r_ports Q Q_step); [|apply ap_stop; exact Wf|]. { intros q I. split; [apply Wf; exact I|apply NL; exact I]. }
  cbn [app]. unfold after_ports. apply (r_place Q Q_step); [apply Wf|]. apply (r_special Q Q_step). unfold got in H. exact H.
Qed.
End U.
Lemma pin_read p rest : pin_wf p -> ~ broken p -> read_pin (print_pin p ++ rest) = Some (got p (ports_open false (d_ports p)), rest).
Proof.
  intros Wf NB. assert (E : d_polys p = []) by (destruct (d_polys p) eqn:X; [reflexivity|elim NB; left; rewrite X; discriminate]).
  assert (V : d_layers p = [] \/ d_vias p = []). { destruct (d_layers p) eqn:X; [left; reflexivity|right]. destruct (d_vias p) eqn:Y; [reflexivity|]. elim NB. right; left. rewrite X, Y. split; discriminate. }
  assert (NL : forall q, In q (d_ports p) -> q_layers q = []). { intros q I. destruct (q_layers q) eqn:X; [reflexivity|]. elim NB. right; right; left. exists q. split; [exact I|rewrite X; discriminate]. }
  assert (A : d_ant p = []) by (destruct (d_ant p) eqn:X; [reflexivity|elim NB; right; right; right; rewrite X; discriminate]).
  rewrite pin_head by exact Wf.
  assert (R : reads (got p (ports_open false (d_ports p)), W ";" :: rest) (pin0 p) false (tail_of p rest)).
  { apply (to_end _ (reads_step _)); try assumption. exists 1%nat. unfold end_of. rewrite A. split; [cbn [length]; lia|]. reflexivity. }
  destruct R as (f & L & R). erewrite po_mono; [|exact L|exact R]. cbv iota beta. rewrite eat_same. reflexivity.
Qed.
(* shapes without parentheses *)
Lemma bad_poly p h hd pts r : head_wf hd -> pts <> [] -> fails p h (W "+" :: W "POLYGON" :: print_head hd ++ flat_map (fun q => [Nu (fst q); Nu (snd q)]) pts ++ r).
Proof.
  intros H N [|f]; [reflexivity|]. cbn [read_pinopts]. rewrite eat_same. change (read_pinopt p h (W "POLYGON" :: ?rr)) with (match read_head rr with Some (h1, r) => match read_pts (S (length r)) r with Some (l, r) => if (3 <=? Z.of_nat (length l))%Z then Some (add_dpoly h (h1, l) p, h, r) else None | None => None end | None => None end).
  destruct pts as [|[x y] pts]; [contradiction|]. rewrite head_read; [reflexivity|exact H|exact I].
Qed.
Lemma bad_qlayer p h hd a b r : head_wf hd -> fails p h (W "+" :: W "LAYER" :: print_head hd ++ Nu a :: Nu b :: r).
Proof.
  intros H [|f]; [reflexivity|]. cbn [read_pinopts]. rewrite eat_same. change (read_pinopt p h (W "LAYER" :: ?rr)) with (match read_head rr with Some (h1, r) => match pt r with Some (a, b, r) => match pt r with Some (c, d, r) => Some (add_dlayer h (h1, (a, b, c, d)) p, h, r) | None => None end | None => None end | None => None end). rewrite head_read; [reflexivity|exact H|exact I].
Qed.
Lemma bad_via p h s m x y r : is_name s -> (forall k, m = Some k -> 0 <= k) -> fails p h (W "+" :: W "VIA" :: W s :: print_viamask m ++ Nu x :: Nu y :: r).
Proof.
  intros H H1 [|f]; [reflexivity|]. cbn [read_pinopts]. rewrite eat_same. change (read_pinopt p h (W "VIA" :: ?rr)) with (match word rr with Some (s, r) => match read_mask_opt r with Some (m, r) => match pt r with Some (x, y, r) => Some (add_dvia h (s, m, (x, y)) p, h, r) | None => None end | None => None end | None => None end). rewrite word_name by exact H.
  destruct m as [m|]; cbn [print_viamask opt app]; reflexivity.
Qed.
Lemma first_bad l : (exists q, In q l /\ q_layers q <> []) -> exists l1 q l2, l = l1 ++ q :: l2 /\ (forall x, In x l1 -> q_layers x = []) /\ q_layers q <> [].
Proof.
  induction l as [|x l IH]; intros (q & I & N); [destruct I|]. destruct (q_layers x) as [|y z] eqn:X; [|exists [], x, l; repeat split; [intros ? []|rewrite X; discriminate]].
  destruct I as [->|I]; [congruence|]. destruct IH as (l1 & q' & l2 & -> & A & B); [exists q; split; assumption|]. exists (x :: l1), q', l2. repeat split; [|exact B]. intros w [<-|W]; [exact X|apply A; exact W].
Qed.
Lemma pin_broken p rest : pin_wf p -> broken p -> read_pin (print_pin p ++ rest) = None.
Proof.
  intros Wf B. rewrite pin_head by exact Wf.
  destruct (d_polys p) as [|po pl] eqn:EP.
  2:{ assert (R : fails (pin0 p) false (tail_of p rest)). 2:{ rewrite R. reflexivity. }
    apply (to_shapes _ fails_step p rest (flat_map print_port (d_ports p) ++ after_ports p rest)); [exact Wf| |reflexivity].
    assert (E : shapes_of p = flat_map print_dlayer (d_layers p) ++ flat_map print_dpoly (po :: pl) ++ flat_map print_dvia (d_vias p)) by (unfold shapes_of; rewrite EP; destruct (d_layers p); reflexivity). rewrite E. repeat rewrite <- app_assoc.
    assert (Wf2 := Wf). destruct Wf2 as (_ & _ & _ & _ & _ & _ & A & C & _). apply (r_layers _ fails_step); [exact A|]. cbn [flat_map]. unfold print_dpoly at 1. repeat rewrite <- app_assoc. cbn [app]. rewrite EP in C. destruct (C po (or_introl eq_refl)) as [C1 C2]. apply bad_poly; [exact C1|]. intros X. rewrite X in C2. cbn in C2. lia. }
  destruct (d_layers p) as [|x l] eqn:EL; [|destruct (d_vias p) as [|[[s m] [vx vy]] vs] eqn:EV].
  2: assert (V : d_layers p = [] \/ d_vias p = []) by (right; exact EV).
  1: assert (V : d_layers p = [] \/ d_vias p = []) by (left; exact EL).
  3:{ assert (R : fails (pin0 p) false (tail_of p rest)). 2:{ rewrite R. reflexivity. }
    apply (to_shapes _ fails_step p rest (flat_map print_port (d_ports p) ++ after_ports p rest)); [exact Wf| |reflexivity].
    assert (E : shapes_of p = flat_map print_dlayer (d_layers p) ++ flat_map print_dvia (d_vias p)) by (unfold shapes_of; rewrite EP, EL; reflexivity). rewrite E. repeat rewrite <- app_assoc.
    assert (Wf2 := Wf). destruct Wf2 as (_ & _ & _ & _ & _ & _ & A & _ & C & _). apply (r_layers _ fails_step); [exact A|]. rewrite EV in *. cbn [flat_map]. unfold print_dvia at 1. repeat rewrite <- app_assoc. cbn [app]. destruct (C _ (or_introl eq_refl)) as [C1 C2]. apply bad_via; [exact C1|exact C2]. }
  all: assert (B' : (exists q, In q (d_ports p) /\ q_layers q <> []) \/ ((forall q, In q (d_ports p) -> q_layers q = []) /\ d_ant p <> [])).
  1,3: destruct (existsb (fun q => match q_layers q with [] => false | _ => true end) (d_ports p)) eqn:X;
    [apply existsb_exists in X; destruct X as (q & I & X); left; exists q; split; [exact I|destruct (q_layers q); [discriminate|discriminate]]|right];
    assert (Y : forall q, In q (d_ports p) -> q_layers q = []) by (intros q I; destruct (q_layers q) eqn:Z; [reflexivity|];
      assert (existsb (fun q => match q_layers q with [] => false | _ => true end) (d_ports p) = true) by (apply existsb_exists; exists q; rewrite Z; split; [exact I|reflexivity]); congruence);
    (split; [exact Y|]); destruct B as [B|[B|[B|B]]]; [congruence|destruct B; congruence|destruct B as (q & I & N); elim N; apply Y; exact I|exact B].
  all: assert (V' := V); clear EL B; try clear EV; destruct B' as [B|[NL B]].
  1,3: assert (R : fails (pin0 p) false (tail_of p rest)); [|rewrite R; reflexivity];
    apply (to_shapes _ fails_step p rest (flat_map print_port (d_ports p) ++ after_ports p rest)); [exact Wf| |reflexivity];
    apply (to_ports _ fails_step); [exact Wf|exact EP|exact V'|];
    destruct (first_bad _ B) as (l1 & q & l2 & E & A & N); assert (PW : forall q, In q (d_ports p) -> port_wf q) by apply Wf; rewrite E in *; rewrite flat_map_app; repeat rewrite <- app_assoc;
    apply (r_ports _ fails_step); [intros z I; split; [apply PW; apply in_or_app; left; exact I|apply A; exact I]|reflexivity|];
    cbn [flat_map]; unfold print_port at 1; repeat rewrite <- app_assoc;
    match goal with |- fails ?a ?b ([W "+"; W "PORT"] ++ ?r) => apply (fails_step _ _ (with_ports (fun l => l ++ [mkPort [] [] [] DNone]) a) true [W "PORT"] r); [reflexivity|] end;
    destruct (PW q) as (P1 & _); [apply in_or_app; right; left; reflexivity|]; destruct (q_layers q) as [|[hd [[[a b] c] d]] ql]; [contradiction|]; specialize (P1 _ (or_introl eq_refl)); cbn [flat_map]; unfold print_qlayer at 1; repeat rewrite <- app_assoc; cbn [app]; apply bad_qlayer; exact P1.
  all: assert (R : exists x, reads (x, end_of p rest) (pin0 p) false (tail_of p rest)) by
    (eexists; apply (to_end _ (reads_step _)); try assumption; exists 1%nat; (split; [lia|]); cbn [read_pinopts]; unfold end_of; destruct (d_ant p) as [|[[k z] o] al] eqn:EA; [contradiction|];
     assert (K : In k ant_keys) by (assert (AW : forall a, In a (d_ant p) -> In (fst (fst a)) ant_keys) by apply Wf; rewrite EA in AW; exact (AW _ (or_introl eq_refl)));
     cbn [flat_map print_ant app]; rewrite eat_other by (intros X0; subst k; cbn in K; intuition discriminate); reflexivity).
  all: destruct R as (x1 & f & L & R); erewrite po_mono; [|exact L|exact R]; cbv iota beta; unfold end_of; destruct (d_ant p) as [|[[k z] o] al] eqn:EA; [contradiction|];
     assert (K : In k ant_keys) by (assert (AW : forall a, In a (d_ant p) -> In (fst (fst a)) ant_keys) by apply Wf; rewrite EA in AW; exact (AW _ (or_introl eq_refl)));
     cbn [flat_map print_ant app]; rewrite eat_other by (intros X0; subst k; cbn in K; intuition discriminate); reflexivity.
Qed.
