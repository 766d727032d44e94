From Coq Require Import String.
From Verif Require Import Base DwModel DwSpec DwProofs DwProofs2 SnModel SnSpec SnProofs.
Local Open Scope string_scope.
Local Open Scope Z_scope.
Local Open Scope list_scope.

Lemma conns_read l : forall f r, (forall c, In c l -> (is_name (fst (fst c)) /\ is_name (snd (fst c))) /\ snd c = false) -> eat "(" r = None -> (length l < f)%nat -> read_conns f (flat_map print_conn l ++ r) = Some (l, r).
Proof.
  induction l as [|[[i p] b] l IH]; intros f r H E L; (destruct f as [|f]; [cbn in L; lia|]).
  - cbn [flat_map app read_conns]. rewrite E. reflexivity.
  - destruct (H _ (or_introl eq_refl)) as [[N1 N2] B]. cbn [fst snd] in *. subst b. cbn [flat_map print_conn fst snd app read_conns]. rewrite eat_same, word_name by exact N1. rewrite word_name by exact N2. rewrite eat_other by discriminate. rewrite eat_same. rewrite IH; [reflexivity| |exact E|cbn [length] in L; lia]. intros x X. apply H. right. exact X.
Qed.
Lemma conns_synth l : forall c f r, (forall c, In c l -> (is_name (fst (fst c)) /\ is_name (snd (fst c))) /\ snd c = false) -> (is_name (fst (fst c)) /\ is_name (snd (fst c))) -> snd c = true -> (S (length l) < f)%nat ->
  exists cs, read_conns f (flat_map print_conn l ++ print_conn c ++ r) = Some (cs, [W "+"; W "SYNTHESIZED"] ++ r).
Proof.
  intros [[ci cp] cb] f r H C B L. cbn [fst snd] in *. subst cb.
  exists (l ++ [(ci, cp, false)]). change (print_conn (ci, cp, true)) with (print_conn (ci, cp, false) ++ [W "+"; W "SYNTHESIZED"]). rewrite <- app_assoc.
  replace (flat_map print_conn l ++ print_conn (ci, cp, false) ++ [W "+"; W "SYNTHESIZED"] ++ r) with (flat_map print_conn (l ++ [(ci, cp, false)]) ++ [W "+"; W "SYNTHESIZED"] ++ r) by (rewrite flat_map_app; cbn [flat_map]; rewrite app_nil_r, <- app_assoc; reflexivity).
  apply conns_read; [|reflexivity|rewrite app_length; cbn [length]; lia]. intros c X. apply in_app_or in X. destruct X as [X|[<-|[]]]; [apply H; exact X|]. cbn. tauto.
Qed.
Lemma conns_len l : (length l <= length (flat_map print_conn l))%nat.
Proof. induction l as [|c l IH]; cbn [flat_map length]; [lia|]. rewrite app_length. unfold print_conn at 1. rewrite app_length. cbn [length]. lia. Qed.

Section T.
Variable Q : snet -> Z -> list tok -> Prop.
Hypothesis Q_step : forall n m n' m' b rest, read_snopt n m (b ++ rest) = Some (n', m', rest) -> Q n' m' rest -> Q n m ((W "+" :: b) ++ rest).

Definition add_wires l n := fold_left (fun n w => add_wire w n) l n.
Definition pn2 (l : list tok) : Prop := l = [] \/ exists r, l = W "+" :: r.
Lemma stop2_app l r : pn2 l -> stop2 r -> stop2 (l ++ r).
Proof. intros [->|(x & ->)] H; [exact H|]. exists "+", (x ++ r). split; [reflexivity|left; reflexivity]. Qed.
Lemma pn2_wires l : pn2 (flat_map print_wire l). Proof. destruct l as [|w l]; [left; reflexivity|right]. eexists. reflexivity. Qed.
Lemma q_wires l : forall n rest, (forall w, In w l -> wire_wf w /\ forall p i, In p (w_paths w) -> In i (p_items p) -> drawn i) -> stop2 rest -> Q (add_wires l n) 0 rest -> Q n 0 (flat_map print_wire l ++ rest).
Proof.
  induction l as [|w l IH]; intros n rest H S R; [exact R|]. cbn [flat_map]. rewrite <- app_assoc. destruct (H w (or_introl eq_refl)) as [(W1 & W2 & W3) D].
  assert (S' : stop2 (flat_map print_wire l ++ rest)) by (apply stop2_app; [apply pn2_wires|exact S]).
  assert (P : forall p, In p (w_paths w) -> path_wf p /\ forall i, In i (p_items p) -> drawn i) by (intros p X; split; [apply W2; exact X|intros i; apply D; exact X]).
  unfold print_wire at 1. change (([W "+"] ++ print_status (w_status w) ++ print_paths (w_paths w)) ++ ?r) with ((W "+" :: (print_status (w_status w) ++ print_paths (w_paths w))) ++ r).
  apply (Q_step _ _ (add_wire w n) 0).
  - rewrite <- app_assoc. pose proof (wire_read (w_status w) (w_paths w) n 0 (flat_map print_wire l ++ rest) W1 P S') as E. replace (mkWire (w_status w) (w_paths w)) with w in E by (destruct w; reflexivity).
    destruct (w_status w) as [| | |sn] eqn:ES; try exact E. cbn [print_status app]. change (read_snopt n 0 (W "SHIELD" :: W sn :: ?rr)) with (match word (W sn :: rr) with Some (s, r) => read_wire (SShield s) 0 n r | None => None end). rewrite word_name by exact W3. exact E.
  - apply IH; [|exact S|exact R]. intros x X. apply H. right. exact X.
Qed.
Definition s_bump (b : bool) : list tok := if b then [W "+"; W "FIXEDBUMP"] else [].
Definition s_weight (o : option Z) := opt (fun w => [W "+"; W "WEIGHT"; Nu w]) o.
Definition s_source (o : option string) := opt (fun s => [W "+"; W "SOURCE"; W s]) o.
Definition s_pattern (o : option string) := opt (fun s => [W "+"; W "PATTERN"; W s]) o.
Definition s_original (o : option string) := opt (fun s => [W "+"; W "ORIGINAL"; W s]) o.
Definition s_use (o : option string) := opt (fun s => [W "+"; W "USE"; W s]) o.
Lemma q_bump a b c d e f o w s p g u t rest : Q (mkSn a b c d e f o w s p g u t) 0 rest -> Q (mkSn a b c d e f false w s p g u t) 0 (s_bump o ++ rest).
Proof. intros R. destruct o; [|exact R]. apply (Q_step _ _ (mkSn a b c d e f true w s p g u t) 0 [W "FIXEDBUMP"]); [reflexivity|exact R]. Qed.
Lemma q_weight a b c d e f k o s p g u t rest : Q (mkSn a b c d e f k o s p g u t) 0 rest -> Q (mkSn a b c d e f k None s p g u t) 0 (s_weight o ++ rest).
Proof. intros R. destruct o as [o|]; [|exact R]. apply (Q_step _ _ (mkSn a b c d e f k (Some o) s p g u t) 0 [W "WEIGHT"; Nu o]); [reflexivity|exact R]. Qed.
Lemma q_source a b c d e f k w o p g u t rest : (forall s, o = Some s -> In s sources) -> Q (mkSn a b c d e f k w o p g u t) 0 rest -> Q (mkSn a b c d e f k w None p g u t) 0 (s_source o ++ rest).
Proof.
  intros H R. destruct o as [o|]; [|exact R]. apply (Q_step _ _ (mkSn a b c d e f k w (Some o) p g u t) 0 [W "SOURCE"; W o]); [|exact R].
  change (read_snopt ?n 0 ([W "SOURCE"; W o] ++ rest)) with (match one_of sources (W o :: rest) with Some (s, r) => Some (set_nsource s n, 0, r) | None => None end). rewrite one_of_read; [reflexivity|apply H; reflexivity|exact sources_names].
Qed.
Lemma q_pattern a b c d e f k w s o g u t rest : (forall s, o = Some s -> In s patterns) -> Q (mkSn a b c d e f k w s o g u t) 0 rest -> Q (mkSn a b c d e f k w s None g u t) 0 (s_pattern o ++ rest).
Proof.
  intros H R. destruct o as [o|]; [|exact R]. apply (Q_step _ _ (mkSn a b c d e f k w s (Some o) g u t) 0 [W "PATTERN"; W o]); [|exact R].
  change (read_snopt ?n 0 ([W "PATTERN"; W o] ++ rest)) with (match one_of patterns (W o :: rest) with Some (s, r) => Some (set_pattern s n, 0, r) | None => None end). rewrite one_of_read; [reflexivity|apply H; reflexivity|exact patterns_names].
Qed.
Lemma q_original a b c d e f k w s p o u t rest : (forall s, o = Some s -> is_name s) -> Q (mkSn a b c d e f k w s p o u t) 0 rest -> Q (mkSn a b c d e f k w s p None u t) 0 (s_original o ++ rest).
Proof.
  intros H R. destruct o as [o|]; [|exact R]. apply (Q_step _ _ (mkSn a b c d e f k w s p (Some o) u t) 0 [W "ORIGINAL"; W o]); [|exact R].
  change (read_snopt ?n 0 ([W "ORIGINAL"; W o] ++ rest)) with (match word (W o :: rest) with Some (s, r) => Some (set_original s n, 0, r) | None => None end). rewrite word_name by (apply H; reflexivity). reflexivity.
Qed.
Lemma q_use a b c d e f k w s p g o t rest : (forall s, o = Some s -> In s uses) -> Q (mkSn a b c d e f k w s p g o t) 0 rest -> Q (mkSn a b c d e f k w s p g None t) 0 (s_use o ++ rest).
Proof.
  intros H R. destruct o as [o|]; [|exact R]. apply (Q_step _ _ (mkSn a b c d e f k w s p g (Some o) t) 0 [W "USE"; W o]); [|exact R].
  change (read_snopt ?n 0 ([W "USE"; W o] ++ rest)) with (match one_of uses (W o :: rest) with Some (s, r) => Some (set_use s n, 0, r) | None => None end). rewrite one_of_read; [reflexivity|apply H; reflexivity|exact uses_names].
Qed.
End T.
Lemma add_wires_eq l : forall a b c d e f k w s p g u t, add_wires l (mkSn a b c d e f k w s p g u t) = mkSn a b (c ++ l) d e f k w s p g u t.
Proof.
  induction l as [|x l IH]; intros; [cbn; rewrite app_nil_r; reflexivity|]. change (add_wires (x :: l) (mkSn a b c d e f k w s p g u t)) with (add_wires l (mkSn a b (c ++ [x]) d e f k w s p g u t)). rewrite IH, <- app_assoc. reflexivity.
Qed.
Lemma print_snet_eq n : print_snet n = [W "-"; W (n_name n)] ++ flat_map print_conn (n_conns n) ++ flat_map print_wire (n_wires n) ++ flat_map print_poly (n_polys n) ++ flat_map print_rect (n_rects n) ++
  s_bump (n_bump n) ++ s_weight (n_weight n) ++ s_source (n_source n) ++ s_pattern (n_pattern n) ++ s_original (n_original n) ++ s_use (n_use n) ++ [W ";"].
Proof. reflexivity. Qed.
Definition reads x (n : snet) (m : Z) (ts : list tok) : Prop := exists f, (f <= S (length ts))%nat /\ read_snopts f n m ts = Some x.
Lemma reads_step x n m n' m' b rest : read_snopt n m (b ++ rest) = Some (n', m', rest) -> reads x n' m' rest -> reads x n m ((W "+" :: b) ++ rest).
Proof. intros H (f & L & R). exists (S f). split; [cbn [app length]; rewrite app_length; lia|]. cbn [app read_snopts]. rewrite eat_same, H. exact R. Qed.
Definition fails (n : snet) (m : Z) (ts : list tok) : Prop := forall f, read_snopts f n m ts = None.
Lemma fails_step n m n' m' b rest : read_snopt n m (b ++ rest) = Some (n', m', rest) -> fails n' m' rest -> fails n m ((W "+" :: b) ++ rest).
Proof. intros H R [|f]; [reflexivity|]. cbn [app read_snopts]. rewrite eat_same, H. apply R. Qed.
Lemma so_mono f : forall f' n m ts x, (f <= f')%nat -> read_snopts f n m ts = Some x -> read_snopts f' n m ts = Some x.
Proof.
  induction f as [|f IH]; intros f' n m ts x L H; [discriminate|]. destruct f' as [|f']; [lia|]. cbn [read_snopts] in *. destruct (eat "+" ts) as [r|]; [|exact H]. destruct (read_snopt n m r) as [[[n' m'] r']|]; [|exact H]. apply IH; [lia|exact H].
Qed.
Lemma pn_s n : stop2 (s_bump (n_bump n) ++ s_weight (n_weight n) ++ s_source (n_source n) ++ s_pattern (n_pattern n) ++ s_original (n_original n) ++ s_use (n_use n) ++ [W ";"]).
Proof.
  apply stop2_app; [destruct (n_bump n); [right; eexists|left]; reflexivity|]. apply stop2_app; [destruct (n_weight n); [right; eexists|left]; reflexivity|]. apply stop2_app; [destruct (n_source n); [right; eexists|left]; reflexivity|].
  apply stop2_app; [destruct (n_pattern n); [right; eexists|left]; reflexivity|]. apply stop2_app; [destruct (n_original n); [right; eexists|left]; reflexivity|]. apply stop2_app; [destruct (n_use n); [right; eexists|left]; reflexivity|].
  exists ";", []. split; [reflexivity|right; reflexivity].
Qed.
Lemma stop2_ext l r : stop2 l -> stop2 (l ++ r). Proof. intros (s & x & -> & H). exists s, (x ++ r). split; [reflexivity|exact H]. Qed.
Lemma stop2_paren l : stop2 l -> eat "(" l = None. Proof. intros (s & r & -> & [-> | ->]); reflexivity. Qed.
Lemma poly_ext l r : stop2 r -> stop2 (flat_map print_poly l ++ r).
Proof. intros H. destruct l as [|[[m s] q] l]; [exact H|]. cbn [flat_map print_poly]. destruct (m =? 0); cbn [app]; eexists "+", _; (split; [reflexivity|left; reflexivity]). Qed.
Lemma rect_ext l r : stop2 r -> stop2 (flat_map print_rect l ++ r).
Proof. intros H. destruct l as [|[[m s] [[[? ?] ?] ?]] l]; [exact H|]. cbn [flat_map print_rect]. destruct (m =? 0); cbn [app]; eexists "+", _; (split; [reflexivity|left; reflexivity]). Qed.

Definition tail_of (n : snet) (rest : list tok) : list tok := flat_map print_wire (n_wires n) ++ flat_map print_poly (n_polys n) ++ flat_map print_rect (n_rects n) ++
  s_bump (n_bump n) ++ s_weight (n_weight n) ++ s_source (n_source n) ++ s_pattern (n_pattern n) ++ s_original (n_original n) ++ s_use (n_use n) ++ W ";" :: rest.
Lemma pn_s' n rest : stop2 (s_bump (n_bump n) ++ s_weight (n_weight n) ++ s_source (n_source n) ++ s_pattern (n_pattern n) ++ s_original (n_original n) ++ s_use (n_use n) ++ W ";" :: rest).
Proof. pose proof (stop2_ext _ rest (pn_s n)) as H. repeat rewrite <- app_assoc in H. exact H. Qed.
Lemma tail_stop n rest : stop2 (tail_of n rest).
Proof. unfold tail_of. apply stop2_app; [apply pn2_wires|]. apply poly_ext, rect_ext, pn_s'. Qed.
(* after the connections *)
Lemma snet_head n rest : snet_wf n -> no_synthesized n ->
  read_snet (print_snet n ++ rest) = match read_snopts (S (length (tail_of n rest))) (mkSn (n_name n) (n_conns n) [] [] [] [] false None None None None None None) 0 (tail_of n rest) with
    | Some (n, r) => match eat ";" r with Some r => Some (n, r) | None => None end | None => None end.
Proof.
  intros (N1 & N2 & N3 & _) SY. rewrite print_snet_eq. repeat rewrite <- app_assoc. cbn [app]. fold (tail_of n rest). unfold read_snet. rewrite eat_same, word_name by exact N1. destruct (String.eqb_spec (n_name n) "MUSTJOIN") as [X|_]; [contradiction|].
  rewrite conns_read; [reflexivity| |apply stop2_paren, tail_stop|rewrite app_length; pose proof (conns_len (n_conns n)); lia]. intros c C. split; [apply N3; exact C|apply SY; exact C].
Qed.
Lemma wires_hyp n : snet_wf n -> all_drawn n -> forall w, In w (n_wires n) -> wire_wf w /\ forall p i, In p (w_paths w) -> In i (p_items p) -> drawn i.
Proof. intros (_ & _ & _ & H & _) D w X. split; [apply H; exact X|]. intros p i P I. exact (D w p i X P I). Qed.
Lemma snet_read n rest : snet_wf n -> no_synthesized n -> all_drawn n -> no_shapes n -> read_snet (print_snet n ++ rest) = Some (drop n, rest).
Proof.
  intros Wf SY D (NP & NR). rewrite snet_head by assumption. pose proof (wires_hyp n Wf D) as WH. destruct Wf as (_ & _ & _ & _ & _ & _ & W7 & W8 & W9 & W10).
  assert (R : reads (drop n, W ";" :: rest) (mkSn (n_name n) (n_conns n) [] [] [] [] false None None None None None None) 0 (tail_of n rest)).
  { unfold tail_of. apply (q_wires _ (reads_step _)); [exact WH|apply poly_ext, rect_ext, pn_s'|]. rewrite add_wires_eq, NP, NR. cbn [flat_map app].
    apply (q_bump _ (reads_step _)), (q_weight _ (reads_step _)), (q_source _ (reads_step _)); [exact W7|]. apply (q_pattern _ (reads_step _)); [exact W8|]. apply (q_original _ (reads_step _)); [exact W9|]. apply (q_use _ (reads_step _)); [exact W10|].
    exists 1%nat. split; [cbn [length]; lia|]. unfold drop. rewrite NP, NR. reflexivity. }
  destruct R as (f & L & R). erewrite so_mono; [|exact L|exact R]. cbv iota beta. rewrite eat_same. reflexivity.
Qed.
Lemma snet_shapes_lost n rest : snet_wf n -> no_synthesized n -> all_drawn n -> ~ no_shapes n -> read_snet (print_snet n ++ rest) = None.
Proof.
  intros Wf SY D NS. rewrite snet_head by assumption. pose proof (wires_hyp n Wf D) as WH. destruct Wf as (_ & _ & _ & _ & W5 & W6 & _).
  assert (R : fails (mkSn (n_name n) (n_conns n) [] [] [] [] false None None None None None None) 0 (tail_of n rest)).
  { unfold tail_of. apply (q_wires _ fails_step); [exact WH|apply poly_ext, rect_ext, pn_s'|]. rewrite add_wires_eq. set (n0 := mkSn _ _ _ _ _ _ _ _ _ _ _ _ _). clearbody n0. unfold no_shapes in NS.
    assert (RECT : forall r a b c d s m n, is_name s -> fails n m (W "+" :: W "RECT" :: W s :: Nu a :: Nu b :: Nu c :: Nu d :: r)).
    { intros r a b c d s m n1 N [|f]; [reflexivity|]. cbn [read_snopts]. rewrite eat_same. change (read_snopt n1 m (W "RECT" :: ?rr)) with (match word rr with Some (s, r) => match pt r with Some (a, b, r) => match pt r with Some (c, d, r) => Some (add_rect (m, s, (a, b, c, d)) n1, 0, r) | None => None end | None => None end | None => None end). rewrite word_name by exact N. reflexivity. }
    assert (POLY : forall r a b s m n, is_name s -> fails n m (W "+" :: W "POLYGON" :: W s :: Nu a :: Nu b :: r)).
    { intros r a b s m n1 N [|f]; [reflexivity|]. cbn [read_snopts]. rewrite eat_same. change (read_snopt n1 m (W "POLYGON" :: ?rr)) with (match word rr with Some (s, r) => match read_pts (S (length r)) r with Some (l, r) => if (3 <=? Z.of_nat (length l))%Z then Some (add_poly (m, s, l) n1, 0, r) else None | None => None end | None => None end). rewrite word_name by exact N. reflexivity. }
    destruct (n_polys n) as [|[[m s] q] l].
    - destruct (n_rects n) as [|[[m s] [[[a b] c] d]] l]; [elim NS; split; reflexivity|]. specialize (W6 _ (or_introl eq_refl)). cbn [fst snd] in W6. cbn [flat_map print_rect app]. destruct (m =? 0); cbn [app]; [apply RECT; exact W6|].
      match goal with |- fails _ _ (W "+" :: W "MASK" :: Nu m :: ?r) => apply (fails_step n0 0 n0 m [W "MASK"; Nu m] r); [reflexivity|] end. apply RECT. exact W6.
    - destruct (W5 _ (or_introl eq_refl)) as [W5' NE]. cbn [fst snd] in *. destruct q as [|[a b] q]; [contradiction|]. cbn [flat_map print_poly app fst snd]. destruct (m =? 0); cbn [app]; [apply POLY; exact W5'|].
      match goal with |- fails _ _ (W "+" :: W "MASK" :: Nu m :: ?r) => apply (fails_step n0 0 n0 m [W "MASK"; Nu m] r); [reflexivity|] end. apply POLY. exact W5'. }
  rewrite R. reflexivity.
Qed.
Lemma snet_synth_lost n rest : snet_wf n -> ~ no_synthesized n -> read_snet (print_snet n ++ rest) = None.
Proof.
  intros (N1 & N2 & N3 & _) SY.
  assert (C : exists l1 c l2, n_conns n = l1 ++ c :: l2 /\ (forall x, In x l1 -> snd x = false) /\ snd c = true).
  { unfold no_synthesized in SY. clear -SY. induction (n_conns n) as [|c l IH]; [elim SY; intros c []|]. destruct (snd c) eqn:B; [exists [], c, l; repeat split; [intros x []|exact B]|].
    destruct IH as (l1 & c' & l2 & -> & H1 & H2). { intros H. apply SY. intros x [<-|X]; [exact B|apply H; exact X]. } exists (c :: l1), c', l2. repeat split; [|exact H2]. intros x [<-|X]; [exact B|apply H1; exact X]. }
  destruct C as (l1 & c & l2 & E & H1 & H2). rewrite E in N3. rewrite print_snet_eq, E, flat_map_app. cbn [flat_map]. repeat rewrite <- app_assoc. cbn [app]. unfold read_snet. rewrite eat_same, word_name by exact N1. destruct (String.eqb_spec (n_name n) "MUSTJOIN") as [X|_]; [contradiction|].
  match goal with |- context [read_conns (S ?k) (flat_map print_conn l1 ++ print_conn c ++ ?r)] => destruct (conns_synth l1 c (S k) r) as (cs & Q) end.
  - intros x X. split; [apply N3; apply in_or_app; left; exact X|apply H1; exact X].
  - apply N3. apply in_or_app. right. left. reflexivity.
  - exact H2.
  - rewrite !app_length. pose proof (conns_len l1). assert (1 <= length (print_conn c))%nat by (unfold print_conn; rewrite app_length; cbn [length]; lia). lia.
  - rewrite Q. reflexivity.
Qed.
