(* Reading guide files. *)
From Verif Require Import Base GeomModel GfModel GfSpec GfProofs.
From Coq Require Import String Ascii DecimalString Decimal.
From Coq Require Import List.
Open Scope list_scope.

Section C134.
Variable netnum laynum : string -> option Z.
Variables brl trl val : Z.
Notation read := (read_guides netnum laynum brl trl val).
Notation step := (read_line netnum laynum brl trl val).
Definition allowed (l : Z) : Prop := (brl <= l \/ l = val) /\ l <= trl.
(* the guide read for entry [e] of net [n] *)
Definition guide_for (ne : string * gentry) (g : rguide) : Prop :=
  let '(n, e) := ne in
  rg_net g = netnum n /\ laynum (ge_layer e) = Some (rg_layer g) /\
  bleft (rg_box g) = Z.min (ge_x1 e) (ge_x2 e) /\ bright (rg_box g) = Z.max (ge_x1 e) (ge_x2 e) /\
  bbottom (rg_box g) = Z.min (ge_y1 e) (ge_y2 e) /\ btop (rg_box g) = Z.max (ge_y1 e) (ge_y2 e).
Definition entries (gs : list (string * list gentry)) : list (string * gentry) := flat_map (fun ne => map (fun e => (fst ne, e)) (snd ne)) gs.
Definition run (lines : list string) (st : option gstate) : option gstate := fold_left (fun st s => match st with Some g => step g s | None => None end) lines st.

Lemma refused_spec l : layer_refused brl trl val l = false <-> allowed l.
Proof. unfold layer_refused, allowed. rewrite orb_false_iff, andb_false_iff, negb_false_iff, Z.ltb_ge, Z.gtb_ltb, Z.ltb_ge, Z.eqb_eq. reflexivity. Qed.
Lemma special ws s : line_of ws s -> (String.eqb s "(" || String.eqb s "" = true -> ws = ["("%string]) /\ (String.eqb s ")" = true -> ws = [")"%string]).
Proof.
  intros H. pose proof (line_tokens ws s H) as T. split.
  - rewrite orb_true_iff, !String.eqb_eq. intros [->| ->]; [vm_compute in T; congruence|]. exfalso. apply (line_nonempty _ _ H). reflexivity.
  - rewrite String.eqb_eq. intros ->. vm_compute in T. congruence.
Qed.
Lemma step_net n s st : line_of [n] s -> n <> "("%string -> n <> ")"%string -> step st s = match netnum n with Some k => Some (Some k, snd st) | None => None end.
Proof.
  intros H N1 N2. destruct st as [net gs]. unfold read_line. destruct (special _ _ H) as [S1 S2].
  destruct (String.eqb s "(" || String.eqb s ""); [specialize (S1 eq_refl); congruence|]. destruct (String.eqb s ")"); [specialize (S2 eq_refl); congruence|]. rewrite (words_line _ _ H). reflexivity.
Qed.
Lemma step_guide e s st : guide_line e s -> entry_ok e ->
  match laynum (ge_layer e) with
  | Some l => if layer_refused brl trl val l then step st s = None
              else step st s = Some (fst st, snd st ++ [mkRG (fst st) (box_set (ge_x1 e) (ge_y1 e) (ge_x2 e) (ge_y2 e)) l])
  | None => step st s = None
  end.
Proof.
  intros H (I1 & I2 & I3 & I4 & _). destruct H as [e a b c d s A B C D L]. destruct st as [net gs]. unfold read_line. destruct (special _ _ L) as [S1 S2].
  destruct (String.eqb s "(" || String.eqb s ""); [specialize (S1 eq_refl); discriminate S1|]. destruct (String.eqb s ")"); [specialize (S2 eq_refl); discriminate S2|]. rewrite (words_line _ _ L).
  rewrite (numeral_stoi _ _ A I1), (numeral_stoi _ _ B I2), (numeral_stoi _ _ C I3), (numeral_stoi _ _ D I4). destruct (laynum (ge_layer e)) as [l|]; [|reflexivity]. destruct (layer_refused brl trl val l); reflexivity.
Qed.
Lemma read_run lines : read lines = match run lines (Some ((None, []) : gstate)) with Some st => Some (snd st) | None => None end.
Proof. reflexivity. Qed.
Lemma run_none lines : run lines None = None.
Proof. induction lines; cbn; auto. Qed.
Lemma run_cons s ls st : run (s :: ls) (Some st) = run ls (step st s).
Proof. reflexivity. Qed.
Lemma run_app a b st : run (a ++ b) st = run b (run a st).
Proof. unfold run. apply fold_left_app. Qed.

Definition good_entry (e : gentry) : Prop := exists l, laynum (ge_layer e) = Some l /\ allowed l.
Lemma box_set_spec x1 y1 x2 y2 : let b := box_set x1 y1 x2 y2 in bleft b = Z.min x1 x2 /\ bright b = Z.max x1 x2 /\ bbottom b = Z.min y1 y2 /\ btop b = Z.max y1 y2.
Proof. cbv zeta. unfold box_set, bleft, bright, bbottom, btop. cbn [ll ur px py]. rewrite !Z.gtb_ltb. destruct (Z.ltb_spec x2 x1), (Z.ltb_spec y2 y1); lia. Qed.
Lemma run_guides n k es ls : netnum n = Some k -> Forall2 guide_line es ls -> Forall entry_ok es -> forall gs,
  (Forall good_entry es /\ exists out, run ls (Some (Some k, gs)) = Some (Some k, gs ++ out) /\ Forall2 guide_for (map (fun e => (n, e)) es) out) \/
  (Exists (fun e => ~ good_entry e) es /\ run ls (Some (Some k, gs)) = None).
Proof.
  intros Nk F. induction F as [|e s es ls H F IH]; intros Ok gs; cbn [map].
  - left. split; [constructor|]. exists []. rewrite app_nil_r. split; [reflexivity|constructor].
  - inversion Ok as [|? ? O1 O2]; subst. cbn [run fold_left]. pose proof (step_guide e s (Some k, gs) H O1) as St. cbn [fst snd] in St. destruct (laynum (ge_layer e)) as [l|] eqn:El.
    + destruct (layer_refused brl trl val l) eqn:R.
      * right. split; [apply Exists_cons_hd; intros (l' & E' & A'); apply refused_spec in A'; congruence|]. rewrite St. apply run_none.
      * rewrite St. destruct (IH O2 (gs ++ [mkRG (Some k) (box_set (ge_x1 e) (ge_y1 e) (ge_x2 e) (ge_y2 e)) l])) as [[G (out & E & M)]|[X E]].
        -- left. split; [constructor; [exists l; split; [exact El|apply refused_spec, R]|exact G]|]. exists (mkRG (Some k) (box_set (ge_x1 e) (ge_y1 e) (ge_x2 e) (ge_y2 e)) l :: out). split; [unfold run in E; rewrite E, <- app_assoc; reflexivity|].
           constructor; [|exact M]. unfold guide_for. cbn [rg_net rg_layer rg_box]. split; [congruence|]. split; [exact El|]. apply box_set_spec.
        -- right. split; [apply Exists_cons_tl, X|exact E].
    + right. split; [apply Exists_cons_hd; intros (l' & E' & _); congruence|]. rewrite St. apply run_none.
Qed.
Definition good_net (ne : string * list gentry) : Prop := netnum (fst ne) <> None /\ Forall good_entry (snd ne).
Lemma step_paren st s : s = "("%string \/ s = ")"%string \/ s = EmptyString -> step st s = Some st.
Proof. destruct st. intros [->|[->| ->]]; reflexivity. Qed.
Lemma run_file gs lines : guide_file gs lines -> Forall (fun ne => Forall entry_ok (snd ne)) gs -> forall st,
  (Forall good_net gs /\ exists out net', run lines (Some st) = Some (net', snd st ++ out) /\ Forall2 guide_for (entries gs) out) \/
  (Exists (fun ne => ~ good_net ne) gs /\ run lines (Some st) = None).
Proof.
  induction 1 as [|gs ls F IH|g gs l ls N F IH]; intros Ok st.
  - left. split; [constructor|]. exists [], (fst st). rewrite app_nil_r. destruct st. split; [reflexivity|constructor].
  - cbn [run fold_left]. rewrite step_paren by auto. apply IH, Ok.
  - inversion Ok as [|? ? O1 O2]; subst. destruct N as [n es s gl L N1 N2 G]. cbn [app]. rewrite run_cons, (step_net n s st L N1 N2). destruct (netnum n) as [k|] eqn:Nk.
    + rewrite run_cons, step_paren by auto. rewrite <- app_assoc, run_app. cbn [snd] in O1.
      destruct (run_guides n k es gl Nk G O1 (snd st)) as [[Ge (out & E & M)]|[X E]]; match goal with |- context [run gl ?x] => rewrite (E : run gl x = _) end.
      * cbn [app]. rewrite run_cons, step_paren by auto. destruct (IH O2 (Some k, snd st ++ out)) as [[Gn (out2 & net' & E2 & M2)]|[X E2]].
        -- left. split; [constructor; [split; [cbn; congruence|exact Ge]|exact Gn]|]. exists (out ++ out2), net'. cbn [snd] in E2. rewrite E2, app_assoc. split; [reflexivity|]. cbn [entries flat_map fst snd]. apply Forall2_app; [exact M|exact M2].
        -- right. split; [apply Exists_cons_tl, X|exact E2].
      * right. split; [|apply run_none]. apply Exists_cons_hd. intros [_ Ge]. cbn [snd] in Ge. apply Exists_exists in X as (e & He & X). rewrite Forall_forall in Ge. apply X, Ge, He.
    + right. split; [apply Exists_cons_hd; intros [H _]; cbn in H; congruence|]. apply run_none.
Qed.

(* C134 *)
(* A guide file is read completely: each guide with its net, layer and box, in the order of the file. *)
Theorem C134_reads_the_file gs lines : guide_file gs lines -> Forall (fun ne => Forall entry_ok (snd ne)) gs ->
  (forall n es, In (n, es) gs -> netnum n <> None) ->
  (forall n es e, In (n, es) gs -> In e es -> exists l, laynum (ge_layer e) = Some l /\ allowed l) ->
  exists out, read lines = Some out /\ Forall2 guide_for (entries gs) out.
Proof.
  intros F Ok Hn He. destruct (run_file gs lines F Ok (None, [])) as [[_ (out & net' & E & M)]|[X _]].
  - exists out. split; [rewrite read_run, E; reflexivity|exact M].
  - exfalso. apply Exists_exists in X as ([n es] & Hin & X). apply X. split; [apply (Hn n es Hin)|]. apply Forall_forall. intros e Hi. apply (He n es e Hin Hi).
Qed.
(* An unknown net, an unknown layer or a layer outside the routing layers stops the reading with an error. *)
Theorem C134_refuses_unknown gs lines : guide_file gs lines -> Forall (fun ne => Forall entry_ok (snd ne)) gs ->
  (exists n es, In (n, es) gs /\ netnum n = None) \/
  (exists n es e, In (n, es) gs /\ In e es /\ forall l, laynum (ge_layer e) = Some l -> ~ allowed l) ->
  read lines = None.
Proof.
  intros F Ok H. rewrite read_run. destruct (run_file gs lines F Ok (None, [])) as [[G _]|[_ E]]; [|rewrite E; reflexivity]. exfalso. rewrite Forall_forall in G.
  destruct H as [(n & es & Hin & Hn)|(n & es & e & Hin & Hi & Hl)]; destruct (G _ Hin) as [G1 G2]; [exact (G1 Hn)|]. cbn [snd] in G2. rewrite Forall_forall in G2. destruct (G2 e Hi) as (l & El & Al). exact (Hl l El Al).
Qed.
(* Whatever the file contains, every guide read is on an allowed layer of the technology. *)
Theorem C134_only_allowed_layers lines out : read lines = Some out -> forall g, In g out -> allowed (rg_layer g) /\ exists e, laynum e = Some (rg_layer g).
Proof.
  rewrite read_run.
  assert (Q : forall ls st, (forall g, In g (snd st) -> allowed (rg_layer g) /\ exists e, laynum e = Some (rg_layer g)) -> forall st', run ls (Some st) = Some st' -> forall g, In g (snd st') -> allowed (rg_layer g) /\ exists e, laynum e = Some (rg_layer g)).
  { induction ls as [|s ls IH]; intros st Hst st' H; cbn [run fold_left] in H; [injection H as <-; exact Hst|]. destruct (step st s) as [st1|] eqn:E; [|fold (run ls None) in H; rewrite run_none in H; discriminate H].
    apply (IH st1); [|exact H]. destruct st as [net gs]. unfold read_line in E. destruct (String.eqb s "(" || String.eqb s ""); [injection E as <-; exact Hst|]. destruct (String.eqb s ")"); [injection E as <-; exact Hst|].
    destruct (line_words s) as [|a [|b [|c [|d [|e [|]]]]]]; try discriminate E.
    - destruct (netnum a); [injection E as <-; exact Hst|discriminate E].
    - destruct (laynum e) as [l|] eqn:El; [|discriminate E]. destruct (layer_refused brl trl val l) eqn:R; [discriminate E|]. destruct (stoi a), (stoi b), (stoi c), (stoi d); try discriminate E. injection E as <-. cbn [snd].
      intros g Hg. apply in_app_or in Hg as [Hg|[<-|[]]]; [apply Hst, Hg|]. cbn [rg_layer]. split; [apply refused_spec, R|eauto]. }
  destruct (run lines (Some ((None, []) : gstate))) as [st|] eqn:E; [|discriminate]. intros H. injection H as <-. apply (Q lines (None, []) (fun g Hg => match Hg with end) st E).
Qed.
(* A guide with a number beyond 32 bits stops the reading with an error ... *)
Theorem C134_refuses_overflow pre s post a b c d e x1 y1 x2 y2 : line_of [a; b; c; d; e] s -> numeral a x1 -> numeral b y1 -> numeral c x2 -> numeral d y2 ->
  ~ (int32 x1 /\ int32 y1 /\ int32 x2 /\ int32 y2) -> read (pre ++ s :: post) = None.
Proof.
  intros L A B C D N. rewrite read_run, run_app.
  assert (E : forall st, step st s = None).
  { intros [net gs]. unfold read_line. destruct (special _ _ L) as [S1 S2].
    destruct (String.eqb s "(" || String.eqb s ""); [specialize (S1 eq_refl); discriminate S1|]. destruct (String.eqb s ")"); [specialize (S2 eq_refl); discriminate S2|]. rewrite (words_line _ _ L).
    destruct (laynum e) as [l|]; [|reflexivity]. destruct (layer_refused brl trl val l); [reflexivity|].
    rewrite (numeral_to_int _ _ A), (numeral_to_int _ _ B), (numeral_to_int _ _ C), (numeral_to_int _ _ D).
    assert (Q : forall z, int32 z \/ ~ int32 z) by (intros z; unfold int32; lia).
    destruct (Q x1) as [R1|R1]; [rewrite (to_int_32 _ R1)|rewrite (to_int_none _ R1); reflexivity]. destruct (Q y1) as [R2|R2]; [rewrite (to_int_32 _ R2)|rewrite (to_int_none _ R2); reflexivity].
    destruct (Q x2) as [R3|R3]; [rewrite (to_int_32 _ R3)|rewrite (to_int_none _ R3); reflexivity]. destruct (Q y2) as [R4|R4]; [destruct N; auto|rewrite (to_int_none _ R4); reflexivity]. }
  assert (R : forall o, run (s :: post) o = None).
  { intros [st|]; [rewrite run_cons, E|]; apply run_none. }
  rewrite R. reflexivity.
Qed.
(* ... so that every corner of a guide read fits. *)
Theorem C134_coordinates_fit lines out : read lines = Some out -> forall g, In g out -> int32 (bleft (rg_box g)) /\ int32 (bbottom (rg_box g)) /\ int32 (bright (rg_box g)) /\ int32 (btop (rg_box g)).
Proof.
  rewrite read_run. set (P := fun g => int32 (bleft (rg_box g)) /\ int32 (bbottom (rg_box g)) /\ int32 (bright (rg_box g)) /\ int32 (btop (rg_box g))).
  assert (Q : forall ls st, (forall g, In g (snd st) -> P g) -> forall st', run ls (Some st) = Some st' -> forall g, In g (snd st') -> P g).
  { induction ls as [|s ls IH]; intros st Hst st' H; cbn [run fold_left] in H; [injection H as <-; exact Hst|]. destruct (step st s) as [st1|] eqn:E; [|fold (run ls None) in H; rewrite run_none in H; discriminate H].
    apply (IH st1); [|exact H]. destruct st as [net gs]. unfold read_line in E. destruct (String.eqb s "(" || String.eqb s ""); [injection E as <-; exact Hst|]. destruct (String.eqb s ")"); [injection E as <-; exact Hst|].
    destruct (line_words s) as [|a [|b [|c [|d [|e [|]]]]]]; try discriminate E.
    - destruct (netnum a); [injection E as <-; exact Hst|discriminate E].
    - destruct (laynum e) as [l|] eqn:El; [|discriminate E]. destruct (layer_refused brl trl val l) eqn:R; [discriminate E|].
      destruct (stoi a) as [x1|] eqn:S1; [|discriminate E]. destruct (stoi b) as [y1|] eqn:S2; [|discriminate E]. destruct (stoi c) as [x2|] eqn:S3; [|discriminate E]. destruct (stoi d) as [y2|] eqn:S4; [|discriminate E]. injection E as <-. cbn [snd].
      apply stoi_32 in S1, S2, S3, S4.
      intros g Hg. apply in_app_or in Hg as [Hg|[<-|[]]]; [apply Hst, Hg|]. unfold P. cbn [rg_box]. destruct (box_set_spec x1 y1 x2 y2) as (-> & -> & -> & ->). unfold int32 in *. lia. }
  destruct (run lines (Some ((None, []) : gstate))) as [st|] eqn:E; [|discriminate]. intros H. injection H as <-. apply (Q lines (None, []) (fun g Hg => match Hg with end) st E).
Qed.
(* A blank (also a carriage return) at the end of a net or guide line stops the reading with an error. *)
Theorem C134_blank_at_line_end_stops pre s post ws l c : line_of ws l -> (length ws = 1 \/ length ws = 5)%nat -> blank_char c -> s = (l ++ String c EmptyString)%string ->
  read (pre ++ s :: post) = None.
Proof.
  intros L Len B ->. rewrite read_run, run_app. cbn [run fold_left].
  assert (E : forall st, step st (l ++ String c "") = None).
  { intros [net gs]. unfold read_line. apply is_ws_blank in B.
    assert (Nl : exists a r, l = String a r) by (pose proof (line_nonempty _ _ L); destruct l; [contradiction|eauto]). destruct Nl as (a & r & ->).
    assert (Q : forall k, String.eqb (String a r ++ String c "") (String k "") = false). { intros k. apply String.eqb_neq. cbn. destruct r; cbn; discriminate. }
    rewrite !Q. cbn [append orb]. replace (String.eqb (String a (r ++ String c "")) "") with false by reflexivity.
    change (String a (r ++ String c "")) with (String a r ++ String c "")%string. unfold line_words. rewrite ends_app by discriminate. cbn [ends_ws]. rewrite B.
    assert (T : tokens (String a r ++ String c "") = ws).
    { clear - L B. revert L. generalize (String a r). intros l L. assert (Tc : tokens (String c "") = []) by (rewrite tokens_ws by exact B; reflexivity). induction L as [pre w Bp W|pre w ws l Bp W L IH S].
      - assert (A : forall x y z, ((x ++ y) ++ z = x ++ (y ++ z))%string) by (induction x; cbn; congruence). rewrite A, tokens_blanks by exact Bp. rewrite tokens_word; [rewrite Tc; reflexivity|exact W|right; exists c, ""%string; split; [reflexivity|apply is_ws_blank, B]].
      - assert (A : forall x y z, ((x ++ y) ++ z = x ++ (y ++ z))%string) by (induction x; cbn; congruence). rewrite !A, tokens_blanks by exact Bp. rewrite tokens_word; [rewrite IH; reflexivity|exact W|]. right. destruct S as (c0 & r0 & -> & Bc). exists c0, (r0 ++ String c "")%string. split; [reflexivity|exact Bc]. }
    rewrite T. destruct ws as [|w1 [|w2 [|w3 [|w4 [|w5 [|]]]]]]; cbn in Len; try lia; reflexivity. }
  destruct (run pre (Some ((None, []) : gstate))); [rewrite E|]; fold (run post None); rewrite run_none; reflexivity.
Qed.
(* The guides of one net are the guides that the file lists for it, in the same order. *)
Theorem C134_guides_of_a_net gs lines out n k : guide_file gs lines -> Forall (fun ne => Forall entry_ok (snd ne)) gs -> read lines = Some out ->
  netnum n = Some k -> (forall m, netnum m = Some k -> m = n) ->
  Forall2 (fun e bl => guide_for (n, e) (mkRG (Some k) (fst bl) (snd bl))) (flat_map (fun ne => if String.eqb (fst ne) n then snd ne else []) gs) (guides_of out k).
Proof.
  intros F Ok R Nk Inj. rewrite read_run in R. destruct (run_file gs lines F Ok (None, [])) as [[G (o & net' & E & M)]|[_ E]]; rewrite E in R; [|discriminate R]. cbn [snd app] in R. injection R as ->. clear E F Ok lines.
  assert (Q : forall l (o : list rguide), Forall2 guide_for l o -> Forall2 (fun e bl => guide_for (n, e) (mkRG (Some k) (fst bl) (snd bl))) (flat_map (fun me => if String.eqb (fst me) n then [snd me] else []) l) (guides_of o k)).
  { induction 1 as [|[m e] g l o' H F IH]; [constructor|]. cbn [flat_map guides_of fst snd]. fold (guides_of o' k). apply Forall2_app; [|exact IH]. destruct H as (H1 & H2). destruct (String.eqb_spec m n) as [->|Nm].
    - rewrite H1, Nk, Z.eqb_refl. constructor; [|constructor]. unfold guide_for. cbn [rg_net rg_box rg_layer fst snd]. split; [congruence|exact H2].
    - rewrite H1. destruct (netnum m) as [j|] eqn:Ej; [|constructor]. destruct (Z.eqb_spec j k) as [->|]; [exfalso; apply Nm, Inj, Ej|constructor]. }
  specialize (Q _ _ M). replace (flat_map (fun ne => if String.eqb (fst ne) n then snd ne else []) gs) with (flat_map (fun me : string * gentry => if String.eqb (fst me) n then [snd me] else []) (entries gs)); [exact Q|].
  clear. induction gs as [|[m es] gs IH]; [reflexivity|]. cbn [entries flat_map fst snd]. rewrite flat_map_app. fold (entries gs). rewrite IH. f_equal. induction es as [|e es IHe]; cbn [map flat_map fst snd]; [destruct (String.eqb m n); reflexivity|]. rewrite IHe. destruct (String.eqb m n); reflexivity.
Qed.
End C134.
Print Assumptions C134_guides_of_a_net.
Print Assumptions C134_reads_the_file.
Print Assumptions C134_refuses_unknown.
Print Assumptions C134_only_allowed_layers.
Print Assumptions C134_refuses_overflow.
Print Assumptions C134_coordinates_fit.
Print Assumptions C134_blank_at_line_end_stops.

(* a file with two nets, one without guides *)
Definition gf_net (s : string) : option Z := if String.eqb s "clk" then Some 7 else if String.eqb s "n[3]" then Some 9 else None.
Definition gf_lay (s : string) : option Z := if String.eqb s "metal1" then Some 2 else if String.eqb s "metal2" then Some 4 else None.
Definition gf_file : list string := ["clk"; "("; "0 0  4200 4200 metal1"; "-100 4200 4200 0 metal2"; ")"; "n[3]"; "("; ")"; ""]%string.
Definition gf_gs : list (string * list gentry) := [("clk"%string, [mkGE 0 0 4200 4200 "metal1"; mkGE (-100) 4200 4200 0 "metal2"]); ("n[3]"%string, [])].
Ltac by_word := split; [discriminate|cbn; repeat split; unfold blank_char; cbn; intuition discriminate].
Lemma gf_word_line w : word w -> line_of [w] w.
Proof. intros W. apply (line_one ""); [exact I|exact W]. Qed.
Example C134_nonvacuous :
  guide_file gf_gs gf_file /\ Forall (fun ne => Forall entry_ok (snd ne)) gf_gs /\
  (forall n es, In (n, es) gf_gs -> gf_net n <> None) /\
  (forall n es e, In (n, es) gf_gs -> In e es -> exists l, gf_lay (ge_layer e) = Some l /\ allowed 2 100 2 l) /\
  read_guides gf_net gf_lay 2 100 2 gf_file = Some [mkRG (Some 7) (mkBox (mkPt 0 0) (mkPt 4200 4200)) 2; mkRG (Some 7) (mkBox (mkPt (-100) 0) (mkPt 4200 4200)) 4].
Proof.
  assert (Bl : exists c r, " "%string = String c r /\ blank_char c) by (eexists; eexists; split; [reflexivity|left; reflexivity]).
  split; [|split; [|split; [|split]]].
  - apply (file_net _ _ ["clk"; "("; "0 0  4200 4200 metal1"; "-100 4200 4200 0 metal2"; ")"]%string ["n[3]"; "("; ")"; ""]%string).
    + apply (net_lines_i _ _ _ ["0 0  4200 4200 metal1"; "-100 4200 4200 0 metal2"]%string); [apply gf_word_line; by_word|discriminate|discriminate|].
      repeat constructor.
      * apply (guide_line_i _ "0" "0" "4200" "4200"); try (eexists; split; reflexivity).
        apply (line_more "" "0" _ " 0  4200 4200 metal1"); [exact I|by_word| |eexists; eexists; split; [reflexivity|left; reflexivity]].
        apply (line_more " " "0" _ "  4200 4200 metal1"); [cbn; unfold blank_char; cbn; tauto|by_word| |eexists; eexists; split; [reflexivity|left; reflexivity]].
        apply (line_more "  " "4200" _ " 4200 metal1"); [cbn; unfold blank_char; cbn; tauto|by_word| |eexists; eexists; split; [reflexivity|left; reflexivity]].
        apply (line_more " " "4200" _ " metal1"); [cbn; unfold blank_char; cbn; tauto|by_word| |eexists; eexists; split; [reflexivity|left; reflexivity]].
        apply (line_one " " "metal1"); [cbn; unfold blank_char; cbn; tauto|by_word].
      * apply (guide_line_i _ "-100" "4200" "4200" "0"); try (eexists; split; reflexivity).
        apply (line_more "" "-100" _ " 4200 4200 0 metal2"); [exact I|by_word| |eexists; eexists; split; [reflexivity|left; reflexivity]].
        apply (line_more " " "4200" _ " 4200 0 metal2"); [cbn; unfold blank_char; cbn; tauto|by_word| |eexists; eexists; split; [reflexivity|left; reflexivity]].
        apply (line_more " " "4200" _ " 0 metal2"); [cbn; unfold blank_char; cbn; tauto|by_word| |eexists; eexists; split; [reflexivity|left; reflexivity]].
        apply (line_more " " "0" _ " metal2"); [cbn; unfold blank_char; cbn; tauto|by_word| |eexists; eexists; split; [reflexivity|left; reflexivity]].
        apply (line_one " " "metal2"); [cbn; unfold blank_char; cbn; tauto|by_word].
    + apply (file_net _ _ ["n[3]"; "("; ")"]%string [""]%string).
      * apply (net_lines_i _ _ _ []); [apply gf_word_line; by_word|discriminate|discriminate|constructor].
      * apply file_blank, file_end.
  - repeat constructor; cbn; try lia; try discriminate; unfold blank_char; cbn; intuition discriminate.
  - intros n es [H|[H|[]]]; injection H as <- <-; discriminate.
  - intros n es e [H|[H|[]]]; injection H as <- <-; intros Hi; cbn in Hi; [destruct Hi as [<-|[<-|[]]]|destruct Hi]; eexists; (split; [reflexivity|unfold allowed; lia]).
  - vm_compute. reflexivity.
Qed.
(* A coordinate that is not a number is not refused: "10.5" is read as 10. *)
Theorem C134_numbers_checked_refuted : exists s, (forall z, ~ numeral s z) /\ forall netnum, exists out,
  read_guides netnum gf_lay 2 100 2 ["0 0 "%string ++ s ++ " 20 metal1"]%string = Some out /\ map rg_box out = [mkBox (mkPt 0 0) (mkPt 10 20)].
Proof.
  exists "10.5"%string. split; [intros z (i & H & _); discriminate H|]. intros netnum. eexists. split; vm_compute; reflexivity.
Qed.
(* Guides before the first net are not refused; they belong to no net. *)
Theorem C134_net_known_refuted : exists lines out g, read_guides gf_net gf_lay 2 100 2 lines = Some out /\ In g out /\ rg_net g = None.
Proof. exists ["0 0 10 20 metal1"]%string. eexists. eexists. split; [vm_compute; reflexivity|]. split; [left; reflexivity|reflexivity]. Qed.
