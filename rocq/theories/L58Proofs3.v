(* Proofs about the reader of LEF 5.8 end-of-line spacing rules, continued: whole rules, lists of rules. *)
From Verif Require Import Base L58Model L58Spec L58Proofs2.
From Coq Require Import List String.
Open Scope list_scope.

Section P.
Variable T : Type.
Variable dbu : T -> Z.
Notation word := (word T).
Notation KW k := (@K T k).
Notation go := (eol_go T dbu).
Lemma orold_none {A} (o : option A) : orold o None = o. Proof. destruct o; reflexivity. Qed.
Ltac simp_est := cbn [est0 set_e_space set_e_width set_e_exact set_e_wds set_e_opp set_e_within set_e_ww set_e_mask set_e_ete set_e_cut set_e_ext set_e_wext set_e_oew set_e_len set_e_two set_e_par set_e_sub set_e_pspace set_e_pwithin set_e_prl set_e_pmin set_e_te set_e_sm set_e_ne set_e_ps set_e_skip  e_space  e_width  e_exact  e_wds  e_opp  e_within  e_ww  e_mask  e_ete  e_cut  e_ext  e_wext  e_oew  e_len  e_two  e_par  e_sub  e_pspace  e_pwithin  e_prl  e_pmin  e_te  e_sm  e_ne  e_ps  e_skip  ] .
Definition eol_good (r : eol_rule T) : Prop := l_wrong T r = None /\ l_cut T r = None /\ (forall e, l_ete T r = Some e -> ete_good T e).
Lemma opt_none {A} (f : A -> list word) : opt T None f = []. Proof. reflexivity. Qed.
Lemma head_read a b rest : go ([KW SPACING; Num a; KW ENDOFLINE; Num b] ++ rest) 0 est0 = go rest 0 (set_e_width (dbu b) (set_e_space (dbu a) est0)).
Proof. reflexivity. Qed.
Ltac step L H st' H' := match goal with |- context [eol_go T dbu (?c ++ ?w) ?st ?s] => let E := fresh in destruct (L w st s H) as (st' & H' & E); rewrite E; clear E; simp_est; rewrite ?orold_none, ?orb_false_r end.
Lemma eol_rule_read r : eol_good r -> eol_read T dbu (eol_words T r) = Some (eol_mean T dbu r).
Proof.
  intros (W & C & G). unfold eol_read, eol_words. rewrite W, C. rewrite !opt_none, !app_nil_l, head_read.
  assert (H0 : 0 <> 3) by discriminate.
  step (cl_exact T dbu (l_exact T r)) H0 s1 H1.
  step (cl_opp T dbu (l_opp T r)) H1 s2 H2.
  rewrite (app_assoc [KW WITHIN; Num (l_within T r)]).
  step (cl_within T dbu (l_within T r) (l_wrongWithin T r)) H2 s3 H3.
  step (cl_mask T dbu (l_mask T r)) H3 s4 H4.
  step (cl_exceptExact T dbu (l_exceptExact T r)) H4 s5 H5.
  step (cl_fill T dbu (l_fill T r)) H5 s6 H6.
  step (cl_endPrl T dbu (l_endPrl T r)) H6 s7 H7.
  step (cl_ete T dbu (l_ete T r) G) H7 s8 H8.
  step (cl_len T dbu (l_len T r)) H8 s9 H9.
  step (cl_equal T dbu (l_equal T r)) H9 sa Ha.
  match goal with |- context [go (opt T (l_par T r) ?f ++ ?w) sa ?s] => assert (Eb : exists sb, go (opt T (l_par T r) f ++ w) sa s = go w sb (do_par T dbu (l_par T r) s)) by (destruct (l_par T r); [exists 3; apply par_read|exists sa; reflexivity]); destruct Eb as (sb & Eb); rewrite Eb; clear Eb; simp_est end.
  rewrite end_read. unfold eol_mean, eol_known.
  destruct r as [sp wd ex wr op wi ww ma ee fi cu ep et le eq pa en]. cbn [l_space l_width l_exact l_wrong l_opp l_within l_wrongWithin l_mask l_exceptExact l_fill l_cut l_endPrl l_ete l_len l_equal l_par l_enclose] in *. subst wr cu. clear.
  simp_est. rewrite ?orold_none, ?orb_false_r.
  destruct et as [[es ec ext eo]|]; cbn [do_ete xr_space xr_cut xr_ext xr_other]; simp_est; (destruct pa as [[p1 p2 p3 p4 p5 p6 p7 p8 p9]|]; cbn [do_par yr_sub yr_space yr_within yr_prl yr_min yr_two yr_metal yr_nonEol yr_mask]; simp_est; rewrite ?orold_none, ?orb_false_r; unfold eol_build; simp_est;
    (destruct en; [destruct ee, fi, ep; reflexivity|]; destruct eq; [destruct ee, fi, ep; reflexivity|]; destruct ep; [destruct ee, fi; reflexivity|]; destruct fi; [destruct ee; reflexivity|]; destruct ee; [reflexivity|])).
  1,2: destruct ext as [[x1 [x2|]]|]; destruct ww; destruct le as [[[? ?] ?]|]; reflexivity.
  all: destruct ww; destruct le as [[[? ?] ?]|]; reflexivity.
Qed.
(* words that do not tell the kind of a rule *)
Definition quiet (w : word) : bool :=
  match w with
  | K SPACING | K ENDOFLINE | K SEMI | K EOLPERPENDICULAR | K AREA | K LAYER | K NOTCHLENGTH | K NOTCHSPAN | K CONVEXCORNERS | K TOCONCAVECORNER | K TONOTCHLENGTH => false
  | _ => true
  end.
Definition qt (ws : list word) : Prop := forallb quiet ws = true.
Lemma qt_app a b : qt a -> qt b -> qt (a ++ b). Proof. unfold qt. rewrite forallb_app. intros -> ->. reflexivity. Qed.
Lemma qt_flag b ws : qt ws -> qt (flag T b ws). Proof. destruct b; [auto|reflexivity]. Qed.
Lemma qt_opt {A} (o : option A) f : (forall a, qt (f a)) -> qt (opt T o f). Proof. destruct o; [cbn; auto|reflexivity]. Qed.
Lemma spacing_quiet ws : qt ws -> forall rest ss k k2, spacing_go T dbu (ws ++ rest) ss k k2 = spacing_go T dbu rest (ss ++ ws) k k2.
Proof.
  induction ws as [|w ws IH]; intros Q rest ss k k2; [cbn; rewrite app_nil_r; reflexivity|]. unfold qt in Q. cbn [forallb] in Q. apply andb_true_iff in Q as (Q1 & Q2).
  cbn [app]. replace (ss ++ w :: ws) with ((ss ++ [w]) ++ ws) by (rewrite <- app_assoc; reflexivity). rewrite <- (IH Q2). destruct w as [kk|x|o]; [destruct kk; try discriminate Q1; reflexivity|reflexivity|reflexivity].
Qed.
(* words of a rule of another kind *)
Definition other_good (ws : list word) : Prop := forall k, In (KW k) ws -> k <> SPACING /\ k <> SEMI /\ k <> ENDOFLINE /\ k <> TOCONCAVECORNER /\ k <> TONOTCHLENGTH.
Lemma spacing_other ws : other_good ws -> forall rest ss, spacing_go T dbu (ws ++ rest) ss false false = spacing_go T dbu rest (ss ++ ws) false false.
Proof.
  induction ws as [|w ws IH]; intros Q rest ss; [cbn; rewrite app_nil_r; reflexivity|]. cbn [app]. replace (ss ++ w :: ws) with ((ss ++ [w]) ++ ws) by (rewrite <- app_assoc; reflexivity).
  rewrite <- (IH (fun k I => Q k (or_intror I))). destruct w as [kk|x|o]; [|reflexivity|reflexivity]. destruct (Q kk (or_introl eq_refl)) as (A & B & C & D & E). destruct kk; try reflexivity; congruence.
Qed.
Definition eol_tail (r : eol_rule T) : list word :=
  flag T (l_exact T r) [KW EXACTWIDTH] ++ opt T (l_wrong T r) (fun x => [KW WRONGDIRSPACING; Num x]) ++
  opt T (l_opp T r) (fun x => [KW OPPOSITEWIDTH; Num x]) ++ [KW WITHIN; Num (l_within T r)] ++ opt T (l_wrongWithin T r) (fun x => [Num x]) ++ flag T (l_mask T r) [KW SAMEMASK] ++
  opt T (l_exceptExact T r) (fun x => [KW EXCEPTEXACTWIDTH; Num (fst x); Num (snd x)]) ++ opt T (l_fill T r) (fun x => [KW FILLCONCAVECORNER; Num x]) ++
  opt T (l_cut T r) (fun x => [KW WITHCUT; Num x]) ++ opt T (l_endPrl T r) (fun x => [KW ENDPRLSPACING; Num (fst x); KW PRL; Num (snd x)]) ++ opt T (l_ete T r) (ete_words T) ++
  opt T (l_len T r) (fun x => [KW (if fst (fst x) then MAXLENGTH else MINLENGTH); Num (snd (fst x))] ++ flag T (snd x) [KW TWOSIDES]) ++ flag T (l_equal T r) [KW EQUALRECTWIDTH] ++
  opt T (l_par T r) (par_words T) ++ opt T (l_enclose T r) (fun x => [KW ENCLOSECUT; Other (fst (fst (fst x))); Num (snd (fst (fst x))); Other "CUTSPACING"; Num (snd (fst x))] ++ flag T (snd x) [Other "ALLCUTS"%string]).
Lemma eol_words_eq r : eol_words T r = [KW SPACING; Num (l_space T r); KW ENDOFLINE; Num (l_width T r)] ++ eol_tail r ++ [KW SEMI].
Proof. unfold eol_words, eol_tail. rewrite <- !app_assoc. reflexivity. Qed.
Lemma tail_quiet r : qt (eol_tail r).
Proof.
  unfold eol_tail. repeat apply qt_app; try (apply qt_flag; reflexivity); try (apply qt_opt; intros; reflexivity); try reflexivity.
  - apply qt_opt. intros e. unfold ete_words. repeat apply qt_app; try reflexivity; apply qt_opt; intros; try reflexivity. apply qt_app; [reflexivity|]. apply qt_opt. reflexivity.
  - apply qt_opt. intros [[m l] b]. cbn [fst snd]. apply qt_app; [destruct m; reflexivity|apply qt_flag; reflexivity].
  - apply qt_opt. intros p. unfold par_words. repeat apply qt_app; try reflexivity; try (apply qt_flag; reflexivity); apply qt_opt; reflexivity.
  - apply qt_opt. intros x. apply qt_app; [reflexivity|apply qt_flag; reflexivity].
Qed.
Definition spc_good (r : spc_rule T) : Prop := match r with SEol _ r => eol_good r | SOther _ ws => other_good ws end.
Lemma spacing_rule r : spc_good r -> forall rest ss k, exists ss' k', spacing_go T dbu (spc_words T r ++ rest) ss k false = oapp (Some (spc_mean T dbu r)) (spacing_go T dbu rest ss' k' false).
Proof.
  intros G rest ss k. destruct r as [r|ws]; cbn [spc_good spc_words spc_mean] in *.
  - rewrite <- (eol_rule_read r G). rewrite eol_words_eq. rewrite <- !app_assoc. cbn [app spacing_go]. rewrite (spacing_quiet (eol_tail r) (tail_quiet r)). cbn [app spacing_go andb negb]. do 2 eexists. reflexivity.
  - rewrite <- !app_assoc. cbn [app spacing_go]. rewrite (spacing_other ws G). cbn [app spacing_go andb]. do 2 eexists. unfold oapp.
    match goal with |- ?x = _ => instantiate (1 := false); instantiate (1 := (KW SPACING :: ws) ++ [KW SEMI]); cbn [app]; destruct x; reflexivity end.
Qed.
Lemma spacing_rules rs : Forall spc_good rs -> forall ss k, spacing_go T dbu (flat_map (spc_words T) rs) ss k false = Some (flat_map (spc_mean T dbu) rs).
Proof.
  induction rs as [|r rs IH]; intros G ss k; [reflexivity|]. inversion G as [|x l G1 G2]; subst. cbn [flat_map]. destruct (spacing_rule r G1 (flat_map (spc_words T) rs) ss k) as (ss' & k' & E). rewrite E, (IH G2). reflexivity.
Qed.
End P.
