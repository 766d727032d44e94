(* Proofs about the reader of LEF 5.8 end-of-line spacing rules. *)
From Verif Require Import Base L58Model L58Spec.
From Coq Require Import List String.
Open Scope list_scope.

Section P.
Variable T : Type.
Variable dbu : T -> Z.
Notation word := (word T).
Notation KW k := (@K T k).
Notation go := (eol_go T dbu).
(* the words [ws] change the values as [f] does, in every stage but that of a parallel edge, and do not lead to it *)
Definition clause (ws : list word) (f : est -> est) : Prop := forall rest st s, st <> 3 -> exists st', st' <> 3 /\ go (ws ++ rest) st s = go rest st' (f s).
Lemma clause_app a b f g : clause a f -> clause b g -> clause (a ++ b) (fun s => g (f s)).
Proof. intros A B rest st s H. rewrite <- app_assoc. destruct (A (b ++ rest) st s H) as (s1 & H1 & E1). destruct (B rest s1 (f s) H1) as (s2 & H2 & E2). exists s2. split; [exact H2|]. rewrite E1. exact E2. Qed.
Definition is_some {A} (o : option A) : bool := match o with Some _ => true | None => false end.
Definition orold {A} (o old : option A) : option A := match o with Some _ => o | None => old end.
Ltac now0 := exists 0; split; [discriminate|reflexivity].
Ltac nowst st H := exists st; split; [exact H|reflexivity].
Lemma cl_exact b : clause (flag T b [KW EXACTWIDTH]) (fun s => set_e_exact (b || e_exact s) s).
Proof. intros rest st s H. destruct b; [now0|]. destruct s; nowst st H. Qed.
Lemma cl_opp o : clause (opt T o (fun x => [KW OPPOSITEWIDTH; Num x])) (fun s => set_e_opp (orold (option_map dbu o) (e_opp s)) s).
Proof. intros rest st s H. destruct o; [now0|]. destruct s; nowst st H. Qed.
Lemma cl_within d o : clause ([KW WITHIN; Num d] ++ opt T o (fun x => [Num x])) (fun s => set_e_ww (orold (option_map dbu o) (e_ww s)) (set_e_within (dbu d) s)).
Proof. intros rest st s H. destruct o; [now0|]. destruct s; exists 1; split; [discriminate|reflexivity]. Qed.
Lemma cl_mask b : clause (flag T b [KW SAMEMASK]) (fun s => set_e_mask (b || e_mask s) s).
Proof. intros rest st s H. destruct b; [now0|]. destruct s; nowst st H. Qed.
Lemma cl_exceptExact o : clause (opt T o (fun x => [KW EXCEPTEXACTWIDTH; Num (fst x); Num (snd x)])) (fun s => set_e_skip (is_some o || e_skip s) s).
Proof. intros rest st s H. destruct o; [now0|]. destruct s; nowst st H. Qed.
Lemma cl_fill o : clause (opt T o (fun x => [KW FILLCONCAVECORNER; Num x])) (fun s => set_e_skip (is_some o || e_skip s) s).
Proof. intros rest st s H. destruct o; [now0|]. destruct s; nowst st H. Qed.
Lemma cl_endPrl o : clause (opt T o (fun x => [KW ENDPRLSPACING; Num (fst x); KW PRL; Num (snd x)])) (fun s => set_e_skip (is_some o || e_skip s) s).
Proof. intros rest st s H. destruct o; [now0|]. destruct s; nowst st H. Qed.
Lemma cl_equal b : clause (flag T b [KW EQUALRECTWIDTH]) (fun s => set_e_skip (b || e_skip s) s).
Proof. intros rest st s H. destruct b; [now0|]. destruct s; nowst st H. Qed.
Definition ext2 (o : option (T * option T)) : option Z := match o with Some (_, Some y) => Some (dbu y) | _ => None end.
Definition do_ete (o : option (ete_rule T)) (s : est) : est :=
  match o with
  | None => s
  | Some e => set_e_oew (orold (option_map dbu (xr_other T e)) (e_oew s)) (set_e_wext (orold (ext2 (xr_ext T e)) (e_wext s)) (set_e_ext (orold (option_map (fun x => dbu (fst x)) (xr_ext T e)) (e_ext s))
      (set_e_cut (orold (option_map (fun c => (dbu (fst c), dbu (snd c))) (xr_cut T e)) (e_cut s)) (set_e_ete (Some (dbu (xr_space T e))) s))))
  end.
(* one extension and another end's width together are not read *)
Definition ete_good (e : ete_rule T) : Prop := match xr_ext T e, xr_other T e with Some (_, None), Some _ => False | _, _ => True end.
Lemma cl_ete o : (forall e, o = Some e -> ete_good e) -> clause (opt T o (ete_words T)) (do_ete o).
Proof.
  intros G rest st s H. destruct o as [e|]; [|nowst st H]. specialize (G e eq_refl). destruct e as [sp cut ext oth]. unfold ete_good in G. cbn [xr_ext xr_other] in G.
  destruct s. unfold ete_words, do_ete. cbn [opt xr_space xr_cut xr_ext xr_other].
  destruct cut as [[c1 c2]|], ext as [[x1 [x2|]]|], oth as [w|]; try contradiction; (exists 2; split; [discriminate|reflexivity]) || (exists 20; split; [discriminate|reflexivity]).
Qed.
Lemma cl_len (o : option (bool * T * bool)) : clause (opt T o (fun x => [KW (if fst (fst x) then MAXLENGTH else MINLENGTH); Num (snd (fst x))] ++ flag T (snd x) [KW TWOSIDES]))
  (fun s => set_e_two (match o with Some x => snd x | None => false end || e_two s) (set_e_len (orold (option_map (fun x => (fst (fst x), dbu (snd (fst x)))) o) (e_len s)) s)).
Proof.
  intros rest st s H. destruct o as [[[m l] b]|]; [|destruct s; nowst st H]. destruct s. exists 0. split; [discriminate|]. apply Z.eqb_neq in H.
  destruct m, b; cbn [opt fst snd flag app eol_go eol_word]; rewrite ?H; reflexivity.
Qed.
Definition do_par (o : option (par_rule T)) (s : est) : est :=
  match o with
  | None => s
  | Some p => set_e_ps (yr_mask T p || e_ps s) (set_e_ne (yr_nonEol T p || e_ne s) (set_e_sm (yr_metal T p || e_sm s) (set_e_te (yr_two T p || e_te s) (set_e_pmin (orold (option_map dbu (yr_min T p)) (e_pmin s))
      (set_e_prl (orold (option_map dbu (yr_prl T p)) (e_prl s)) (set_e_pwithin (dbu (yr_within T p)) (set_e_pspace (dbu (yr_space T p)) (set_e_sub (yr_sub T p || e_sub s) (set_e_par true s)))))))))
  end.
Lemma p_prl o rest s : go (opt T o (fun x => [KW PRL; Num x]) ++ rest) 3 s = go rest 3 (set_e_prl (orold (option_map dbu o) (e_prl s)) s).
Proof. destruct o; [reflexivity|destruct s; reflexivity]. Qed.
Lemma p_min o rest s : go (opt T o (fun x => [KW MINLENGTH; Num x]) ++ rest) 3 s = go rest 3 (set_e_pmin (orold (option_map dbu o) (e_pmin s)) s).
Proof. destruct o; [reflexivity|destruct s; reflexivity]. Qed.
Lemma p_two b rest s : go (flag T b [KW TWOEDGES] ++ rest) 3 s = go rest 3 (set_e_te (b || e_te s) s).
Proof. destruct b; [reflexivity|destruct s; reflexivity]. Qed.
Lemma p_metal b rest s : go (flag T b [KW SAMEMETAL] ++ rest) 3 s = go rest 3 (set_e_sm (b || e_sm s) s).
Proof. destruct b; [reflexivity|destruct s; reflexivity]. Qed.
Lemma p_non b rest s : go (flag T b [KW NONEOLCORNERONLY] ++ rest) 3 s = go rest 3 (set_e_ne (b || e_ne s) s).
Proof. destruct b; [reflexivity|destruct s; reflexivity]. Qed.
Lemma p_mask b rest s : go (flag T b [KW PARALLELSAMEMASK] ++ rest) 3 s = go rest 3 (set_e_ps (b || e_ps s) s).
Proof. destruct b; [reflexivity|destruct s; reflexivity]. Qed.
Lemma p_start b sp wi rest st s : go (KW PARALLELEDGE :: flag T b [KW SUBTRACTEOLWIDTH] ++ Num sp :: KW WITHIN :: Num wi :: rest) st s = go rest 3 (set_e_pwithin (dbu wi) (set_e_pspace (dbu sp) (set_e_sub (b || e_sub s) (set_e_par true s)))).
Proof. destruct b; [reflexivity|destruct s; reflexivity]. Qed.
Lemma par_read p rest st s : go (par_words T p ++ rest) st s = go rest 3 (do_par (Some p) s).
Proof.
  unfold par_words. rewrite <- !app_assoc. cbn [app]. rewrite p_start, p_prl, p_min, p_two, p_metal, p_non, p_mask. destruct s. f_equal.
Qed.
Lemma end_read (o : option (string * T * T * bool)) st s : go (opt T o (fun x => [KW ENCLOSECUT; Other (fst (fst (fst x))); Num (snd (fst (fst x))); Other "CUTSPACING"; Num (snd (fst x))] ++ flag T (snd x) [Other "ALLCUTS"%string]) ++ [KW SEMI]) st s = Some (set_e_skip (is_some o || e_skip s) s).
Proof. destruct s. destruct o as [[[[a b] c] d]|]; [|reflexivity]. destruct d; reflexivity. Qed.

End P.
