(* Proofs about the reader of LEF 5.8 corner spacing rules. *)
From Verif Require Import Base L58Model L58Spec.
From Coq Require Import List String.
Open Scope list_scope.

Section P.
Variable T : Type.
Variable dbu : T -> Z.
Notation word := (word T).
Notation KW k := (@K T k).
Notation go := (corner_go T dbu).
Definition row_words (w : T * T * option T) : list word := [KW WIDTH; Num (fst (fst w)); KW SPACING; Num (snd (fst w))] ++ opt T (snd w) (fun x => [Num x]).
Definition row_vals (w : T * T * option T) : list Z := [dbu (fst (fst w)); dbu (snd (fst w))] ++ match snd w with Some x => [dbu x] | None => [] end.
Definition two (w : T * T * option T) : bool := match snd w with Some _ => true | None => false end.
Definition flushed (rows : list (list Z)) (cur : list Z) : list (list Z) := match cur with [] => rows | _ => rows ++ [cur] end.
Lemma corner_row hl w rest num cv cc mask only eol jog edge ls mn no nl net me rows cur a b c n :
  List.length (row_vals w) = n -> (cur = [] \/ List.length cur = n /\ (num = O \/ num = n)) ->
  go hl (row_words w ++ rest) (mkC num cv cc mask only eol jog edge ls mn no nl net me rows cur true a b c) =
  go hl rest (mkC (match cur with [] => num | _ => n end) cv cc mask only eol jog edge ls mn no nl net me (flushed rows cur) (row_vals w) true false false true).
Proof.
  intros L H. destruct w as [[wd sp] [x|]]; cbn in L; subst n; destruct cur as [|c0 cur]; unfold row_words, row_vals; cbn [fst snd opt app flushed].
  - reflexivity.
  - destruct H as [H|(H & [-> | ->])]; [discriminate| |]; destruct cur as [|c1 [|c2 [|]]]; try discriminate H; reflexivity.
  - reflexivity.
  - destruct H as [H|(H & [-> | ->])]; [discriminate| |]; destruct cur as [|c1 [|c2 [|]]]; try discriminate H; reflexivity.
Qed.
Lemma corner_rows_read n rs : Forall (fun w => List.length (row_vals w) = n) rs -> forall hl num cv cc mask only eol jog edge ls mn no nl net me rows cur a b c,
  (cur = [] /\ num = O \/ List.length cur = n /\ (num = O \/ num = n)) ->
  exists num' rows' cur', go hl (flat_map row_words rs ++ [KW SEMI]) (mkC num cv cc mask only eol jog edge ls mn no nl net me rows cur true a b c) =
    Some (Some (mkC num' cv cc mask only eol jog edge ls mn no nl net me rows' cur' false false false false)) /\
    flushed rows' cur' = flushed rows cur ++ map row_vals rs /\ num' = match cur, rs with [], _ :: _ :: _ => n | [], _ => num | _, [] => num | _, _ => n end.
Proof.
  induction rs as [|w rs IH]; intros F hl num cv cc mask only eol jog edge ls mn no nl net me rows cur a b c H.
  - exists num, rows, cur. split; [reflexivity|]. split; [rewrite app_nil_r; reflexivity|destruct cur; reflexivity].
  - inversion F as [|x l F1 F2]; subst. cbn [flat_map]. rewrite <- app_assoc. rewrite (corner_row hl w _ num cv cc mask only eol jog edge ls mn no nl net me rows cur a b c _ eq_refl ltac:(destruct H as [(H & _)|H]; [left; exact H|right; exact H])).
    destruct (IH F2 hl (match cur with [] => num | _ => List.length (row_vals w) end) cv cc mask only eol jog edge ls mn no nl net me (flushed rows cur) (row_vals w) false false true) as (num' & rows' & cur' & E & R & N).
    + right. split; [reflexivity|]. destruct cur; [|right; reflexivity]. destruct H as [(_ & H)|(H & _)]; [left; exact H|destruct w as [[? ?] [?|]]; discriminate H].
    + exists num', rows', cur'. split; [exact E|]. split.
      * rewrite R. cbn [map]. unfold flushed at 1. destruct w as [[? ?] [?|]]; cbn; rewrite <- app_assoc; reflexivity.
      * rewrite N. destruct w as [[? ?] [?|]]; cbn [row_vals fst snd app]; destruct cur, rs; reflexivity.
Qed.
Lemma tbl_one rs : Forall (fun w => two w = false) rs -> corner_tbl false (map row_vals rs) = Some (map (fun w => (dbu (fst (fst w)), (dbu (snd (fst w)), match snd w with Some y => dbu y | None => dbu (snd (fst w)) end))) rs).
Proof. induction 1 as [|w rs H _ IH]; [reflexivity|]. destruct w as [[a b] [y|]]; [discriminate H|]. cbn [map row_vals fst snd app corner_tbl]. rewrite IH. reflexivity. Qed.
Lemma tbl_two rs : Forall (fun w => two w = true) rs -> corner_tbl true (map row_vals rs) = Some (map (fun w => (dbu (fst (fst w)), (dbu (snd (fst w)), match snd w with Some y => dbu y | None => dbu (snd (fst w)) end))) rs).
Proof. induction 1 as [|w rs H _ IH]; [reflexivity|]. destruct w as [[a b] [y|]]; [|discriminate H]. cbn [map row_vals fst snd app corner_tbl]. rewrite IH. reflexivity. Qed.
Definition rows_good (rs : list (T * T * option T)) : Prop := Forall (fun w => snd w = None) rs \/ Forall (fun w => snd w <> None) rs /\ (2 <= List.length rs)%nat.
Lemma rows_all hl cv cc mask only eol jog edge ls mn no nl net me a b c rs : rows_good rs ->
  exists s, go hl (flat_map row_words rs ++ [KW SEMI]) (mkC O cv cc mask only eol jog edge ls mn no nl net me [] [] true a b c) = Some (Some s) /\
    c_convex s = cv /\ c_concave s = cc /\ c_mask s = mask /\ c_only s = only /\ c_eol s = eol /\ c_jog s = jog /\ c_edge s = edge /\ c_lshape s = ls /\ c_min s = mn /\ c_notch s = no /\ c_notchLen s = nl /\ c_net s = net /\ c_metal s = me /\
    negb (Nat.eqb (c_num s) 3) = forallb (fun w => match snd w with None => true | _ => false end) rs /\
    corner_tbl (Nat.eqb (c_num s) 3) (match c_cur s with [] => c_rows s | cur => c_rows s ++ [cur] end) =
      Some (map (fun w => (dbu (fst (fst w)), (dbu (snd (fst w)), match snd w with Some y => dbu y | None => dbu (snd (fst w)) end))) rs).
Proof.
  intros H. assert (W : exists n, (n = 2%nat /\ Forall (fun w => snd w = None) rs) \/ (n = 3%nat /\ Forall (fun w => snd w <> None) rs /\ (2 <= List.length rs)%nat)) by (destruct H; eauto). clear H. destruct W as (n & H).
  assert (F : Forall (fun w => List.length (row_vals w) = n) rs).
  { destruct H as [(-> & H)|(-> & H & _)]; apply Forall_forall; intros [[x y] [z|]] I; cbn; try reflexivity; exfalso; apply (proj1 (Forall_forall _ _) H) in I; cbn in I; congruence. }
  destruct (corner_rows_read n rs F hl O cv cc mask only eol jog edge ls mn no nl net me [] [] a b c (or_introl (conj eq_refl eq_refl))) as (num & rows & cur & E & R & N).
  eexists. split; [exact E|]. cbn [c_convex c_concave c_mask c_only c_eol c_jog c_edge c_lshape c_min c_notch c_notchLen c_net c_metal c_num c_cur c_rows].
  do 13 (split; [reflexivity|]). match goal with |- _ /\ corner_tbl _ ?x = _ => replace x with (flushed rows cur) by (destruct cur; reflexivity) end. rewrite R. cbn [flushed app]. clear E R.
  destruct H as [(-> & H)|(-> & H & L)].
  - assert (Q : Nat.eqb num 3 = false) by (rewrite N; destruct rs as [|w1 [|w2 rs]]; reflexivity). rewrite Q. split.
    + symmetry. apply forallb_forall. intros w I. rewrite (proj1 (Forall_forall _ _) H w I). reflexivity.
    + apply tbl_one. apply Forall_forall. intros w I. unfold two. rewrite (proj1 (Forall_forall _ _) H w I). reflexivity.
  - assert (Q : Nat.eqb num 3 = true) by (rewrite N; destruct rs as [|w1 [|w2 rs]]; cbn in L; [lia|lia|reflexivity]). rewrite Q. split.
    + destruct rs as [|w rs]; [cbn in L; lia|]. cbn. assert (W := proj1 (Forall_forall _ _) H w (or_introl eq_refl)). destruct (snd w) eqn:Z; [reflexivity|exfalso; apply W; exact Z].
    + apply tbl_two. apply Forall_forall. intros w I. assert (W := proj1 (Forall_forall _ _) H w I). unfold two. destruct (snd w) eqn:Z; [reflexivity|exfalso; apply W; exact Z].
Qed.
Lemma notch_rows rs : notch_len T (flat_map row_words rs ++ [KW SEMI]) = false.
Proof. induction rs as [|[[a b] [y|]] rs IH]; [reflexivity| |]; cbn [flat_map]; rewrite <- app_assoc; exact IH. Qed.
Definition ex_words (e : except) : list word := match e with ExNone => [] | ExNet => [KW EXCEPTSAMENET] | ExMetal => [KW EXCEPTSAMEMETAL] end.
Lemma notch_ex e rs : notch_len T (ex_words e ++ flat_map row_words rs ++ [KW SEMI]) = false.
Proof. destruct e; cbn [ex_words app notch_len]; apply notch_rows. Qed.
Lemma notch_next e rs : match ex_words e ++ flat_map row_words rs ++ [KW SEMI] with Num _ :: _ => true | _ => false end = false.
Proof. destruct e; cbn [ex_words app]; try reflexivity. destruct rs as [|[[a b] y] rs]; reflexivity. Qed.
Definition no_jog (r : co_rule T) : Prop := match or_kind T r with RConvex _ _ _ (Some (_, Some _)) => False | _ => True end.
Lemma corner_read r : no_jog r -> rows_good (or_rows T r) -> corner T dbu (co_words T r) = Some (Some (co_mean T dbu r)).
Proof.
  intros J R. destruct r as [kind ex rs]. cbn [or_kind or_rows no_jog] in *. unfold co_words, co_mean, corner. cbn [or_kind or_ex or_rows].
  fold (ex_words ex). change (flat_map (fun w => [KW WIDTH; Num (fst (fst w)); KW SPACING; Num (snd (fst w))] ++ opt T (snd w) (fun x => [Num x])) rs) with (flat_map row_words rs).
  destruct kind as [m o e|mn].
  - assert (HL : forall a, notch_len T ([KW CORNERSPACING] ++ ([KW CONVEXCORNER] ++ flag T m [KW SAMEMASK] ++ opt T o (fun x => [KW CORNERONLY; Num x]) ++ opt T e a) ++ ex_words ex ++ flat_map row_words rs ++ [KW SEMI]) =
      notch_len T (opt T e a ++ ex_words ex ++ flat_map row_words rs ++ [KW SEMI])).
    { intros a. rewrite <- !app_assoc. destruct m, o; reflexivity. }
    rewrite HL. clear HL. destruct e as [[e [j|]]|]; [contradiction J| |]; cbn [opt fst snd app]; cbn [notch_len]; rewrite notch_ex; rewrite <- ?app_assoc; cbn [app].
    + destruct (rows_all false true false m (option_map dbu o) (Some (dbu e)) None false false None false None (match ex with ExNet => true | _ => false end) (match ex with ExMetal => true | _ => false end) (match ex with ExNone => true | _ => false end) false false rs R)
        as (s & E & B1 & _ & A1 & A2 & A3 & A4 & A5 & A6 & _ & _ & _ & A7 & A8 & A9 & A10).
      match goal with |- match ?x with _ => _ end = _ => replace x with (Some (Some s)) end.
      2: { rewrite <- E. destruct m, o, ex; reflexivity. }
      cbn. rewrite A10, B1, A1, A2, A3, A4, A7, A8, A9. reflexivity.
    + destruct (rows_all false true false m (option_map dbu o) None None false false None false None (match ex with ExNet => true | _ => false end) (match ex with ExMetal => true | _ => false end) (match ex with ExNone => true | _ => false end) false false rs R)
        as (s & E & B1 & _ & A1 & A2 & A3 & A4 & A5 & A6 & _ & _ & _ & A7 & A8 & A9 & A10).
      match goal with |- match ?x with _ => _ end = _ => replace x with (Some (Some s)) end.
      2: { rewrite <- E. destruct m, o, ex; reflexivity. }
      cbn. rewrite A10, B1, A1, A2, A3, A7, A8, A9. reflexivity.
  - destruct mn as [[mn [[x|]|]]|]; cbn [opt fst snd app notch_len].
    + destruct (rows_all true false true false None None None false false (Some (dbu mn)) true (Some (dbu x)) (match ex with ExNet => true | _ => false end) (match ex with ExMetal => true | _ => false end) false (match ex with ExNone => true | _ => false end) false rs R)
        as (s & E & B1 & B2 & _ & _ & _ & _ & _ & _ & A1 & A2 & A3 & A7 & A8 & A9 & A10).
      match goal with |- match ?x with _ => _ end = _ => replace x with (Some (Some s)) end.
      2: { rewrite <- E. destruct ex; reflexivity. }
      cbn. rewrite A10, B1, B2, A1, A2, A3, A7, A8, A9. reflexivity.
    + rewrite notch_next. destruct (rows_all false false true false None None None false false (Some (dbu mn)) true None (match ex with ExNet => true | _ => false end) (match ex with ExMetal => true | _ => false end) false (match ex with ExNone => true | _ => false end) false rs R)
        as (s & E & B1 & B2 & _ & _ & _ & _ & _ & _ & A1 & A2 & A3 & A7 & A8 & A9 & A10).
      match goal with |- match ?x with _ => _ end = _ => replace x with (Some (Some s)) end.
      2: { rewrite <- E. destruct ex; reflexivity. }
      cbn. rewrite A10, B1, B2, A1, A2, A7, A8, A9. reflexivity.
    + rewrite notch_ex. destruct (rows_all false false true false None None None false false (Some (dbu mn)) false None (match ex with ExNet => true | _ => false end) (match ex with ExMetal => true | _ => false end) false (match ex with ExNone => true | _ => false end) false rs R)
        as (s & E & B1 & B2 & _ & _ & _ & _ & _ & _ & A1 & A2 & A3 & A7 & A8 & A9 & A10).
      match goal with |- match ?x with _ => _ end = _ => replace x with (Some (Some s)) end.
      2: { rewrite <- E. destruct ex; reflexivity. }
      cbn. rewrite A10, B1, B2, A1, A2, A7, A8, A9. reflexivity.
    + rewrite notch_ex. destruct (rows_all false false true false None None None false false None false None (match ex with ExNet => true | _ => false end) (match ex with ExMetal => true | _ => false end) false (match ex with ExNone => true | _ => false end) false rs R)
        as (s & E & B1 & B2 & _ & _ & _ & _ & _ & _ & A1 & A2 & A3 & A7 & A8 & A9 & A10).
      match goal with |- match ?x with _ => _ end = _ => replace x with (Some (Some s)) end.
      2: { rewrite <- E. destruct ex; reflexivity. }
      cbn. rewrite A10, B1, B2, A1, A2, A7, A8, A9. reflexivity.
Qed.
End P.
