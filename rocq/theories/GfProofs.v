(* Words, numbers and lines of the guide file. *)
From Verif Require Import Base GeomModel GfModel GfSpec.
From Coq Require Import String Ascii DecimalString Decimal.
From Coq Require Import List.
Open Scope list_scope.

Lemma is_ws_blank c : is_ws c = true <-> blank_char c.
Proof.
  unfold is_ws, blank_char. generalize (nat_of_ascii c). intros n. rewrite orb_true_iff, andb_true_iff, Nat.eqb_eq, !Nat.leb_le. cbn [In].
  split; [intros [->|H]; [tauto|]; lia|lia].
Qed.
Lemma is_ws_not c : is_ws c = false <-> ~ blank_char c.
Proof. rewrite <- is_ws_blank. destruct (is_ws c); intuition congruence. Qed.
Lemma tokens_ws c s : is_ws c = true -> tokens (String c s) = tokens s.
Proof. intros H. unfold tokens. cbn [toks]. destruct (toks s) as [w l]. rewrite H. destruct (String.eqb w ""); reflexivity. Qed.
Lemma toks_ws c s : is_ws c = true -> toks (String c s) = (EmptyString, tokens s).
Proof. intros H. unfold tokens. cbn [toks]. destruct (toks s) as [w l]. rewrite H. destruct (String.eqb w ""); reflexivity. Qed.
Lemma tokens_blanks pre s : blanks pre -> tokens (pre ++ s) = tokens s.
Proof. induction pre as [|c r IH]; cbn [append]; [reflexivity|]. intros [H1 H2]. rewrite tokens_ws by (apply is_ws_blank, H1). apply IH, H2. Qed.
Lemma toks_word w l : all_chars (fun c => ~ blank_char c) w -> (l = EmptyString \/ exists c r, l = String c r /\ blank_char c) -> toks (w ++ l) = (w, tokens l).
Proof.
  intros H L. induction w as [|c r IH]; cbn [append].
  - destruct L as [->|(c & r & -> & B)]; [reflexivity|]. rewrite toks_ws by (apply is_ws_blank, B). f_equal. symmetry. apply tokens_ws, is_ws_blank, B.
  - destruct H as [H1 H2]. cbn [toks]. rewrite (IH H2). apply is_ws_not in H1. rewrite H1. reflexivity.
Qed.
Lemma tokens_word w l : word w -> (l = EmptyString \/ exists c r, l = String c r /\ blank_char c) -> tokens (w ++ l) = w :: tokens l.
Proof. intros [N H] L. unfold tokens at 1. rewrite (toks_word w l H L). destruct (String.eqb_spec w ""); [contradiction|reflexivity]. Qed.
Lemma append_nil_r s : (s ++ "")%string = s.
Proof. induction s as [|c r IH]; cbn; congruence. Qed.
Lemma line_tokens ws s : line_of ws s -> tokens s = ws.
Proof.
  induction 1 as [pre w B W|pre w ws l B W _ IH S].
  - rewrite tokens_blanks by exact B. rewrite <- (append_nil_r w) at 1. rewrite tokens_word by auto. reflexivity.
  - rewrite tokens_blanks by exact B. rewrite tokens_word by auto. rewrite IH. reflexivity.
Qed.
Lemma ends_app a b : b <> EmptyString -> ends_ws (a ++ b) = ends_ws b.
Proof.
  intros N. induction a as [|c r IH]; cbn [append]; [reflexivity|]. cbn [ends_ws]. destruct (r ++ b)%string eqn:E; [|exact IH]. destruct r; cbn in E; [contradiction|discriminate E].
Qed.
Lemma ends_word w : word w -> ends_ws w = false.
Proof.
  intros [N H]. induction w as [|c r IH]; [contradiction|]. destruct H as [H1 H2]. cbn [ends_ws]. destruct r; [apply is_ws_not, H1|]. apply IH; [discriminate|exact H2].
Qed.
Lemma line_nonempty ws s : line_of ws s -> s <> EmptyString.
Proof. destruct 1 as [pre w B [W _]|pre w ws l B [W _] _ _]; destruct pre, w; cbn; congruence. Qed.
Lemma line_ends ws s : line_of ws s -> ends_ws s = false.
Proof.
  induction 1 as [pre w B W|pre w ws l B W L IH S].
  - rewrite ends_app by apply W. apply ends_word, W.
  - assert (l <> EmptyString) by (eapply line_nonempty; eassumption). rewrite ends_app by (destruct w, l; cbn; congruence). rewrite ends_app by assumption. exact IH.
Qed.
Lemma words_line ws s : line_of ws s -> line_words s = ws.
Proof. intros H. unfold line_words. rewrite (line_ends ws s H). apply line_tokens, H. Qed.

(* numbers *)
Fixpoint uval (d : uint) (a : Z) : Z :=
  match d with
  | Nil => a | D0 l => uval l (10 * a) | D1 l => uval l (10 * a + 1) | D2 l => uval l (10 * a + 2) | D3 l => uval l (10 * a + 3)
  | D4 l => uval l (10 * a + 4) | D5 l => uval l (10 * a + 5) | D6 l => uval l (10 * a + 6) | D7 l => uval l (10 * a + 7)
  | D8 l => uval l (10 * a + 8) | D9 l => uval l (10 * a + 9)
  end.
Lemma uval_acc d : forall p, uval d (Z.pos p) = Z.pos (Pos.of_uint_acc d p).
Proof. induction d; intros p; cbn [uval Pos.of_uint_acc]; [reflexivity|..]; rewrite <- IHd; f_equal; lia. Qed.
Lemma uval_0 d : uval d 0 = Z.of_uint d.
Proof. unfold Z.of_uint. induction d; cbn [uval Pos.of_uint]; [reflexivity|exact IHd|..]; cbn [Z.mul Z.add Z.of_N]; apply uval_acc. Qed.
Lemma digits_uint s : forall d acc some, NilEmpty.uint_of_string s = Some d -> (some = true \/ d <> Nil) -> digits s acc some = Some (uval d acc).
Proof.
  induction s as [|c r IH]; intros d acc some H N; cbn [NilEmpty.uint_of_string] in H.
  - injection H as <-. cbn. destruct N as [->|N]; [reflexivity|contradiction].
  - destruct (NilEmpty.uint_of_string r) as [d'|] eqn:E; [|discriminate H]. apply uint_of_char_spec in H. cbn [digits].
    repeat (destruct H as [H|H]); destruct H as [-> ->];
      match goal with |- context [digit ?a] => let v := eval vm_compute in (digit a) in change (digit a) with v end; cbv iota beta; rewrite (IH d' _ true eq_refl (or_introl eq_refl)); cbn [uval]; rewrite ?Z.add_0_r; reflexivity.
Qed.
Lemma digit_not_ws c k : digit c = Some k -> is_ws c = false /\ Ascii.eqb c "-" = false /\ Ascii.eqb c "+" = false.
Proof.
  unfold digit, is_ws. intros H. destruct (Nat.leb 48 (nat_of_ascii c) && Nat.leb (nat_of_ascii c) 57) eqn:E; [|discriminate H]. apply andb_true_iff in E as [E1 E2]. apply Nat.leb_le in E1, E2.
  split; [|split].
  - apply orb_false_iff. split; [apply Nat.eqb_neq; lia|]. apply andb_false_iff. right. apply Nat.leb_gt. lia.
  - apply Ascii.eqb_neq. intros ->. cbn in E1. lia.
  - apply Ascii.eqb_neq. intros ->. cbn in E1. lia.
Qed.
Lemma first_digit c r d : NilEmpty.uint_of_string (String c r) = Some d -> exists k, digit c = Some k.
Proof.
  cbn. destruct (NilEmpty.uint_of_string r) as [d'|]; [|discriminate]. intros H. apply uint_of_char_spec in H. repeat (destruct H as [H|H]); destruct H as [-> _]; eexists; vm_compute; reflexivity.
Qed.
Lemma numeral_to_int t z : numeral t z -> stoi t = to_int z.
Proof.
  intros (i & H & <-).
  unfold NilZero.int_of_string in H. destruct t as [|c r]; [discriminate H|]. unfold stoi. cbn [skip_ws]. destruct (Ascii.eqb_spec c "-") as [->|Nm].
  - cbn [is_ws]. change (is_ws "-") with false. cbv iota. unfold NilZero.uint_of_string in H. destruct r as [|c' r']; [discriminate H|]. destruct (NilEmpty.uint_of_string (String c' r')) as [d|] eqn:E; [|discriminate H]. injection H as <-.
    change (Ascii.eqb "-" "-") with true. cbv iota. rewrite (digits_uint _ d 0 false E).
    + rewrite uval_0. reflexivity.
    + right. intros ->. destruct (first_digit _ _ _ E) as [k _]. apply (NilZero.uint_of_string_nonnil (String c' r')). exact E.
  - unfold NilZero.uint_of_string in H. destruct (NilEmpty.uint_of_string (String c r)) as [d|] eqn:E; [|discriminate H]. injection H as <-. destruct (first_digit _ _ _ E) as [k K]. destruct (digit_not_ws c k K) as (W & M & P).
    rewrite W, M, P. rewrite (digits_uint _ d 0 false E).
    + rewrite uval_0. reflexivity.
    + right. intros ->. apply (NilZero.uint_of_string_nonnil (String c r)). exact E.
Qed.
Lemma to_int_32 z : int32 z -> to_int z = Some z.
Proof. unfold to_int, int32. intros R. replace (_ && _) with true by lia. reflexivity. Qed.
Lemma to_int_none z : ~ int32 z -> to_int z = None.
Proof. unfold to_int, int32. intros R. replace (_ && _) with false by lia. reflexivity. Qed.
Lemma numeral_stoi t z : numeral t z -> int32 z -> stoi t = Some z.
Proof. intros N R. rewrite (numeral_to_int t z N). apply to_int_32, R. Qed.
Lemma to_int_some z v : to_int z = Some v -> int32 v.
Proof. unfold to_int, int32. destruct (_ && _) eqn:E; [|discriminate]. intros H. injection H as <-. lia. Qed.
Lemma stoi_32 s v : stoi s = Some v -> int32 v.
Proof.
  unfold stoi. destruct (skip_ws s) as [|c r]; [discriminate|]. destruct (Ascii.eqb c "-"); [|destruct (Ascii.eqb c "+")]; (destruct (digits _ 0 false) as [x|]; [|discriminate]); apply to_int_some.
Qed.
