From Verif Require Import Base GeomModel GeomSpec GCellModel GCellSpec GCellProofs GfModel GfSpec GfProofs GwModel GwSpec.
From Coq Require Import String Ascii DecimalString Decimal DecimalZ.
From Coq Require Import List.
Open Scope list_scope.

Lemma good_axis g lo hi : axis_good g lo hi -> axis_ok g lo hi.
Proof. unfold axis_good, axis_ok. lia. Qed.
Lemma good_grid die xg yg : grid_good die xg yg -> grid_ok die xg yg.
Proof. intros [A B]. split; apply good_axis; assumption. Qed.
Lemma low_is g lo i : 0 <= i -> gcell_lo g lo i = low_edge g lo i.
Proof. intros H. unfold gcell_lo, low_edge. destruct (Z.leb_spec i 0), (Z.eqb_spec i 0); lia. Qed.
Lemma high_is g hi i : i < gcount g -> gcell_hi g hi i = high_edge g hi i.
Proof. intros H. unfold gcell_hi, high_edge. rewrite Z.geb_leb. destruct (Z.leb_spec (gcount g - 1) i), (Z.eqb_spec i (gcount g - 1)); lia. Qed.
Lemma cell_of_center die xg yg i : grid_good die xg yg -> idx_ok xg yg i -> gcell_idx xg yg (gcell_center die xg yg i) = i.
Proof. intros H I. apply idx_of_center; [apply good_grid, H| | |exact I]; destruct H as [(?&?&?&?) (?&?&?&?)]; lia. Qed.
Lemma ll_ok xg yg b : cells_ok xg yg b -> idx_ok xg yg (ll b).
Proof. unfold cells_ok, idx_ok, bleft, bright, bbottom, btop. lia. Qed.
Lemma ur_ok xg yg b : cells_ok xg yg b -> idx_ok xg yg (ur b).
Proof. unfold cells_ok, idx_ok, bleft, bright, bbottom, btop. lia. Qed.
Lemma write_is die xg yg layname l b : grid_good die xg yg -> cells_ok xg yg b ->
  let a := area_of die xg yg b in
  write_guide die xg yg layname (guide_of die xg yg (l, b)) = guide_text (bleft a) (bbottom a) (bright a) (btop a) (layname l).
Proof.
  intros G C. cbn zeta. unfold write_guide, guide_of. cbn [gd_b gd_e gd_bl gd_el fst snd]. rewrite Z.eqb_refl. cbn [negb].
  pose proof (ll_ok _ _ _ C) as L. pose proof (ur_ok _ _ _ C) as U. rewrite !cell_of_center by assumption.
  rewrite !gcell_box_eq by (try apply good_grid; assumption). unfold area_of, bleft, bright, bbottom, btop. cbn [ll ur px py].
  destruct L, U. rewrite !low_is, !high_is by lia. reflexivity.
Qed.
(* the lines *)
Lemma numeral_dec z : numeral (dec z) z.
Proof.
  exists (Z.to_int z). split; [|apply of_to]. apply NilZero.isi; destruct z; cbn; try discriminate; intros H; injection H as H; revert H; apply DecimalPos.Unsigned.to_uint_nonnil.
Qed.
Lemma digits_char d : all_chars (fun c => ~ blank_char c) (NilEmpty.string_of_uint d).
Proof. induction d; cbn; try split; auto; unfold blank_char; cbn; intuition discriminate. Qed.
Lemma uint_nonempty d : d <> Nil -> NilEmpty.string_of_uint d <> EmptyString.
Proof. destruct d; cbn; congruence. Qed.
Lemma word_nzu d : word (NilZero.string_of_uint d).
Proof.
  destruct d; cbn; (split; [discriminate|]); cbn; (split; [unfold blank_char; cbn; intuition discriminate|]); try exact I; apply digits_char.
Qed.
Lemma word_dec z : word (dec z).
Proof.
  unfold dec. destruct (Z.to_int z) as [d|d]; cbn [NilZero.string_of_int]; [apply word_nzu|]. destruct (word_nzu d) as [N C]. split; [discriminate|].
  cbn. split; [unfold blank_char; cbn; intuition discriminate|exact C].
Qed.
Lemma line_sp ws s : line_of ws s -> line_of ws (" " ++ s)%string.
Proof.
  assert (B : forall p, blanks p -> blanks (" " ++ p)%string) by (intros p H; cbn; split; [left; reflexivity|exact H]).
  intros H. destruct H as [pre w P W|pre w ws l P W L S].
  - apply (line_one (" " ++ pre)); [apply B, P|exact W].
  - apply (line_more (" " ++ pre)); [apply B, P|exact W|exact L|exact S].
Qed.
Lemma line_cons w ws s : word w -> line_of ws s -> line_of (w :: ws) (w ++ " " ++ s)%string.
Proof. intros W L. apply (line_more "" w ws (" " ++ s)); [exact I|exact W|apply line_sp, L|]. eexists; eexists; split; [reflexivity|left; reflexivity]. Qed.
Lemma text_line x1 y1 x2 y2 l : word l -> guide_line (mkGE x1 y1 x2 y2 l) (guide_text x1 y1 x2 y2 l).
Proof.
  intros W. apply (guide_line_i _ (dec x1) (dec y1) (dec x2) (dec y2)); try apply numeral_dec. unfold guide_text. cbn [ge_layer].
  do 4 (apply line_cons; [apply word_dec|]). apply (line_one ""); [exact I|exact W].
Qed.
(* the corners of the written area lie in the first and the last cell *)
Lemma idx_low g lo hi i : axis_good g lo hi -> 0 <= i < gcount g -> gcell_idx1 g (low_edge g lo i) = i.
Proof.
  intros (Hs & Hc & Hl & Hh & Hd) Hi. unfold gcell_idx1, low_edge.
  match goal with |- context [Z.quot ?a _] => pose proof (quot_bounds a (gspacing g) Hs) as [Hp Hn]; set (q := Z.quot a (gspacing g)) in * end.
  destruct (Z.eqb_spec i 0) as [->|N].
  - destruct (Z.leb_spec 0 (lo - gstart g)) as [P|P]; [specialize (Hp P)|specialize (Hn ltac:(lia))]; rewrite Z.geb_leb; destruct (Z.ltb_spec q 0);
      match goal with |- context [?a <=? ?b] => destruct (Z.leb_spec a b) end; nia.
  - specialize (Hp ltac:(nia)). assert (q = i) as -> by nia. rewrite Z.geb_leb. destruct (Z.ltb_spec i 0); [lia|]. destruct (Z.leb_spec (gcount g) i); lia.
Qed.
Lemma idx_high g lo hi i : axis_good g lo hi -> 0 <= i < gcount g -> gcell_idx1 g (high_edge g hi i - 1) = i.
Proof.
  intros (Hs & Hc & Hl & Hh & Hd) Hi. unfold gcell_idx1, high_edge.
  match goal with |- context [Z.quot ?a _] => pose proof (quot_bounds a (gspacing g) Hs) as [Hp Hn]; set (q := Z.quot a (gspacing g)) in * end.
  destruct (Z.eqb_spec i (gcount g - 1)) as [->|N].
  - destruct (Z.leb_spec 0 (hi - 1 - gstart g)) as [P|P].
    + specialize (Hp P). assert (gcount g - 1 <= q) by nia. rewrite Z.geb_leb. destruct (Z.ltb_spec q 0); [nia|]. destruct (Z.leb_spec (gcount g) q); lia.
    + specialize (Hn ltac:(lia)). assert (gcount g = 1) by nia. rewrite Z.geb_leb. destruct (Z.ltb_spec q 0); match goal with |- context [?a <=? ?b] => destruct (Z.leb_spec a b) end; lia.
  - destruct (Z.leb_spec 0 (gstart g + (i + 1) * gspacing g - 1 - gstart g)) as [P|P]; [|nia]. specialize (Hp P). assert (q = i) as -> by nia.
    rewrite Z.geb_leb. destruct (Z.ltb_spec i 0); [lia|]. destruct (Z.leb_spec (gcount g) i); lia.
Qed.
Lemma edges_die g lo hi i j : axis_good g lo hi -> 0 <= i <= j -> j < gcount g ->
  lo <= low_edge g lo i /\ low_edge g lo i < high_edge g hi j /\ high_edge g hi j <= hi.
Proof.
  intros (Hs & Hc & Hl & Hh & Hd) Hi Hj. unfold low_edge, high_edge. destruct (Z.eqb_spec i 0), (Z.eqb_spec j (gcount g - 1)); nia.
Qed.
