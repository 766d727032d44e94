From Verif Require Import Base Stl GeomModel GridModel GridSpec.

(* ---------------- words ---------------- *)
Lemma ones_mask len : 0 <= len -> Z.shiftl 1 len - 1 = Z.ones len.
Proof. intros. rewrite Z.ones_equiv, Z.shiftl_1_l. lia. Qed.
Lemma getBits_field w pos len : 0 <= pos -> 0 <= len ->
  getBits_w w pos len = (w / 2 ^ pos) mod 2 ^ len.
Proof.
  intros Hp Hl. unfold getBits_w. rewrite ones_mask by lia.
  rewrite Z.shiftr_land. rewrite Z.shiftr_shiftl_l by lia. rewrite Z.sub_diag, Z.shiftl_0_r.
  rewrite Z.land_ones by lia. rewrite Z.shiftr_div_pow2 by lia. reflexivity.
Qed.
Lemma getBit_field w pos : 0 <= pos -> getBit_w w pos = ((w / 2 ^ pos) mod 2 ^ 1 =? 1).
Proof.
  intros. unfold getBit_w. rewrite Z.shiftr_div_pow2 by lia. change (2 ^ 1) with 2.
  rewrite Zmod_odd. destruct (Z.odd _); reflexivity.
Qed.
Lemma field_bits w pos len i : 0 <= pos -> 0 <= len -> 0 <= i ->
  Z.testbit ((w / 2 ^ pos) mod 2 ^ len) i = (i <? len) && Z.testbit w (i + pos).
Proof.
  intros. destruct (Z.ltb_spec i len).
  - rewrite Z.mod_pow2_bits_low by lia. rewrite Z.div_pow2_bits by lia. reflexivity.
  - rewrite Z.mod_pow2_bits_high by lia. reflexivity.
Qed.
Lemma setBits_bits w pos len v i : 0 <= pos -> 0 <= len -> 0 <= i ->
  Z.testbit (setBits_w w pos len v) i =
  if (pos <=? i) && (i <? pos + len) then Z.testbit v (i - pos) else Z.testbit w i.
Proof.
  intros. unfold setBits_w. rewrite ones_mask by lia.
  rewrite Z.lor_spec, Z.land_spec, Z.lnot_spec by lia.
  rewrite !Z.shiftl_spec by lia. rewrite Z.land_spec.
  destruct (Z.leb_spec pos i); cbn [andb].
  - rewrite Z.testbit_ones_nonneg by lia.
    replace (i <? pos + len) with (i - pos <? len) by lia.
    destruct (i - pos <? len), (Z.testbit w i), (Z.testbit v (i - pos)); reflexivity.
  - rewrite !(Z.testbit_neg_r _ (i - pos)) by lia. cbn. rewrite andb_true_r, orb_false_r. reflexivity.
Qed.
Lemma field_set_same w pos len v : 0 <= pos -> 0 <= len ->
  (setBits_w w pos len v / 2 ^ pos) mod 2 ^ len = v mod 2 ^ len.
Proof.
  intros. apply Z.bits_inj'. intros i Hi. rewrite field_bits by lia.
  rewrite setBits_bits by lia. destruct (Z.ltb_spec i len); cbn [andb].
  - destruct (Z.leb_spec pos (i + pos)); destruct (Z.ltb_spec (i + pos) (pos + len)); try lia. cbn.
    rewrite Z.mod_pow2_bits_low by lia. f_equal. lia.
  - rewrite Z.mod_pow2_bits_high by lia. reflexivity.
Qed.
Lemma field_set_other w pos len v pos' len' : 0 <= pos -> 0 <= len -> 0 <= pos' -> 0 <= len' ->
  pos + len <= pos' \/ pos' + len' <= pos ->
  (setBits_w w pos len v / 2 ^ pos') mod 2 ^ len' = (w / 2 ^ pos') mod 2 ^ len'.
Proof.
  intros. apply Z.bits_inj'. intros i Hi. rewrite !field_bits by lia.
  rewrite setBits_bits by lia. destruct (Z.ltb_spec i len'); cbn [andb]; [|reflexivity].
  destruct (Z.leb_spec pos (i + pos')); destruct (Z.ltb_spec (i + pos') (pos + len)); cbn; try reflexivity; lia.
Qed.
Lemma setBit_setBits w pos : 0 <= pos -> setBit_w w pos = setBits_w w pos 1 1.
Proof.
  intros. apply Z.bits_inj'. intros i Hi. rewrite setBits_bits by lia. unfold setBit_w.
  rewrite Z.lor_spec, (Z.shiftl_spec 1) by lia.
  destruct (Z.leb_spec pos i); cbn [andb].
  - destruct (Z.ltb_spec i (pos + 1)).
    + assert (i = pos) by lia. subst. rewrite Z.sub_diag. cbn. apply orb_true_r.
    + rewrite (Z.bits_above_log2 1) by (cbn; lia). apply orb_false_r.
  - rewrite (Z.testbit_neg_r 1) by lia. apply orb_false_r.
Qed.
Lemma resetBit_setBits w pos : 0 <= pos -> resetBit_w w pos = setBits_w w pos 1 0.
Proof.
  intros. apply Z.bits_inj'. intros i Hi. rewrite setBits_bits by lia. unfold resetBit_w.
  rewrite Z.land_spec, Z.lnot_spec, (Z.shiftl_spec 1) by lia.
  destruct (Z.leb_spec pos i); cbn [andb].
  - destruct (Z.ltb_spec i (pos + 1)).
    + assert (i = pos) by lia. subst. rewrite Z.sub_diag. cbn. apply andb_false_r.
    + rewrite (Z.bits_above_log2 1) by (cbn; lia). apply andb_true_r.
  - rewrite (Z.testbit_neg_r 1) by lia. apply andb_true_r.
Qed.
(* words stay 64-bit *)
Lemma setBits_range w pos len v : 0 <= pos -> 0 <= len -> pos + len <= 64 -> 0 <= w < 2 ^ 64 ->
  0 <= setBits_w w pos len v < 2 ^ 64.
Proof.
  intros Hp Hl Hs Hw.
  assert (Hn : 0 <= setBits_w w pos len v).
  { unfold setBits_w. rewrite ones_mask by lia. apply Z.lor_nonneg. split.
    - apply Z.land_nonneg; lia.
    - apply Z.shiftl_nonneg. apply Z.land_nonneg. right. rewrite Z.ones_equiv.
      pose proof (Z.pow_pos_nonneg 2 len). lia. }
  split; [exact Hn|].
  destruct (Z.eq_dec (setBits_w w pos len v) 0) as [->|Hz]; [lia|].
  apply Z.log2_lt_pow2; [lia|].
  destruct (Z.lt_ge_cases (Z.log2 (setBits_w w pos len v)) 64) as [|Hge]; [assumption|].
  exfalso. pose proof (Z.bit_log2 (setBits_w w pos len v) ltac:(lia)) as Hb.
  rewrite setBits_bits in Hb by lia.
  destruct (Z.ltb_spec (Z.log2 (setBits_w w pos len v)) (pos + len)); [lia|].
  rewrite andb_false_r in Hb.
  set (k := Z.log2 (setBits_w w pos len v)) in *.
  assert (Hf : Z.testbit (w mod 2 ^ 64) k = false) by (apply Z.mod_pow2_bits_high; lia).
  rewrite Z.mod_small in Hf by lia. cbn in Hb. congruence.
Qed.

(* ---------------- attributes of one word ---------------- *)
Lemma attr_pos_nn a : 0 <= attr_pos a. Proof. destruct a; cbn; lia. Qed.
Lemma attr_len_nn a : 0 <= attr_len a. Proof. destruct a; cbn; lia. Qed.
Lemma attr_sep a b : a <> b ->
  attr_pos a + attr_len a <= attr_pos b \/ attr_pos b + attr_len b <= attr_pos a.
Proof. destruct a, b; cbn; intros; (congruence || lia). Qed.
Definition rd (w : Z) (a : attr) : Z := (w / 2 ^ attr_pos a) mod 2 ^ attr_len a.
(* the word function writes [f old] into attribute a and nothing else *)
Definition writes (F : Z -> Z) (a : attr) (f : Z -> Z) : Prop :=
  (forall w, rd (F w) a = f (rd w a)) /\ (forall w b, b <> a -> rd (F w) b = rd w b).
Lemma writes_ext F G a f : (forall w, F w = G w) -> writes F a f -> writes G a f.
Proof. intros E [H1 H2]. split; intros; rewrite <- E; auto. Qed.
Lemma writes_setBits a v :
  writes (fun w => setBits_w w (attr_pos a) (attr_len a) v) a (fun _ => v mod 2 ^ attr_len a).
Proof.
  pose proof (attr_pos_nn a); pose proof (attr_len_nn a). split.
  - intros w. apply field_set_same; assumption.
  - intros w b Hb. apply field_set_other; auto using attr_pos_nn, attr_len_nn.
    apply attr_sep. congruence.
Qed.
Lemma writes_dep a (f : Z -> Z) :
  writes (fun w => setBits_w w (attr_pos a) (attr_len a) (f (rd w a))) a (fun x => f x mod 2 ^ attr_len a).
Proof.
  pose proof (attr_pos_nn a); pose proof (attr_len_nn a). split.
  - intros w. apply field_set_same; assumption.
  - intros w b Hb. apply field_set_other; auto using attr_pos_nn, attr_len_nn.
    apply attr_sep. congruence.
Qed.
Lemma writes_set a : attr_len a = 1 -> writes (fun w => setBit_w w (attr_pos a)) a (fun _ => 1).
Proof.
  intros E. pose proof (writes_setBits a 1) as H. rewrite E in H. change (1 mod 2 ^ 1) with 1 in H.
  eapply writes_ext; [|exact H]. intros w. symmetry. apply setBit_setBits, attr_pos_nn.
Qed.
Lemma writes_reset a : attr_len a = 1 -> writes (fun w => resetBit_w w (attr_pos a)) a (fun _ => 0).
Proof.
  intros E. pose proof (writes_setBits a 0) as H. rewrite E in H. change (0 mod 2 ^ 1) with 0 in H.
  eapply writes_ext; [|exact H]. intros w. symmetry. apply resetBit_setBits, attr_pos_nn.
Qed.
Lemma rd_range w a : attr_len a = 8 -> 0 <= rd w a < 256.
Proof. intros E. unfold rd. rewrite E. apply Z.mod_pos_bound. lia. Qed.
Lemma writes_add a k : attr_len a = 8 -> 0 <= k ->
  writes (fun w => addToBits_w w (attr_pos a) 8 k) a (fun v => Z.min (v + k) 256 mod 256).
Proof.
  intros E Hk. pose proof (writes_dep a (fun x => Z.min (x + k) 256)) as H. rewrite E in H.
  eapply writes_ext; [|exact H]. intros w. unfold addToBits_w.
  rewrite getBits_field by (try lia; apply attr_pos_nn).
  unfold rd. rewrite E. change (Z.shiftl 1 8) with 256. f_equal. zcases; lia.
Qed.
Lemma writes_weaken F a f f' : (forall w, f (rd w a) = f' (rd w a)) -> writes F a f -> writes F a f'.
Proof. intros E [H1 H2]. split; intros; [rewrite H1; auto|auto]. Qed.
Lemma writes_sub a k : attr_len a = 8 -> 0 <= k ->
  writes (fun w => subToBits_w w (attr_pos a) 8 k) a (fun v => Z.max (v - k) 0).
Proof.
  intros E Hk. pose proof (writes_dep a (fun x => Z.max (x - k) 0)) as H. rewrite E in H.
  apply (writes_weaken _ _ (fun x => Z.max (x - k) 0 mod 2 ^ 8)).
  - intros w. pose proof (rd_range w a E). apply Z.mod_small. lia.
  - eapply writes_ext; [|exact H]. intros w. unfold subToBits_w.
    rewrite getBits_field by (try lia; apply attr_pos_nn).
    unfold rd. rewrite E. f_equal. zcases; lia.
Qed.

(* ---------------- indices ---------------- *)
Lemma isValid_iff g p : isValid g p = true <-> valid g p.
Proof. unfold isValid, valid, on_grid. lia. Qed.
Lemma valid_iff_false g p : isValid g p = false <-> ~ valid g p.
Proof. rewrite <- isValid_iff. destruct (isValid g p); split; congruence. Qed.
Lemma cell_range a b X Y : 0 <= a < X -> 0 <= b < Y -> 0 <= a + b * X < X * Y.
Proof. intros. assert (b * X <= (Y - 1) * X) by nia. nia. Qed.
Lemma getIdx_range g p : valid g p -> 0 <= getIdx g p < nx g * ny g * nz g.
Proof.
  intros (Hx & Hy & Hz). unfold getIdx.
  set (X := nx g) in *; set (Y := ny g) in *; set (W := nz g) in *.
  assert (0 < X * Y) by nia.
  assert (mz p * X * Y = mz p * (X * Y)) as -> by ring.
  assert (0 <= mz p * (X * Y)) by nia.
  assert (mz p * (X * Y) + X * Y <= X * Y * W) by nia.
  pose proof (cell_range (mx p) (my p) X Y Hx Hy). pose proof (cell_range (my p) (mx p) Y X Hy Hx).
  destruct (zdir g (mz p)); lia.
Qed.
Lemma cell_unique X Y a b a' b' c c' : 0 <= a < X -> 0 <= a' < X -> 0 <= b < Y -> 0 <= b' < Y ->
  a + b * X + c * (X * Y) = a' + b' * X + c' * (X * Y) -> a = a' /\ b = b' /\ c = c'.
Proof.
  intros. assert (c = c').
  { pose proof (cell_range a b X Y). pose proof (cell_range a' b' X Y). nia. }
  subst. assert (b = b') by nia. subst. split; [lia|auto].
Qed.
Lemma getIdx_layer g p q : valid g p -> valid g q -> getIdx g p = getIdx g q -> mz p = mz q.
Proof.
  intros (Hx & Hy & Hz) (Hx' & Hy' & Hz'). unfold getIdx.
  set (X := nx g) in *; set (Y := ny g) in *.
  assert (A : forall a b, 0 <= a < X -> 0 <= b < Y -> 0 <= a + b * X < X * Y) by (intros; apply cell_range; assumption).
  assert (B : forall a b, 0 <= a < X -> 0 <= b < Y -> 0 <= b + a * Y < X * Y)
    by (intros; rewrite (Z.mul_comm X); apply cell_range; assumption).
  intros E.
  assert (exists k, 0 <= k < X * Y /\ (if zdir g (mz p) then mx p + my p * X + mz p * X * Y
      else my p + mx p * Y + mz p * X * Y) = k + mz p * (X * Y)) as (k & Hk & Ek).
  { destruct (zdir g (mz p)); eexists; (split; [|rewrite <- Z.mul_assoc; reflexivity]); auto. }
  assert (exists k, 0 <= k < X * Y /\ (if zdir g (mz q) then mx q + my q * X + mz q * X * Y
      else my q + mx q * Y + mz q * X * Y) = k + mz q * (X * Y)) as (k' & Hk' & Ek').
  { destruct (zdir g (mz q)); eexists; (split; [|rewrite <- Z.mul_assoc; reflexivity]); auto. }
  rewrite Ek, Ek' in E. nia.
Qed.
Lemma getIdx_inj g p q : valid g p -> valid g q -> getIdx g p = getIdx g q -> p = q.
Proof.
  intros Hp Hq E. pose proof (getIdx_layer g p q Hp Hq E) as Ez.
  destruct Hp as (Hx & Hy & Hz), Hq as (Hx' & Hy' & Hz'). unfold getIdx in E. rewrite <- Ez in E.
  set (X := nx g) in *; set (Y := ny g) in *. rewrite <- !Z.mul_assoc in E.
  destruct p as [x y z], q as [x' y' z']. cbn [mx my mz] in *. subst z'.
  destruct (zdir g z).
  - apply cell_unique in E as (-> & -> & _); auto.
  - rewrite (Z.mul_comm X Y) in E. apply cell_unique in E as (-> & -> & _); auto.
Qed.
Lemma getIdx_shape g h p : same_shape g h -> getIdx g p = getIdx h p.
Proof. intros (A & B & C & D). unfold getIdx, zdir, nx, ny. rewrite A, B, D. reflexivity. Qed.
Lemma valid_shape g h p : same_shape g h -> valid g p <-> valid h p.
Proof. intros (A & B & C & D). unfold valid, nx, ny, nz. rewrite A, B, C. reflexivity. Qed.
Lemma same_shape_refl g : same_shape g g. Proof. repeat split. Qed.
Lemma same_shape_trans g h k : same_shape g h -> same_shape h k -> same_shape g k.
Proof. intros (A & B & C & D) (A' & B' & C' & D'). repeat split; congruence. Qed.
Lemma same_shape_sym g h : same_shape g h -> same_shape h g.
Proof. intros (A & B & C & D). repeat split; congruence. Qed.

Lemma correct_spec p d : correct p d = (owner p d, match d with DW => DE | DS => DN | DD => DU | _ => d end).
Proof. destruct d; reflexivity. Qed.
Lemma reverse_spec p d : reverse p d = (step p d, opp d).
Proof. destruct d, p; reflexivity. Qed.

(* ---------------- one word update ---------------- *)
Lemma read_rd g p a : read g p a = rd (gbits g (getIdx g p)) a. Proof. reflexivity. Qed.
Lemma upd_word_read g p F a f : valid g p -> writes F a f ->
  read (upd_word g p F) p a = f (read g p a) /\
  (forall q b, valid g q -> (q, b) <> (p, a) -> read (upd_word g p F) q b = read g q b).
Proof.
  intros Hv [H1 H2]. unfold read, upd_word, with_bits, upd; cbn.
  change (getIdx (mkGG (gxs g) (gys g) (gzs g) (gdirs g) _ _ _ _ _)) with (getIdx g).
  rewrite Z.eqb_refl. split; [apply H1|].
  intros q b Hq Hne. change (getIdx _ q) with (getIdx g q).
  destruct (getIdx g q =? getIdx g p) eqn:E; [|reflexivity].
  assert (q = p) by (apply (getIdx_inj g); auto; lia). subst q.
  exact (H2 (gbits g (getIdx g p)) b ltac:(congruence)).
Qed.
Lemma rest_same_refl g : rest_same g g. Proof. repeat split. Qed.
Lemma upd_word_rest g p F : rest_same g (upd_word g p F). Proof. repeat split. Qed.

Lemma edge_in_box_iff g p d b i : d <> DUnk ->
  isEdgeInBox g p d b i = true <-> edge_allowed g p d b i.
Proof.
  intros Hd. unfold isEdgeInBox. rewrite correct_spec.
  set (p' := owner p d). set (d' := match d with DW => DE | DS => DN | DD => DU | _ => d end).
  assert (Hends : (p' = p /\ step p' d' = step p d) \/ (p' = step p d /\ step p' d' = p)).
  { subst p' d'. destruct d; cbn; auto; right; split; auto; destruct p as [x y z]; cbn; f_equal; lia. }
  unfold isValidD. rewrite reverse_spec. cbn [fst].
  assert (Hval : isValid g p' && isValid g (step p' d') = true <-> valid g p /\ valid g (step p d)).
  { rewrite andb_true_iff, !isValid_iff. destruct Hends as [[-> ->]|[-> ->]]; tauto. }
  unfold edge_allowed.
  destruct (isValid g p' && isValid g (step p' d')).
  2:{ split; [discriminate|]. intros (A & B & _). pose proof (proj2 Hval (conj A B)). discriminate. }
  pose proof (proj1 Hval eq_refl) as [V1 V2].
  destruct Hends as [[-> ->]|[-> ->]]; unfold box_contains_pt;
    set (a := getPoint g p); set (c := getPoint g (step p d)).
  - destruct (_ && _) eqn:E.
    + split.
      * intros Hn. repeat split; auto; try apply V1; try apply V2; try lia.
        all: intros ->; cbn [andb] in Hn; lia.
      * intros (_ & _ & _ & _ & Hi). destruct i; cbn [andb]; [|reflexivity]. specialize (Hi eq_refl). lia.
    + split; [discriminate|]. intros (_ & _ & A & B & _). lia.
  - destruct (_ && _) eqn:E.
    + split.
      * intros Hn. repeat split; auto; try apply V1; try apply V2; try lia.
        all: intros ->; cbn [andb] in Hn; lia.
      * intros (_ & _ & _ & _ & Hi). destruct i; cbn [andb]; [|reflexivity]. specialize (Hi eq_refl). lia.
    + split; [discriminate|]. intros (_ & _ & A & B & _). lia.
Qed.

(* ---------------- every operation ---------------- *)
Definition step_ok g o : Prop :=
  rest_same g (gstep g o) /\
  (op_enabled g o -> read (gstep g o) (op_point o) (op_attr o) = op_value o (read g (op_point o) (op_attr o))) /\
  (forall q a, valid g q -> (op_enabled g o -> (q, a) <> (op_point o, op_attr o)) ->
     read (gstep g o) q a = read g q a).
Lemma step_noop g o : gstep g o = g -> ~ op_enabled g o -> step_ok g o.
Proof. intros E H. unfold step_ok. rewrite E. split; [apply rest_same_refl|]. split; [tauto|reflexivity]. Qed.
Lemma step_upd g o F : op_enabled g o -> valid g (op_point o) ->
  gstep g o = upd_word g (op_point o) F -> writes F (op_attr o) (op_value o) -> step_ok g o.
Proof.
  intros He Hv E HW. unfold step_ok. rewrite E. split; [apply upd_word_rest|].
  destruct (upd_word_read g (op_point o) F (op_attr o) (op_value o) Hv HW) as [A B].
  split; [intros _; exact A|]. intros q a Hq Hne. apply B; auto.
Qed.
Lemma edge_owner_valid g p d : valid g p -> valid g (step p d) -> valid g (owner p d).
Proof. destruct d; cbn; auto. Qed.
Lemma owner_eq g p d b i : isEdgeInBox g p d b i = true -> 
  isValidD g (owner p d) (match d with DW => DE | DS => DN | DD => DU | _ => d end) = true.
Proof.
  unfold isEdgeInBox. rewrite correct_spec. destruct (isValidD _ _ _); congruence.
Qed.
Lemma validD_iff g p d : d <> DUnk ->
  isValidD g (owner p d) (match d with DW => DE | DS => DN | DD => DU | _ => d end) = true <->
  valid g p /\ valid g (step p d).
Proof.
  intros Hd. unfold isValidD. rewrite reverse_spec. cbn [fst]. rewrite andb_true_iff, !isValid_iff.
  destruct d; cbn; try tauto; destruct p as [x y z]; cbn;
    rewrite ?Z.sub_add; tauto.
Qed.
Ltac wr := first [ apply (writes_set AEdgeE eq_refl) | apply (writes_set AEdgeN eq_refl)
  | apply (writes_set AEdgeU eq_refl) | apply (writes_set ABlockE eq_refl) | apply (writes_set ABlockN eq_refl)
  | apply (writes_set ABlockU eq_refl) | apply (writes_set ASVia eq_refl) | apply (writes_set AOverride eq_refl)
  | apply (writes_set AGridE eq_refl) | apply (writes_set AGridN eq_refl) | apply (writes_set AGridU eq_refl)
  | apply (writes_reset AEdgeE eq_refl) | apply (writes_reset AEdgeN eq_refl)
  | apply (writes_reset AEdgeU eq_refl) | apply (writes_reset ABlockE eq_refl) | apply (writes_reset ABlockN eq_refl)
  | apply (writes_reset ABlockU eq_refl) | apply (writes_reset AOverride eq_refl)
  | apply (writes_reset AGridE eq_refl) | apply (writes_reset AGridN eq_refl) | apply (writes_reset AGridU eq_refl)
  | apply (writes_add ADrcX 1 eq_refl ltac:(lia)) | apply (writes_add ADrcU 1 eq_refl ltac:(lia))
  | apply (writes_add AShapeX 1 eq_refl ltac:(lia)) | apply (writes_add AShapeU 1 eq_refl ltac:(lia))
  | apply (writes_add AMarkX 10 eq_refl ltac:(lia)) | apply (writes_add AMarkU 10 eq_refl ltac:(lia))
  | apply (writes_sub ADrcX 1 eq_refl ltac:(lia)) | apply (writes_sub ADrcU 1 eq_refl ltac:(lia))
  | apply (writes_sub AShapeX 1 eq_refl ltac:(lia)) | apply (writes_sub AShapeU 1 eq_refl ltac:(lia))
  | apply (writes_setBits ADrcX 0) | apply (writes_setBits ADrcU 0)
  | apply (writes_setBits AMarkX) | apply (writes_setBits AMarkU) ].

Lemma gstep_ok g o : op_safe g o -> step_ok g o.
Proof.
  intros Hs. destruct o; cbn [op_safe] in Hs.
  - (* AddEdge *)
    destruct (dir_eqb d DUnk) eqn:Ed.
    { assert (d = DUnk) by (destruct d; try discriminate; reflexivity). subst d.
      apply step_noop; [|cbn; tauto]. cbn. unfold addEdge. destruct (isEdgeInBox _ _ _ _ _); cbn; [|reflexivity].
      destruct (isValidD _ _ _); reflexivity. }
    assert (Hd : d <> DUnk) by (intros ->; discriminate).
    destruct (isEdgeInBox g p d b initDR) eqn:E.
    + pose proof (owner_eq _ _ _ _ _ E) as Hv.
      pose proof (proj1 (validD_iff g p d Hd) Hv) as [V1 V2].
      pose proof (proj1 (edge_in_box_iff g p d b initDR Hd) E) as Ha.
      assert (Hov : valid g (op_point (AddEdge p d b initDR))) by (apply edge_owner_valid; auto).
      assert (Hen : op_enabled g (AddEdge p d b initDR)) by (split; auto).
      assert (Eg : gstep g (AddEdge p d b initDR) =
        fst (match pos_by_dir 0 1 2 (match d with DW => DE | DS => DN | DD => DU | _ => d end) with
             | Some k => (upd_word g (owner p d) (fun w => setBit_w w k), true) | None => (g, false) end)).
      { cbn [gstep]. unfold addEdge. rewrite E, correct_spec. cbn [negb]. rewrite Hv. reflexivity. }
      destruct d; try congruence; (eapply step_upd; [exact Hen|exact Hov|exact Eg|cbn; wr]).
    + apply step_noop.
      * cbn. unfold addEdge. rewrite E. reflexivity.
      * cbn. intros [_ Ha]. apply edge_in_box_iff in Ha; [congruence|assumption].
  - (* RemoveEdge *)
    destruct (dir_eqb d DUnk) eqn:Ed.
    { assert (d = DUnk) by (destruct d; try discriminate; reflexivity). subst d.
      apply step_noop; [|cbn; tauto]. cbn. unfold removeEdge. cbn. destruct (isValidD _ _ _); reflexivity. }
    assert (Hd : d <> DUnk) by (intros ->; discriminate).
    destruct (isValidD g (owner p d) (match d with DW => DE | DS => DN | DD => DU | _ => d end)) eqn:Hv.
    + pose proof (proj1 (validD_iff g p d Hd) Hv) as [V1 V2].
      assert (Eg : gstep g (RemoveEdge p d) =
        fst (match pos_by_dir 0 1 2 (match d with DW => DE | DS => DN | DD => DU | _ => d end) with
             | Some k => (upd_word g (owner p d) (fun w => resetBit_w w k), true) | None => (g, false) end)).
      { cbn [gstep]. unfold removeEdge. rewrite correct_spec, Hv. reflexivity. }
      assert (Hov : valid g (owner p d)) by (apply edge_owner_valid; auto).
      destruct d; try congruence; (eapply step_upd; [split; auto|exact Hov|exact Eg|cbn; wr]).
    + apply step_noop.
      * cbn. unfold removeEdge. rewrite correct_spec, Hv. reflexivity.
      * cbn. intros [_ Ha]. apply (validD_iff g p d Hd) in Ha. congruence.
  - destruct (isValid g (owner p d)) eqn:Hv; [destruct (dir_eqb d DUnk) eqn:Ed|].
    + assert (d = DUnk) by (destruct d; try discriminate; reflexivity). subst d.
      apply step_noop; [|cbn; tauto]. cbn. unfold bit_by_dir. cbn. destruct (isValid g p); reflexivity.
    + assert (Hd : d <> DUnk) by (intros ->; discriminate). apply isValid_iff in Hv as Hv'.
      destruct d; try congruence; (eapply step_upd; [split; auto|exact Hv'|
        cbn [gstep]; unfold bit_by_dir; rewrite correct_spec, Hv; reflexivity|cbn; wr]).
    + apply step_noop.
      * cbn. unfold bit_by_dir. rewrite correct_spec, Hv. reflexivity.
      * cbn. intros [_ Ha]. apply isValid_iff in Ha. congruence.
  - destruct (isValid g (owner p d)) eqn:Hv; [destruct (dir_eqb d DUnk) eqn:Ed|].
    + assert (d = DUnk) by (destruct d; try discriminate; reflexivity). subst d.
      apply step_noop; [|cbn; tauto]. cbn. unfold bit_by_dir. cbn. destruct (isValid g p); reflexivity.
    + assert (Hd : d <> DUnk) by (intros ->; discriminate). apply isValid_iff in Hv as Hv'.
      destruct d; try congruence; (eapply step_upd; [split; auto|exact Hv'|
        cbn [gstep]; unfold bit_by_dir; rewrite correct_spec, Hv; reflexivity|cbn; wr]).
    + apply step_noop.
      * cbn. unfold bit_by_dir. rewrite correct_spec, Hv. reflexivity.
      * cbn. intros [_ Ha]. apply isValid_iff in Ha. congruence.
  - destruct (isValid g (owner p d)) eqn:Hv; [destruct (dir_eqb d DUnk) eqn:Ed|].
    + assert (d = DUnk) by (destruct d; try discriminate; reflexivity). subst d.
      apply step_noop; [|cbn; tauto]. cbn. unfold bit_by_dir. cbn. destruct (isValid g p); reflexivity.
    + assert (Hd : d <> DUnk) by (intros ->; discriminate). apply isValid_iff in Hv as Hv'.
      destruct d; try congruence; (eapply step_upd; [split; auto|exact Hv'|
        cbn [gstep]; unfold bit_by_dir; rewrite correct_spec, Hv; reflexivity|cbn; wr]).
    + apply step_noop.
      * cbn. unfold bit_by_dir. rewrite correct_spec, Hv. reflexivity.
      * cbn. intros [_ Ha]. apply isValid_iff in Ha. congruence.
  - destruct (isValid g (owner p d)) eqn:Hv; [destruct (dir_eqb d DUnk) eqn:Ed|].
    + assert (d = DUnk) by (destruct d; try discriminate; reflexivity). subst d.
      apply step_noop; [|cbn; tauto]. cbn. unfold bit_by_dir. cbn. destruct (isValid g p); reflexivity.
    + assert (Hd : d <> DUnk) by (intros ->; discriminate). apply isValid_iff in Hv as Hv'.
      destruct d; try congruence; (eapply step_upd; [split; auto|exact Hv'|
        cbn [gstep]; unfold bit_by_dir; rewrite correct_spec, Hv; reflexivity|cbn; wr]).
    + apply step_noop.
      * cbn. unfold bit_by_dir. rewrite correct_spec, Hv. reflexivity.
      * cbn. intros [_ Ha]. apply isValid_iff in Ha. congruence.
  - eapply step_upd; [exact Hs|exact Hs|reflexivity|cbn; wr].
  - eapply step_upd; [exact Hs|exact Hs|reflexivity|cbn; wr].
  - eapply step_upd; [exact Hs|exact Hs|reflexivity|cbn; wr].
  - eapply step_upd; [exact Hs|exact Hs|reflexivity|cbn; wr].
  - eapply step_upd; [exact Hs|exact Hs|reflexivity|cbn; wr].
  - eapply step_upd; [exact Hs|exact Hs|reflexivity|cbn; wr].
  - eapply step_upd; [exact Hs|exact Hs|reflexivity|cbn; wr].
  - eapply step_upd; [exact Hs|exact Hs|reflexivity|cbn; wr].
  - eapply step_upd; [exact Hs|exact Hs|reflexivity|cbn; wr].
  - eapply step_upd; [exact Hs|exact Hs|reflexivity|cbn; wr].
  - eapply step_upd; [exact Hs|exact Hs|reflexivity|cbn; wr].
  - eapply step_upd; [exact Hs|exact Hs|reflexivity|cbn; wr].
  - eapply step_upd; [exact Hs|exact Hs|reflexivity|cbn; wr].
  - eapply step_upd; [exact Hs|exact Hs|reflexivity|cbn; wr].
  - (* AddMarker *)
    destruct (isValid g (owner p d)) eqn:Hv; [destruct (dir_eqb d DUnk) eqn:Ed|].
    + assert (d = DUnk) by (destruct d; try discriminate; reflexivity). subst d.
      apply step_noop; [|cbn; tauto]. cbn. destruct (isValid g p); reflexivity.
    + assert (Hd : d <> DUnk) by (intros ->; discriminate). apply isValid_iff in Hv as Hv'.
      destruct d; try congruence; (eapply step_upd; [split; auto|exact Hv'|
        cbn [gstep]; rewrite correct_spec, Hv; reflexivity|cbn; wr]).
    + apply step_noop.
      * cbn [gstep]. rewrite correct_spec, Hv. reflexivity.
      * cbn. intros [_ Ha]. apply isValid_iff in Ha. congruence.
  - eapply step_upd; [exact Hs|exact Hs|reflexivity|cbn; wr].
  - eapply step_upd; [exact Hs|exact Hs|reflexivity|cbn; wr].
  - destruct (isValid g p) eqn:Hv.
    + apply isValid_iff in Hv as Hv'. eapply step_upd; [exact Hv'|exact Hv'|cbn [gstep op_point]; rewrite Hv; reflexivity|cbn; wr].
    + apply step_noop; [cbn; rewrite Hv; reflexivity|]. cbn. intros Ha. apply isValid_iff in Ha. congruence.
  - destruct (isValid g p) eqn:Hv.
    + apply isValid_iff in Hv as Hv'. eapply step_upd; [exact Hv'|exact Hv'|cbn [gstep op_point]; rewrite Hv; reflexivity|cbn; wr].
    + apply step_noop; [cbn; rewrite Hv; reflexivity|]. cbn. intros Ha. apply isValid_iff in Ha. congruence.
  - destruct (isValid g p) eqn:Hv.
    + apply isValid_iff in Hv as Hv'. eapply step_upd; [exact Hv'|exact Hv'|cbn [gstep op_point]; rewrite Hv; reflexivity|cbn; wr].
    + apply step_noop; [cbn; rewrite Hv; reflexivity|]. cbn. intros Ha. apply isValid_iff in Ha. congruence.
  - destruct (isValid g p) eqn:Hv.
    + apply isValid_iff in Hv as Hv'. eapply step_upd; [exact Hv'|exact Hv'|cbn [gstep op_point]; rewrite Hv; reflexivity|cbn; wr].
    + apply step_noop; [cbn; rewrite Hv; reflexivity|]. cbn. intros Ha. apply isValid_iff in Ha. congruence.
Qed.

(* words stay below 2^64 *)
Lemma upd_word_ok g p F : words_ok g -> (forall w, 0 <= w < 2 ^ 64 -> 0 <= F w < 2 ^ 64) -> words_ok (upd_word g p F).
Proof. intros H HF i. unfold upd_word, with_bits, upd; cbn. destruct (i =? _); auto. Qed.
Lemma setBits_range_attr w a v : 0 <= w < 2 ^ 64 -> 0 <= setBits_w w (attr_pos a) (attr_len a) v < 2 ^ 64.
Proof. intros. apply setBits_range; auto using attr_pos_nn, attr_len_nn. destruct a; cbn; lia. Qed.
Lemma gstep_words g o : words_ok g -> words_ok (gstep g o).
Proof.
  intros H.
  assert (S1 : forall k w, 0 <= k <= 62 -> 0 <= w < 2 ^ 64 -> 0 <= setBit_w w k < 2 ^ 64).
  { intros. rewrite setBit_setBits by lia. apply setBits_range; lia. }
  assert (R1 : forall k w, 0 <= k <= 62 -> 0 <= w < 2 ^ 64 -> 0 <= resetBit_w w k < 2 ^ 64).
  { intros. rewrite resetBit_setBits by lia. apply setBits_range; lia. }
  assert (S8 : forall k w v, 0 <= k <= 56 -> 0 <= w < 2 ^ 64 -> 0 <= setBits_w w k 8 v < 2 ^ 64).
  { intros. apply setBits_range; lia. }
  assert (BD : forall p d a b c f, 0 <= a <= 62 -> 0 <= b <= 62 -> 0 <= c <= 62 ->
    (forall k w, 0 <= k <= 62 -> 0 <= w < 2 ^ 64 -> 0 <= f w k < 2 ^ 64) -> words_ok (bit_by_dir g p d a b c f)).
  { intros p d a b c f Ha Hb Hc Hf. unfold bit_by_dir. destruct (correct p d) as [p' d'].
    destruct (isValid g p'); [|assumption].
    destruct d'; cbn; try assumption; apply upd_word_ok; auto. }
  destruct o; cbn [gstep]; try (apply upd_word_ok; [assumption|]; intros w Hw; cbn beta;
    try unfold addToBits_w, subToBits_w; (apply S1 || apply R1 || apply S8); lia);
    try (apply BD; auto; lia).
  - unfold addEdge. destruct (negb _); [assumption|]. destruct (correct p d) as [p' d'].
    destruct (isValidD g p' d'); [|assumption]. destruct d'; cbn; try assumption; apply upd_word_ok; auto; intros; apply S1; lia.
  - unfold removeEdge. destruct (correct p d) as [p' d'].
    destruct (isValidD g p' d'); [|assumption]. destruct d'; cbn; try assumption; apply upd_word_ok; auto; intros; apply R1; lia.
  - destruct (correct p d) as [p' d']. destruct (isValid g p'); [|assumption].
    destruct d'; try assumption; (apply upd_word_ok; [assumption|]; intros w Hw; unfold addToBits_w; apply S8; lia).
  - destruct (isValid g p); [|assumption]. apply upd_word_ok; [assumption|]; intros w Hw; unfold addToBits_w; apply S8; lia.
  - destruct (isValid g p); [|assumption]. apply upd_word_ok; [assumption|]; intros w Hw; unfold addToBits_w; apply S8; lia.
  - destruct (isValid g p); [|assumption]. apply upd_word_ok; [assumption|]; intros w Hw; unfold subToBits_w; apply S8; lia.
  - destruct (isValid g p); [|assumption]. apply upd_word_ok; [assumption|]; intros w Hw; unfold subToBits_w; apply S8; lia.
Qed.
