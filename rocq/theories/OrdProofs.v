From Verif Require Import Base GeomModel OrdModel OrdSpec.
From Coq Require Import Permutation Sorted.

(* comparison by four numbers *)
Definition lex (a b : Z * Z * Z * Z) : bool :=
  let '(a1, a2, a3, a4) := a in let '(b1, b2, b3, b4) := b in
  if a1 =? b1 then if a2 =? b2 then if a3 =? b3 then a4 <? b4 else a3 <? b3 else a2 <? b2 else a1 <? b1.
Definition key (fm : Z) (a : oinfo) : Z * Z * Z * Z :=
  if (fm =? 0) || (fm =? 9) then (0, oi_num a, area32 (oi_box a), on_id (oi_net a))
  else if (fm =? 1) || (fm =? 2) then (on_dist (oi_net a), 0, 0, on_id (oi_net a))
  else (on_dist (oi_net a), oi_num a, area32 (oi_box a), on_id (oi_net a)).
Lemma comp_key fm c : comp_of fm = Some c -> forall a b, c a b = lex (key fm a) (key fm b).
Proof.
  unfold comp_of, key. intros H a b. destruct ((fm =? 0) || (fm =? 9)).
  - injection H as <-. unfold lex, comp1. rewrite Z.eqb_refl. reflexivity.
  - destruct ((fm =? 1) || (fm =? 2)).
    + injection H as <-. unfold lex, comp2. rewrite !Z.eqb_refl. reflexivity.
    + destruct ((fm =? 3) || (fm =? 4) || (fm =? 5)); [|discriminate]. injection H as <-. reflexivity.
Qed.
Lemma key_id fm a b : key fm a = key fm b -> on_id (oi_net a) = on_id (oi_net b).
Proof. unfold key. destruct ((fm =? 0) || (fm =? 9)); [congruence|]. destruct ((fm =? 1) || (fm =? 2)); congruence. Qed.
Ltac lx := unfold lex; repeat match goal with |- context [?x =? ?y] => destruct (Z.eqb_spec x y) | H : context [?x =? ?y] |- _ => destruct (Z.eqb_spec x y) end;
  rewrite ?Z.ltb_lt, ?Z.ltb_ge in *; try congruence; try lia.
Lemma lex_trans a b c : lex a b = true -> lex b c = true -> lex a c = true.
Proof. destruct a as [[[? ?] ?] ?], b as [[[? ?] ?] ?], c as [[[? ?] ?] ?]. unfold lex. intros H1 H2. lx. Qed.
Lemma lex_total a b : lex a b = false -> lex b a = false -> a = b.
Proof. destruct a as [[[? ?] ?] ?], b as [[[? ?] ?] ?]. unfold lex. intros H1 H2. lx. assert (z2 = z6) by lia. subst. reflexivity. Qed.
Lemma lex_asym a b : lex a b = true -> lex b a = false.
Proof. destruct a as [[[? ?] ?] ?], b as [[[? ?] ?] ?]. unfold lex. intros H1. lx. Qed.

Section S.
Variable lt : oinfo -> oinfo -> bool.
Variable k : oinfo -> Z * Z * Z * Z.
Hypothesis Hk : forall a b, lt a b = lex (k a) (k b).
Hypothesis Hid : forall a b, k a = k b -> on_id (oi_net a) = on_id (oi_net b).
Lemma ins_perm x l : Permutation (x :: l) (ins lt x l).
Proof. induction l as [|y r IH]; cbn [ins]; [reflexivity|]. destruct (lt y x); [|reflexivity]. rewrite perm_swap. constructor. exact IH. Qed.
Lemma isort_perm l : Permutation l (isort lt l).
Proof. induction l as [|x r IH]; cbn [isort]; [constructor|]. rewrite <- ins_perm. constructor. exact IH. Qed.
Definition ids (l : list oinfo) : list Z := map (fun a => on_id (oi_net a)) l.
Lemma ins_sorted x l : NoDup (ids (x :: l)) -> StronglySorted (fun a b => lt a b = true) l -> StronglySorted (fun a b => lt a b = true) (ins lt x l).
Proof.
  induction l as [|y r IH]; intros N S; cbn [ins]; [constructor; constructor|]. inversion S as [|? ? S1 S2]; subst. cbn [ids map] in N. inversion N as [|? ? N1 N2]; subst.
  destruct (lt y x) eqn:E.
  - constructor.
    + apply IH; [|exact S1]. constructor; [|inversion N2; assumption]. intros Hi. apply N1. right. exact Hi.
    + apply Forall_forall. intros z Hz. apply (Permutation_in _ (Permutation_sym (ins_perm x r))) in Hz as [<-|Hz]; [exact E|]. rewrite Forall_forall in S2. apply S2, Hz.
  - assert (X : lt x y = true).
    { destruct (lt x y) eqn:X; [reflexivity|]. exfalso. rewrite Hk in E, X. apply N1. left. symmetry. apply Hid, lex_total; assumption. }
    constructor; [exact S|]. constructor; [exact X|]. apply Forall_forall. intros z Hz. rewrite Forall_forall in S2. specialize (S2 z Hz). rewrite Hk in *. exact (lex_trans _ _ _ X S2).
Qed.
Lemma ids_perm l l' : Permutation l l' -> Permutation (ids l) (ids l').
Proof. apply Permutation_map. Qed.
Lemma isort_sorted l : NoDup (ids l) -> StronglySorted (fun a b => lt a b = true) (isort lt l).
Proof.
  induction l as [|x r IH]; intros N; cbn [isort]; [constructor|]. apply ins_sorted.
  - apply (Permutation_NoDup (l := ids (x :: r))); [apply ids_perm; constructor; apply isort_perm|exact N].
  - apply IH. inversion N; assumption.
Qed.
Lemma sorted_unique l : forall l', Permutation l l' -> StronglySorted (fun a b => lt a b = true) l -> StronglySorted (fun a b => lt a b = true) l' -> l = l'.
Proof.
  induction l as [|x r IH]; intros l' P S S'; [apply Permutation_nil in P; congruence|]. destruct l' as [|y r']; [symmetry in P; apply Permutation_nil in P; discriminate|].
  inversion S as [|? ? S1 S2]; subst. inversion S' as [|? ? S1' S2']; subst. rewrite Forall_forall in S2, S2'.
  assert (E : x = y).
  { destruct (Permutation_in x P (or_introl eq_refl)) as [H|H]; [congruence|]. destruct (Permutation_in y (Permutation_sym P) (or_introl eq_refl)) as [H'|H']; [congruence|].
    specialize (S2 y H'). specialize (S2' x H). rewrite Hk in *. apply lex_asym in S2. congruence. }
  subst y. f_equal. apply IH; [apply Permutation_cons_inv in P; exact P|exact S1|exact S1'].
Qed.
(* a list without an inversion of the comparison is sorted *)
Lemma no_inversion l : NoDup (ids l) -> ForallOrdPairs (fun a b => lt b a = false) l -> StronglySorted (fun a b => lt a b = true) l.
Proof.
  induction l as [|x r IH]; intros N F; [constructor|]. inversion N as [|? ? N1 N2]; subst. inversion F as [|? ? F1 F2]; subst. constructor; [apply IH; assumption|].
  rewrite Forall_forall in *. intros y Hy. destruct (lt x y) eqn:X; [reflexivity|]. exfalso. apply N1. specialize (F1 y Hy). rewrite Hk in *. rewrite (Hid x y (lex_total _ _ X F1)). apply (in_map (fun a => on_id (oi_net a))), Hy.
Qed.
End S.
(* exchanges *)
Lemma setn_app {A} (l1 l2 : list A) x y : setn (length l1) x (l1 ++ y :: l2) = l1 ++ x :: l2.
Proof. induction l1; cbn; congruence. Qed.
Lemma setn_length {A} i (x : A) l : length (setn i x l) = length l.
Proof. revert i. induction l; intros [|i]; cbn; auto. Qed.
Lemma setn_same {A} i (x : A) l : nth_error l i = Some x -> setn i x l = l.
Proof. revert i. induction l; intros [|i] H; cbn in *; try congruence. f_equal; auto. Qed.
Lemma setn_nth {A} (l : list A) : forall i j x, nth_error (setn i x l) j = if Nat.eqb i j then match nth_error l j with Some _ => Some x | None => None end else nth_error l j.
Proof. induction l as [|y r IH]; intros [|i] [|j] x; cbn; auto. destruct (Nat.eqb i j); reflexivity. Qed.
Lemma setn_perm {A} (l : list A) : forall j a y, nth_error l j = Some y -> Permutation (y :: setn j a l) (a :: l).
Proof.
  induction l as [|z r IH]; intros [|j] a y H; cbn in *; try discriminate; [injection H as ->; apply perm_swap|].
  rewrite perm_swap. rewrite (IH j a y H). apply perm_swap.
Qed.
Lemma swap_perm {A} (l : list A) i : Permutation (swap_at l i) l.
Proof.
  unfold swap_at. set (j := Nat.modulo (i + 1) (length l)). destruct (nth_error l i) as [a|] eqn:Ei; [|reflexivity]. destruct (nth_error l j) as [b|] eqn:Ej; [|reflexivity].
  destruct (Nat.eq_dec i j) as [E|N].
  - rewrite <- E in *. replace b with a in * by congruence. rewrite (setn_same i a l Ei), (setn_same i a l Ei). reflexivity.
  - assert (Ej' : nth_error (setn i b l) j = Some b). { rewrite setn_nth. destruct (Nat.eqb_spec i j); [contradiction|exact Ej]. }
    apply (Permutation_cons_inv (a := b)). rewrite (setn_perm _ j a b Ej'). rewrite (setn_perm l i b a Ei). reflexivity.
Qed.
Lemma swaps_perm {A} idx : forall l : list A, Permutation (fold_left swap_at idx l) l.
Proof. induction idx as [|i r IH]; intros l; cbn [fold_left]; [reflexivity|]. rewrite IH. apply swap_perm. Qed.
(* the points *)
Lemma pin_point_at p q : pin_point p = Some q -> at_point p q.
Proof.
  destruct p as [aps]. unfold pin_point. cbn [op_aps]. intros H.
  assert (F : forall l, match find (fun a : point * Z => snd a =? 0) l with Some a => exists l1 l2, l = l1 ++ (fst a, 0) :: l2 /\ Forall (fun a => snd a <> 0) l1 | None => Forall (fun a => snd a <> 0) l end).
  { induction l as [|[a c] l IH]; cbn [find]; [constructor|]. cbn [snd]. destruct (Z.eqb_spec c 0) as [->|N]; [exists [], l; split; [reflexivity|constructor]|].
    destruct (find (fun a => snd a =? 0) l) as [b|]; [destruct IH as (l1 & l2 & -> & F); exists ((a, c) :: l1), l2; split; [reflexivity|constructor; assumption]|constructor; assumption]. }
  specialize (F aps). destruct (find (fun a => snd a =? 0) aps) as [a|].
  - injection H as <-. destruct F as (l1 & l2 & -> & F). apply at_free, F.
  - destruct aps as [|[a c] aps]; [discriminate|]. injection H as <-. apply at_first, F.
Qed.
Lemma points_at ps : forall l, points ps = Some l -> Forall2 at_point ps l.
Proof.
  induction ps as [|p ps IH]; cbn [points]; intros l H; [injection H as <-; constructor|]. destruct (pin_point p) as [a|] eqn:E; [|discriminate]. destruct (points ps) as [r|]; [|discriminate].
  injection H as <-. constructor; [apply pin_point_at, E|apply IH; reflexivity].
Qed.
Lemma points_some ps : (forall p, In p ps -> op_aps p <> []) -> exists l, points ps = Some l.
Proof.
  induction ps as [|p ps IH]; intros H; [exists []; reflexivity|]. destruct IH as [l E]; [intros q Hq; apply H; right; exact Hq|]. cbn [points]. rewrite E.
  assert (N := H p (or_introl eq_refl)). unfold pin_point. destruct (find (fun a => snd a =? 0) (op_aps p)) as [a|]; [eexists; reflexivity|]. destruct (op_aps p) as [|a ?]; [contradiction|eexists; reflexivity].
Qed.
Lemma at_pin_point p q : at_point p q -> pin_point p = Some q.
Proof.
  intros [l1 a l2 F|a c l F]; unfold pin_point; cbn [op_aps].
  - induction F as [|[b d] l1 N F IH]; cbn [app find snd]; [reflexivity|]. cbn [snd] in N. destruct (Z.eqb_spec d 0); [contradiction|].
    destruct (find (fun a => snd a =? 0) (l1 ++ (a, 0) :: l2)) eqn:E; [exact IH|]. exfalso. assert (X : In (a, 0) (l1 ++ (a, 0) :: l2)) by (apply in_or_app; right; left; reflexivity). apply (find_none _ _ E) in X. discriminate X.
  - assert (E : find (fun a => snd a =? 0) ((a, c) :: l) = None).
    { destruct (find (fun a => snd a =? 0) ((a, c) :: l)) as [b|] eqn:E; [|reflexivity]. exfalso. apply find_some in E as [E1 E2]. rewrite Forall_forall in F. apply Z.eqb_eq in E2. exact (F b E1 E2). }
    rewrite E. reflexivity.
Qed.
Lemma at_fun p a b : at_point p a -> at_point p b -> a = b.
Proof. intros A B. apply at_pin_point in A, B. congruence. Qed.
(* the box *)
Lemma grow_spec ps : forall x1 y1 x2 y2, let '(a1, b1, a2, b2) := fold_left grow ps (x1, y1, x2, y2) in
  a1 <= x1 /\ b1 <= y1 /\ x2 <= a2 /\ y2 <= b2 /\
  (forall p, In p ps -> a1 <= px p <= a2 /\ b1 <= py p <= b2) /\
  (a1 = x1 \/ exists p, In p ps /\ px p = a1) /\ (b1 = y1 \/ exists p, In p ps /\ py p = b1) /\
  (a2 = x2 \/ exists p, In p ps /\ px p = a2) /\ (b2 = y2 \/ exists p, In p ps /\ py p = b2).
Proof.
  induction ps as [|p ps IH]; intros x1 y1 x2 y2; cbn [fold_left].
  - repeat split; try lia; try (left; reflexivity); contradiction.
  - unfold grow at 2. rewrite !Z.gtb_ltb.
    specialize (IH (if px p <? x1 then px p else x1) (if py p <? y1 then py p else y1) (if x2 <? px p then px p else x2) (if y2 <? py p then py p else y2)).
    destruct (fold_left grow ps _) as [[[a1 b1] a2] b2]. destruct IH as (H1 & H2 & H3 & H4 & H5 & E1 & E2 & E3 & E4).
    assert (M : forall (f : point -> Z) v w (c : bool), (v = (if c then f p else w) \/ exists q, In q ps /\ f q = v) -> v = w \/ exists q, In q (p :: ps) /\ f q = v).
    { intros f v w c [->|(q & Q1 & Q2)]; [destruct c; [right; exists p; split; [left|]; reflexivity|left; reflexivity]|right; exists q; split; [right; exact Q1|exact Q2]]. }
    assert (L1 : a1 <= x1 /\ a1 <= px p) by (destruct (Z.ltb_spec (px p) x1); lia).
    assert (L2 : b1 <= y1 /\ b1 <= py p) by (destruct (Z.ltb_spec (py p) y1); lia).
    assert (L3 : x2 <= a2 /\ px p <= a2) by (destruct (Z.ltb_spec x2 (px p)); lia).
    assert (L4 : y2 <= b2 /\ py p <= b2) by (destruct (Z.ltb_spec y2 (py p)); lia).
    split; [lia|]. split; [lia|]. split; [lia|]. split; [lia|]. split; [intros q [<-|Hq]; [lia|apply H5, Hq]|].
    split; [exact (M px _ _ _ E1)|]. split; [exact (M py _ _ _ E2)|]. split; [exact (M px _ _ _ E3)|exact (M py _ _ _ E4)].
Qed.
Lemma in_b_spec b p : in_b b p = true <-> inside b p.
Proof. unfold in_b, inside. rewrite !andb_true_iff, !Z.leb_le. lia. Qed.
Lemma count_spec b ps : count_inside b ps (Z.of_nat (length (filter (in_b b) ps))).
Proof.
  induction ps as [|p ps IH]; cbn [filter]; [constructor|]. destruct (in_b b p) eqn:E.
  - cbn [length]. rewrite Nat2Z.inj_succ. apply ci_in; [apply in_b_spec, E|exact IH].
  - apply ci_out; [rewrite <- in_b_spec; congruence|exact IH].
Qed.
Lemma wrap_small z : 0 <= z < 2147483648 -> wrap32 z = z.
Proof. intros H. unfold wrap32. rewrite Z.mod_small by lia. lia. Qed.
Lemma infos_spec ext all ns : forall l, infos ext all ns = Some l -> Forall2 (fun n a => info ext all n = Some a) ns l.
Proof.
  induction ns as [|n ns IH]; cbn [infos]; intros l H; [injection H as <-; constructor|]. destruct (info ext all n) eqn:E; [|discriminate]. destruct (infos ext all ns); [|discriminate].
  injection H as <-. constructor; [exact E|apply IH; reflexivity].
Qed.
Lemma infos_some ext all ns : (forall n p, In n ns -> In p (on_pins n) -> op_aps p <> []) -> exists l, infos ext all ns = Some l.
Proof.
  induction ns as [|n ns IH]; intros H; [exists []; reflexivity|]. destruct IH as [l E]; [intros m p M; apply H; right; exact M|]. cbn [infos]. rewrite E.
  destruct (points_some (on_pins n)) as [ps Ep]; [intros p; apply H; left; reflexivity|]. unfold info. rewrite Ep. destruct (fold_left grow ps _) as [[[? ?] ?] ?]. eexists; reflexivity.
Qed.
Lemma info_net ext all n a : info ext all n = Some a -> oi_net a = n.
Proof. unfold info. destruct (points (on_pins n)); [|discriminate]. destruct (fold_left grow _ _) as [[[? ?] ?] ?]. intros H. injection H as <-. destruct (_ && _); reflexivity. Qed.
Lemma infos_nets ext all ns : forall l, infos ext all ns = Some l -> map oi_net l = ns.
Proof. intros l H. apply infos_spec in H. induction H as [|n a ns l H F IH]; [reflexivity|]. cbn [map]. rewrite IH, (info_net _ _ _ _ H). reflexivity. Qed.
Definition good (ext : box) : Prop := bleft ext < bright ext /\ bbottom ext < btop ext.
Lemma info_hull ext all n a ps : points (on_pins n) = Some ps -> info ext all n = Some a -> good ext -> (forall p, In p ps -> inside ext p) ->
  (ps = [] -> oi_num a = 99999 /\ oi_box a = ext) /\
  (ps <> [] -> hull (oi_box a) ps /\ oi_num a = Z.of_nat (length (filter (in_b (oi_box a)) all))).
Proof.
  unfold info. intros -> H [G1 G2] I. pose proof (grow_spec ps (bright ext) (btop ext) (bleft ext) (bbottom ext)) as S.
  destruct (fold_left grow ps _) as [[[x1 y1] x2] y2] eqn:E. destruct S as (_ & _ & _ & _ & S & S1 & S2 & S3 & S4). split; intros N.
  - subst ps. cbn [fold_left] in E. injection E as <- <- <- <-. destruct (Z.leb_spec (bright ext) (bleft ext)); [lia|]. cbn [andb] in H. injection H as <-. split; reflexivity.
  - destruct ps as [|p ps]; [contradiction|]. set (qs := p :: ps) in *.
    assert (Ip : In p qs) by (left; reflexivity). pose proof (S p Ip) as Sp.
    destruct (Z.leb_spec x1 x2); [|lia]. destruct (Z.leb_spec y1 y2); [|lia]. cbn [andb] in H. injection H as <-. cbn [oi_box oi_num].
    assert (B : box_set x1 y1 x2 y2 = mkBox (mkPt x1 y1) (mkPt x2 y2)).
    { unfold box_set. repeat (match goal with |- context [?u >? ?v] => rewrite (Z.gtb_ltb u v) end). repeat match goal with |- context [?u <? ?v] => destruct (Z.ltb_spec u v) end; repeat match goal with |- context [?u <=? ?v] => destruct (Z.leb_spec u v) end; try reflexivity; try (repeat f_equal; lia). }
    rewrite B. split; [|reflexivity]. unfold hull, inside, bleft, bright, bbottom, btop. cbn [ll ur px py].
    pose proof (I p Ip) as [Px Py]. split; [exact S|].
    assert (T1 : exists p, In p qs /\ px p = x1). { destruct S1 as [->|S1]; [|exact S1]. exists p. split; [exact Ip|]. lia. }
    assert (T2 : exists p, In p qs /\ px p = x2). { destruct S3 as [->|S3]; [|exact S3]. exists p. split; [exact Ip|]. lia. }
    assert (T3 : exists p, In p qs /\ py p = y1). { destruct S2 as [->|S2]; [|exact S2]. exists p. split; [exact Ip|]. lia. }
    assert (T4 : exists p, In p qs /\ py p = y2). { destruct S4 as [->|S4]; [|exact S4]. exists p. split; [exact Ip|]. lia. }
    repeat split; assumption.
Qed.
Lemma points_perm a : forall b, Permutation a b -> forall l, points a = Some l -> exists m, points b = Some m /\ Permutation l m.
Proof.
  intros b P. induction P as [|x a b P IH|x y a|a b c P1 IH1 P2 IH2]; intros l H.
  - exists l. split; [exact H|reflexivity].
  - cbn [points] in *. destruct (pin_point x); [|discriminate]. destruct (points a) as [r|]; [|discriminate]. injection H as <-. destruct (IH r eq_refl) as (m & -> & Q). eexists. split; [reflexivity|constructor; exact Q].
  - cbn [points] in *. destruct (pin_point y); [|discriminate]. destruct (pin_point x); [|discriminate]. destruct (points a); [|discriminate]. injection H as <-. eexists. split; [reflexivity|constructor].
  - destruct (IH1 l H) as (m & H1 & Q1). destruct (IH2 m H1) as (n & H2 & Q2). exists n. split; [exact H2|]. rewrite Q1. exact Q2.
Qed.
Lemma filter_len {A} (f : A -> bool) a b : Permutation a b -> length (filter f a) = length (filter f b).
Proof. intros P. induction P as [|x a b P IH|x y a|a b c P1 IH1 P2 IH2]; cbn [filter]; [reflexivity|destruct (f x); cbn [length]; congruence|destruct (f x), (f y); reflexivity|congruence]. Qed.
Lemma info_perm ext a b n : Permutation a b -> info ext a n = info ext b n.
Proof. intros P. unfold info. destruct (points (on_pins n)); [|reflexivity]. destruct (fold_left grow _ _) as [[[? ?] ?] ?]. rewrite (filter_len _ _ _ P). reflexivity. Qed.
Lemma infos_perm ext a b ns ns' : Permutation a b -> Permutation ns ns' -> forall l, infos ext a ns = Some l -> exists m, infos ext b ns' = Some m /\ Permutation l m.
Proof.
  intros PA P. induction P as [|x s t P IH|x y s|s t u P1 IH1 P2 IH2]; intros l H.
  - exists l. split; [exact H|reflexivity].
  - cbn [infos] in *. rewrite <- (info_perm ext a b x PA). destruct (info ext a x); [|discriminate]. destruct (infos ext a s) as [r|]; [|discriminate]. injection H as <-. destruct (IH r eq_refl) as (m & -> & Q). eexists. split; [reflexivity|constructor; exact Q].
  - assert (K : infos ext b (x :: y :: s) = infos ext a (x :: y :: s)). { clear H. generalize (x :: y :: s). induction l0 as [|z r IH]; [reflexivity|]. cbn [infos]. rewrite IH, (info_perm ext a b z PA). reflexivity. }
    rewrite K. cbn [infos] in *. destruct (info ext a y); [|discriminate]. destruct (info ext a x); [|discriminate]. destruct (infos ext a s); [|discriminate]. injection H as <-. eexists. split; [reflexivity|constructor].
  - destruct (IH1 l H) as (m & H1 & Q1).
    assert (K : forall r, infos ext b r = infos ext a r). { induction r as [|z r IHr]; [reflexivity|]. cbn [infos]. rewrite IHr, (info_perm ext a b z PA). reflexivity. }
    rewrite K in H1. destruct (IH2 m H1) as (n & H2 & Q2). exists n. split; [exact H2|]. rewrite Q1. exact Q2.
Qed.
