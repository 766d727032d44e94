From Verif Require Import Base GeomModel LvModel LvSpec.
From Coq Require Import List String Permutation.
Open Scope list_scope.

Lemma class_idx_app cs : forall w l i f, class_idx cs w l i f =
  match class_idx cs w l i None with Some k => Some k | None => f end.
Proof.
  induction cs as [|[cw cl] cs IH]; intros w l i f; cbn [class_idx]; [reflexivity|]. rewrite (IH w l (S i) (if _ && _ then _ else f)), (IH w l (S i) (if _ && _ then _ else None)).
  destruct (class_idx cs w l (S i) None); [reflexivity|]. destruct ((cw =? w) && (cl =? l)); reflexivity.
Qed.
Lemma class_idx_spec cs : forall w l i, match class_idx cs w l i None with
  | Some k => exists j, k = (i + j)%nat /\ nth_error cs j = Some (w, l) /\ forall j', (j < j')%nat -> nth_error cs j' <> Some (w, l)
  | None => ~ In (w, l) cs
  end.
Proof.
  induction cs as [|[cw cl] cs IH]; intros w l i; cbn [class_idx]; [intros []|]. rewrite class_idx_app. specialize (IH w l (S i)). destruct (class_idx cs w l (S i) None) as [k|].
  - destruct IH as (j & -> & N & L). exists (S j). split; [lia|]. split; [exact N|]. intros [|j'] H; [lia|]. apply L. lia.
  - destruct ((cw =? w) && (cl =? l)) eqn:E.
    + apply Bool.andb_true_iff in E as (A & B). apply Z.eqb_eq in A as ->. apply Z.eqb_eq in B as ->. exists O. split; [lia|]. split; [reflexivity|]. intros [|j'] H Q; [lia|]. apply IH. cbn in Q. exact (nth_error_In _ _ Q).
    + intros [H|H]; [|exact (IH H)]. injection H as -> ->. rewrite !Z.eqb_refl in E. discriminate.
Qed.
Lemma find_class_spec cs figs : class_of cs figs (find_class cs figs).
Proof.
  induction figs as [|s figs IH]; cbn [find_class]; [constructor|].
  assert (SK : classless cs s -> class_of cs figs (find_class cs figs) -> class_of cs (s :: figs) (find_class cs figs)).
  { intros C H. destruct (find_class cs figs) as [k|]; cbn in *; [destruct H as (a & x & b & -> & F & H); exists (s :: a), x, b; split; [reflexivity|]; split; [constructor; assumption|exact H]|constructor; assumption]. }
  destruct s as [n b|n ps]; [|apply SK; [intros c _ []|exact IH]].
  assert (H := class_idx_spec cs (box_width b) (box_length b) O). destruct (class_idx cs (box_width b) (box_length b) 0 None) as [k|].
  - destruct H as (j & -> & N & L). exists [], (SRect n b), figs. split; [reflexivity|]. split; [constructor|]. split.
    + exists (box_width b, box_length b). split; [exact N|]. split; reflexivity.
    + intros k' [cw cl] Hk Q (A & B). apply (L k' Hk). rewrite Q. cbn in A, B. rewrite A, B. reflexivity.
  - apply SK; [|exact IH]. intros [cw cl] I (A & B). apply H. cbn in A, B. rewrite A, B in I. exact I.
Qed.
Lemma class_of_fun cs figs o o' : class_of cs figs o -> class_of cs figs o' -> o = o'.
Proof.
  assert (HC : forall s k, has_class cs s k -> ~ classless cs s) by (intros s k ((c & N & O) & _) H; exact (H c (nth_error_In _ _ N) O)).
  assert (IN : forall a s b k, figs = a ++ s :: b -> has_class cs s k -> ~ Forall (classless cs) figs).
  { intros a s b k -> H F. rewrite Forall_forall in F. apply (HC s k H). apply F, in_app_iff. cbn. auto. }
  destruct o as [k|], o' as [k'|]; cbn; intros H H'.
  - destruct H as (a & s & b & E & F & C), H' as (a' & s' & b' & E' & F' & C').
    assert (EA : a = a' /\ s = s').
    { rewrite E in E'. clear E IN. revert a' E' F'. induction a as [|x a IH]; intros [|x' a'] E' F'; cbn in E'.
      - injection E' as -> ->. auto.
      - injection E' as -> E'. inversion F'; subst. destruct (HC _ _ C). assumption.
      - injection E' as -> E'. inversion F; subst. destruct (HC _ _ C'). assumption.
      - injection E' as -> E'. inversion F; inversion F'; subst. destruct (IH ltac:(assumption) a' E' ltac:(assumption)) as (-> & ->). auto. }
    destruct EA as (-> & ->). f_equal. destruct C as ((c & N & O) & L), C' as ((c' & N' & O') & L'). destruct (lt_eq_lt_dec k k') as [[Q|Q]|Q]; [destruct (L k' c' Q N' O')|exact Q|destruct (L' k c Q N O)].
  - destruct H as (a & s & b & E & _ & C). destruct (IN a s b k E C H').
  - destruct H' as (a & s & b & E & _ & C). destruct (IN a s b k' E C H).
  - reflexivity.
Qed.
Section P.
Variable T : Type.
Variable dbu : T -> Z.
Variable layer_num : string -> option Z.
Variable cut_classes : Z -> list (Z * Z).
Notation metal := (metal T dbu).
Notation shapes := (shapes T dbu).
Notation read_via := (read_via T dbu layer_num cut_classes).
Lemma shapes_metal n l : shapes n l = metal n l.
Proof.
  unfold LvModel.shapes, LvSpec.metal. f_equal; apply map_ext.
  - intros [[[a b] c] d]. unfold rect_box, box_set. f_equal. f_equal; f_equal; zcases; lia.
  - intros ps. f_equal. apply map_ext. intros []. reflexivity.
Qed.
(* the three layers, sorted *)
Definition sorted3 (ls : list (vlayer T)) (m : list (Z * nat)) : Prop :=
  exists n0 n1 n2 i0 i1 i2 b c t, m = [(n0, i0); (n1, i1); (n2, i2)] /\ n0 < n1 < n2 /\ nth_error ls i0 = Some b /\ nth_error ls i1 = Some c /\ nth_error ls i2 = Some t /\
    Permutation ls [b; c; t] /\ layer_num (vl_name b) = Some n0 /\ layer_num (vl_name c) = Some n1 /\ layer_num (vl_name t) = Some n2.
Lemma map3 x y z a b c : layer_num (vl_name x) = Some a -> layer_num (vl_name y) = Some b -> layer_num (vl_name z) = Some c -> a <> b -> a <> c -> b <> c ->
  exists m, layer_map T layer_num O [x; y; z] [] = Some m /\ sorted3 [x; y; z] m.
Proof.
  intros X Y Z Nab Nac Nbc. cbn [layer_map]. rewrite X, Y, Z. eexists. split; [reflexivity|]. cbn [minsert].
  assert (P1 : Permutation [x; y; z] [x; z; y]) by (constructor; constructor). assert (P2 : Permutation [x; y; z] [y; x; z]) by constructor. assert (P3 : Permutation [x; y; z] [y; z; x]) by (eapply perm_trans; [apply perm_swap|constructor; constructor]).
  assert (P4 : Permutation [x; y; z] [z; x; y]) by (apply Permutation_sym; eapply perm_trans; [apply perm_swap|constructor; constructor]). assert (P5 : Permutation [x; y; z] [z; y; x]) by (apply (perm_trans P3); constructor).
  destruct (Z.ltb_spec b a) as [L1|L1]; cbn [minsert].
  - destruct (Z.ltb_spec c b) as [L2|L2]; [exists c, b, a, 2%nat, 1%nat, 0%nat, z, y, x; repeat split; try reflexivity; try lia; assumption|].
    destruct (Z.eqb_spec c b) as [E|_]; [congruence|]. cbn [minsert]. destruct (Z.ltb_spec c a) as [L3|L3]; [exists b, c, a, 1%nat, 2%nat, 0%nat, y, z, x; repeat split; try reflexivity; try lia; assumption|].
    destruct (Z.eqb_spec c a) as [E|_]; [congruence|]. exists b, a, c, 1%nat, 0%nat, 2%nat, y, x, z; repeat split; try reflexivity; try lia; assumption.
  - destruct (Z.eqb_spec b a) as [E|_]; [congruence|]. cbn [minsert]. destruct (Z.ltb_spec c a) as [L2|L2]; [exists c, a, b, 2%nat, 0%nat, 1%nat, z, x, y; repeat split; try reflexivity; try lia; assumption|].
    destruct (Z.eqb_spec c a) as [E|_]; [congruence|]. cbn [minsert]. destruct (Z.ltb_spec c b) as [L3|L3]; [exists a, c, b, 0%nat, 2%nat, 1%nat, x, z, y; repeat split; try reflexivity; try lia; assumption|].
    destruct (Z.eqb_spec c b) as [E|_]; [congruence|]. exists a, b, c, 0%nat, 1%nat, 2%nat, x, y, z; repeat split; try reflexivity; try lia; try assumption.
Qed.
Lemma layer_map_none : forall ls i m, layer_map T layer_num i ls m = None <-> exists l, In l ls /\ layer_num (vl_name l) = None.
Proof.
  induction ls as [|l ls IH]; intros i m; cbn [layer_map]; [split; [discriminate|intros (l & [] & _)]|]. destruct (layer_num (vl_name l)) as [n|] eqn:E.
  - rewrite IH. split; [intros (x & I & N); exists x; cbn; auto|intros (x & [<-|I] & N); [congruence|exists x; auto]].
  - split; [intros _; exists l; cbn; auto|reflexivity].
Qed.
Lemma read_skipped v : read_via v = Some None <-> List.length (v_layers v) = 3%nat /\ ~ known_layers T layer_num v.
Proof.
  unfold LvModel.read_via. destruct (Nat.eqb_spec (List.length (v_layers v)) 3) as [E|N]; cbn [negb]; [|split; [discriminate|intros (E & _); congruence]].
  destruct (layer_map T layer_num 0 (v_layers v) []) as [m|] eqn:M.
  - split.
    + destruct (negb (first_key m + 2 =? last_key m)); [discriminate|]. destruct (d_cut _); discriminate.
    + intros (_ & K). exfalso. apply K. intros l I N. assert (Q : layer_map T layer_num 0 (v_layers v) [] = None) by (apply layer_map_none; exists l; auto). congruence.
  - apply layer_map_none in M as (l & I & N). split; [|reflexivity]. intros _. split; [exact E|]. intros K. exact (K l I N).
Qed.
Lemma perm_numbers (ls : list (vlayer T)) b c t b' c' t' n n' : Permutation ls [b; c; t] -> Permutation ls [b'; c'; t'] ->
  layer_num (vl_name b) = Some n -> layer_num (vl_name c) = Some (n + 1) -> layer_num (vl_name t) = Some (n + 2) ->
  layer_num (vl_name b') = Some n' -> layer_num (vl_name c') = Some (n' + 1) -> layer_num (vl_name t') = Some (n' + 2) -> n = n' /\ b = b' /\ c = c' /\ t = t'.
Proof.
  intros P P' B C D B' C' D'. assert (Q : Permutation [b; c; t] [b'; c'; t']) by exact (perm_trans (Permutation_sym P) P').
  assert (I : forall x, In x [b; c; t] -> In x [b'; c'; t']) by (intros x; apply Permutation_in; exact Q).
  assert (J : forall x, In x [b'; c'; t'] -> In x [b; c; t]) by (intros x; apply Permutation_in, Permutation_sym; exact Q).
  assert (Ib := I b ltac:(cbn; auto)). assert (Ic := I c ltac:(cbn; auto)). assert (It := I t ltac:(cbn; auto)). assert (Jb := J b' ltac:(cbn; auto)).
  assert (EQ : forall (x y : vlayer T) p q, x = y -> layer_num (vl_name x) = Some p -> layer_num (vl_name y) = Some q -> p = q) by (intros; subst; congruence).
  assert (n = n').
  { destruct Ib as [E|[E|[E|[]]]]; assert (H := EQ _ _ _ _ E ltac:(eassumption) ltac:(eassumption)); try lia; destruct Jb as [E'|[E'|[E'|[]]]]; assert (H' := EQ _ _ _ _ E' ltac:(eassumption) ltac:(eassumption)); lia. }
  subst n'. split; [reflexivity|].
  destruct Ib as [E|[E|[E|[]]]]; assert (H := EQ _ _ _ _ E ltac:(eassumption) ltac:(eassumption)); try lia.
  destruct Ic as [E1|[E1|[E1|[]]]]; assert (H1 := EQ _ _ _ _ E1 ltac:(eassumption) ltac:(eassumption)); try lia.
  destruct It as [E2|[E2|[E2|[]]]]; assert (H2 := EQ _ _ _ _ E2 ltac:(eassumption) ltac:(eassumption)); try lia. auto.
Qed.
Lemma nodup3 v : layers_differ T layer_num v -> List.length (v_layers v) = 3%nat -> known_layers T layer_num v ->
  exists m, layer_map T layer_num O (v_layers v) [] = Some m /\ sorted3 (v_layers v) m.
Proof.
  unfold layers_differ, known_layers. destruct (v_layers v) as [|x [|y [|z [|]]]]; try discriminate. intros D _ K.
  destruct (layer_num (vl_name x)) as [a|] eqn:X; [|destruct (K x); [cbn; auto|exact X]]. destruct (layer_num (vl_name y)) as [b|] eqn:Y; [|destruct (K y); [cbn; auto|exact Y]]. destruct (layer_num (vl_name z)) as [c|] eqn:Z; [|destruct (K z); [cbn; auto|exact Z]].
  cbn [map] in D. rewrite X, Y, Z in D. apply NoDup_cons_iff in D as (D1 & D2). apply NoDup_cons_iff in D2 as (D2 & _). apply (map3 x y z a b c X Y Z); intros ->; [apply D1|apply D1|apply D2]; cbn; auto.
Qed.
Lemma read_is_via v d : layers_differ T layer_num v -> read_via v = Some (Some d) <-> is_via T dbu layer_num cut_classes v d.
Proof.
  intros D. split.
  - intros H. assert (L3 : List.length (v_layers v) = 3%nat) by (unfold LvModel.read_via in H; destruct (Nat.eqb_spec (List.length (v_layers v)) 3); [assumption|discriminate]).
    assert (K : known_layers T layer_num v).
    { intros l I N. unfold LvModel.read_via in H. rewrite L3 in H. cbn [Nat.eqb negb] in H. assert (Q : layer_map T layer_num 0 (v_layers v) [] = None) by (apply layer_map_none; exists l; auto). rewrite Q in H. discriminate. }
    destruct (nodup3 v D L3 K) as (m & M & n0 & n1 & n2 & i0 & i1 & i2 & b & c & t & -> & O & N0 & N1 & N2 & P & B & C & E).
    unfold LvModel.read_via in H. rewrite L3, M in H. cbn [Nat.eqb negb] in H. unfold first_key, last_key in H. cbn [last fst] in H. destruct (Z.eqb_spec (n0 + 2) n2) as [E2|]; [|discriminate]. cbn [negb] in H.
    cbn [add_layers] in H. rewrite N0, N1, N2 in H. cbn [add_figs d_name d_default d_layer1 d_cut d_layer2 d_class app] in H. rewrite !shapes_metal in H.
    assert (n1 = n0 + 1) by lia. subst n1 n2. exists n0, b, c, t. split; [exact P|]. split; [exact B|]. split; [exact C|]. split; [exact E|].
    assert (SL : forall s ss, metal (n0 + 1) c = s :: ss -> shape_layer s = n0 + 1).
    { intros s ss Q. assert (I : In s (metal (n0 + 1) c)) by (rewrite Q; cbn; auto). unfold LvSpec.metal in I. apply in_app_iff in I as [I|I]; apply in_map_iff in I as (r & <- & _); [destruct r as [[[? ?] ?] ?]|]; reflexivity. }
    destruct (metal (n0 + 1) c) as [|s ss] eqn:Q; [discriminate|]. rewrite (SL s ss eq_refl) in H. injection H as <-. cbn [d_name d_default d_layer1 d_cut d_layer2 d_class]. repeat (split; [reflexivity|]). split; [discriminate|]. apply find_class_spec.
  - intros (n & b & c & t & P & B & C & E & A1 & A2 & A3 & A4 & A5 & NE & CL).
    assert (L3 : List.length (v_layers v) = 3%nat) by (rewrite (Permutation_length P); reflexivity).
    assert (K : known_layers T layer_num v) by (intros l I; apply (Permutation_in l P) in I as [<-|[<-|[<-|[]]]]; congruence).
    destruct (nodup3 v D L3 K) as (m & M & n0 & n1 & n2 & i0 & i1 & i2 & b' & c' & t' & -> & O & N0 & N1 & N2 & P' & B' & C' & E').
    assert (X : n0 = n /\ n1 = n + 1 /\ n2 = n + 2).
    { assert (J : forall x, In x [b'; c'; t'] -> In x [b; c; t]) by (intros x I; apply (Permutation_in x P), (Permutation_in x (Permutation_sym P')), I).
      assert (EQ : forall (x : vlayer T) p, In x [b; c; t] -> layer_num (vl_name x) = Some p -> p = n \/ p = n + 1 \/ p = n + 2) by (intros x p [<-|[<-|[<-|[]]]]; [rewrite B|rewrite C|rewrite E]; intros H; injection H as <-; auto).
      assert (H0 := EQ b' n0 (J b' ltac:(cbn; auto)) B'). assert (H1 := EQ c' n1 (J c' ltac:(cbn; auto)) C'). assert (H2 := EQ t' n2 (J t' ltac:(cbn; auto)) E'). lia. }
    destruct X as (-> & -> & ->). destruct (perm_numbers _ _ _ _ _ _ _ _ _ P P' B C E B' C' E') as (_ & <- & <- & <-).
    unfold LvModel.read_via. rewrite L3, M. cbn [Nat.eqb negb]. unfold first_key, last_key. cbn [last fst]. rewrite Z.eqb_refl. cbn [negb]. cbn [add_layers]. rewrite N0, N1, N2. cbn [add_figs d_name d_default d_layer1 d_cut d_layer2 d_class app]. rewrite !shapes_metal.
    assert (SL : forall s ss, metal (n + 1) c = s :: ss -> shape_layer s = n + 1).
    { intros s ss Q. assert (I : In s (metal (n + 1) c)) by (rewrite Q; cbn; auto). unfold LvSpec.metal in I. apply in_app_iff in I as [I|I]; apply in_map_iff in I as (r & <- & _); [destruct r as [[[? ?] ?] ?]|]; reflexivity. }
    rewrite A4 in NE, CL. destruct d as [dn dd l1 cu l2 cl]. cbn [d_name d_default d_layer1 d_cut d_layer2 d_class] in *. subst.
    destruct (metal (n + 1) c) as [|s ss] eqn:Q; [contradiction|]. rewrite (SL s ss eq_refl). do 3 f_equal. apply (class_of_fun _ _ _ _ (find_class_spec _ _) CL).
Qed.
End P.
