(* The area of a hole is the number of unit squares its line goes around. *)
From Coq Require Import Permutation.
From Verif Require Import Base Stl GeomModel GcModel GcSpec GcProofs GcProofs2 EolModel EolSpec StepModel StepSpec StepProofs StepProofs3 StepProofs4.

Definition zsum {A} (f : A -> Z) (l : list A) : Z := fold_right (fun a s => f a + s) 0 l.
Lemma zsum_app {A} (f : A -> Z) l l' : zsum f (l ++ l') = zsum f l + zsum f l'.
Proof. induction l as [|a l IH]; cbn; [reflexivity|]. unfold zsum in *. rewrite IH. lia. Qed.
Lemma zsum_ext {A} (f g : A -> Z) l : (forall a, In a l -> f a = g a) -> zsum f l = zsum g l.
Proof. induction l as [|a l IH]; intros H; [reflexivity|]. cbn. rewrite (H a (or_introl eq_refl)). f_equal. apply IH. intros b I. apply H. right. exact I. Qed.
Lemma zsum_add {A} (f g : A -> Z) l : zsum (fun a => f a + g a) l = zsum f l + zsum g l.
Proof. induction l as [|a l IH]; cbn; [reflexivity|]. unfold zsum in IH. rewrite IH. lia. Qed.
Lemma zsum_mul {A} (f : A -> Z) k l : zsum (fun a => k * f a) l = k * zsum f l.
Proof. induction l as [|a l IH]; cbn; [lia|]. unfold zsum in IH. rewrite IH. unfold zsum. lia. Qed.
Lemma zsum_map {A B} (f : B -> Z) (g : A -> B) l : zsum f (map g l) = zsum (fun a => f (g a)) l.
Proof. induction l as [|a l IH]; cbn; [reflexivity|]. unfold zsum in IH. rewrite IH. reflexivity. Qed.
Lemma zsum_flat {A B} (f : B -> Z) (g : A -> list B) l : zsum f (flat_map g l) = zsum (fun a => zsum f (g a)) l.
Proof. induction l as [|a l IH]; cbn [flat_map]; [reflexivity|]. rewrite zsum_app, IH. reflexivity. Qed.
Lemma zsum_zero {A} (f : A -> Z) l : (forall a, In a l -> f a = 0) -> zsum f l = 0.
Proof. induction l as [|a l IH]; intros H; [reflexivity|]. cbn. rewrite (H a (or_introl eq_refl)). apply IH. intros b I. apply H. right. exact I. Qed.

Definition ind (b : bool) : Z := if b then 1 else 0.
Lemma zsum_below a b h : a <= h <= b -> zsum (fun x => ind (x <? h)) (zrange a b) = h - a.
Proof.
  intros H. unfold zrange. rewrite zsum_map.
  assert (G : forall n s, zsum (fun k => ind (a + Z.of_nat k <? h)) (seq s n) = Z.max 0 (Z.min (Z.of_nat n) (h - a - Z.of_nat s))).
  { induction n as [|n IH]; intros s; cbn [seq]; [cbn; lia|]. cbn [zsum fold_right]. change (fold_right _ 0 (seq (S s) n)) with (zsum (fun k => ind (a + Z.of_nat k <? h)) (seq (S s) n)).
    rewrite IH. unfold ind. destruct (Z.ltb_spec (a + Z.of_nat s) h); lia. }
  rewrite G. lia.
Qed.
Lemma passes_eq x y p q : (px p = px q \/ py p = py q) ->
  passes x y p q = ind (y <? py p) * (ind (x <? px q) - ind (x <? px p)).
Proof.
  intros H. unfold passes, ind.
  destruct (Z.ltb_spec y (py p)), (Z.eqb_spec (py p) (py q)), (Z.ltb_spec x (px q)), (Z.ltb_spec x (px p)), (Z.leb_spec (px p) x), (Z.leb_spec (px q) x); cbn [andb]; lia.
Qed.
Lemma cells_sum f g b : zsum (fun c : Z * Z => f (fst c) * g (snd c)) (cells b) = zsum f (zrange (bleft b) (bright b)) * zsum g (zrange (bbottom b) (btop b)).
Proof.
  unfold cells. rewrite zsum_flat. rewrite (zsum_ext _ (fun x => zsum g (zrange (bbottom b) (btop b)) * f x)).
  - rewrite zsum_mul. lia.
  - intros x _. rewrite zsum_map. cbn [fst snd]. rewrite zsum_mul. lia.
Qed.
Lemma passes_sum b p q : inside p b -> inside q b -> (px p = px q \/ py p = py q) ->
  zsum (fun c => passes (fst c) (snd c) p q) (cells b) = (px q - px p) * (py p - bbottom b).
Proof.
  intros Hp Hq A. unfold inside in *.
  rewrite (zsum_ext _ (fun c => (ind (fst c <? px q) + (-1) * ind (fst c <? px p)) * ind (snd c <? py p))).
  - rewrite (cells_sum (fun x => ind (x <? px q) + (-1) * ind (x <? px p)) (fun y => ind (y <? py p))).
    rewrite zsum_add, zsum_mul, !zsum_below by lia. lia.
  - intros c _. rewrite passes_eq by exact A. lia.
Qed.

(* ---- around the line ---- *)
Definition adj (p q : point) : Prop := px p = px q \/ py p = py q.
Fixpoint chain (first p : point) (rest : list point) : Prop :=
  match rest with [] => adj p first | q :: rest' => adj p q /\ chain first q rest' end.
Lemma rectilinear_chain p rest : rectilinear (p :: rest) -> chain p p rest.
Proof.
  intros R. assert (G : forall rest' pre q, p :: rest = pre ++ q :: rest' -> chain p q rest').
  { induction rest' as [|r rest' IH]; intros pre q E; cbn [chain].
    - destruct (R (length pre) q p) as [[H _]|[_ H]]; [| |left; exact H|right; exact H].
      + rewrite E, nth_error_app2, Nat.sub_diag by lia. reflexivity.
      + replace (length (p :: rest)) with (S (length pre)) by (rewrite E, app_length; cbn; lia). rewrite Nat.eqb_refl. reflexivity.
    - split; [|apply (IH (pre ++ [q])); rewrite <- app_assoc; exact E].
      destruct (R (length pre) q r) as [[H _]|[_ H]]; [| |left; exact H|right; exact H].
      + rewrite E, nth_error_app2, Nat.sub_diag by lia. reflexivity.
      + replace (length (p :: rest)) with (length pre + S (S (length rest')))%nat by (rewrite E, app_length; reflexivity).
        destruct (Nat.eqb_spec (S (length pre)) (length pre + S (S (length rest')))); [lia|].
        rewrite E, nth_error_app2 by lia. replace (S (length pre) - length pre)%nat with 1%nat by lia. reflexivity. }
  apply (G rest [] p). reflexivity.
Qed.
Lemma strip_sum b first : forall rest p, chain first p rest -> (forall q, In q (first :: p :: rest) -> inside q b) ->
  zsum (fun c => passes_all (fst c) (snd c) first p rest) (cells b) =
  strip_area first p rest + (py first - bbottom b) * (px first - px p).
Proof.
  induction rest as [|q rest IH]; intros p C I; cbn [chain passes_all strip_area] in *.
  - rewrite passes_sum; auto with datatypes. destruct C as [C|C]; rewrite C; rewrite ?Z.sub_diag, ?Z.mul_0_r, ?Z.mul_0_l; cbn [Z.div]; [lia|].
    change (0 / 2) with 0. lia.
  - destruct C as [A C]. rewrite (zsum_add (fun c => passes (fst c) (snd c) p q) (fun c => passes_all (fst c) (snd c) first q rest)).
    rewrite IH, passes_sum; auto with datatypes.
    + destruct A as [A|A].
      * rewrite A, Z.sub_diag, !Z.mul_0_l. change (0 / 2) with 0. lia.
      * rewrite A. replace ((px q - px p) * (py q - py first + (py q - py first))) with (((px q - px p) * (py q - py first)) * 2) by lia.
        rewrite Z.div_mul by lia. lia.
    + intros r [<- |[<- |H]]; apply I; auto with datatypes.
Qed.
Lemma passes_side first : forall rest p x y, chain first p rest ->
  (forall q, In q (first :: p :: rest) -> py q <= y) \/ (forall q, In q (first :: p :: rest) -> x < px q) \/ (forall q, In q (first :: p :: rest) -> px q <= x) ->
  passes_all x y first p rest = 0.
Proof.
  assert (S : forall x y p q, adj p q -> (py p <= y \/ (x < px p /\ x < px q) \/ (px p <= x /\ px q <= x)) -> passes x y p q = 0).
  { intros x y p q A H. rewrite passes_eq by exact A. unfold ind. destruct (Z.ltb_spec y (py p)), (Z.ltb_spec x (px q)), (Z.ltb_spec x (px p)); lia. }
  induction rest as [|q rest IH]; intros p x y C H; cbn [chain passes_all] in *.
  - apply S; [exact C|]. destruct H as [H|[H|H]]; [left|right; left; split|right; right; split]; apply H; auto with datatypes.
  - destruct C as [A C]. rewrite S, IH; [reflexivity|exact C| |exact A|].
    + destruct H as [H|[H|H]]; [left|right; left|right; right]; intros r [<- |[<- |I]]; apply H; auto with datatypes.
    + destruct H as [H|[H|H]]; [left|right; left; split|right; right; split]; apply H; auto with datatypes.
Qed.
Lemma passes_below first x y : forall rest p, chain first p rest -> (forall q, In q (first :: p :: rest) -> y < py q) ->
  passes_all x y first p rest = ind (x <? px first) - ind (x <? px p).
Proof.
  assert (S : forall p q, adj p q -> y < py p -> passes x y p q = ind (x <? px q) - ind (x <? px p)).
  { intros p q A H. rewrite passes_eq by exact A. unfold ind at 1. destruct (Z.ltb_spec y (py p)); lia. }
  induction rest as [|q rest IH]; intros p C H; cbn [chain passes_all] in *.
  - apply S; [exact C|]. apply H. auto with datatypes.
  - destruct C as [A C]. rewrite S, IH; [lia|exact C| |exact A|apply H; auto with datatypes].
    intros r [<- |[<- |I]]; apply H; auto with datatypes.
Qed.
Lemma winding_inside p rest x y : chain p p rest -> winding (p :: rest) x y <> 0 -> square_in x y (extents (p :: rest)).
Proof.
  intros C W. cbn [winding] in W. destruct (hull_extents (p :: rest) ltac:(discriminate)) as (I & _).
  assert (I' : forall q, In q (p :: p :: rest) -> inside q (extents (p :: rest))) by (intros q [<- |H]; apply I; auto with datatypes).
  set (b := extents (p :: rest)) in *. unfold inside in I'. unfold square_in.
  destruct (Z.le_gt_cases (btop b) y) as [T|T].
  { exfalso. apply W. apply passes_side; [exact C|]. left. intros q H. specialize (I' q H). lia. }
  destruct (Z.le_gt_cases (bright b) x) as [R|R].
  { exfalso. apply W. apply passes_side; [exact C|]. right. right. intros q H. specialize (I' q H). lia. }
  destruct (Z.lt_ge_cases x (bleft b)) as [L|L].
  { exfalso. apply W. apply passes_side; [exact C|]. right. left. intros q H. specialize (I' q H). lia. }
  destruct (Z.lt_ge_cases y (bbottom b)) as [B|B].
  { exfalso. apply W. rewrite passes_below; [lia|exact C|]. intros q H. specialize (I' q H). lia. }
  lia.
Qed.

Lemma zrange_In' a b x : In x (zrange a b) <-> a <= x < b.
Proof.
  unfold zrange. rewrite in_map_iff. split.
  - intros (k & <- & I). apply in_seq in I. lia.
  - intros H. exists (Z.to_nat (x - a)). split; [lia|]. apply in_seq. lia.
Qed.
Lemma zrange_NoDup a b : NoDup (zrange a b).
Proof. unfold zrange. apply FinFun.Injective_map_NoDup; [intros i j H; lia|apply seq_NoDup]. Qed.
Lemma NoDup_app' {A} (l l' : list A) : NoDup l -> NoDup l' -> (forall x, In x l -> ~ In x l') -> NoDup (l ++ l').
Proof.
  induction 1 as [|x l N _ IH]; intros H D; [exact H|]. cbn. constructor.
  - rewrite in_app_iff. intros [I|I]; [contradiction|]. exact (D x (or_introl eq_refl) I).
  - apply IH; [exact H|]. intros y I. apply D. right. exact I.
Qed.
Lemma cells_NoDup b : NoDup (cells b).
Proof.
  unfold cells. generalize (zrange_NoDup (bleft b) (bright b)). generalize (zrange (bleft b) (bright b)).
  induction 1 as [|x l N _ IH]; cbn [flat_map]; [constructor|]. apply NoDup_app'; [|exact IH|].
  - apply FinFun.Injective_map_NoDup; [intros i j H; congruence|apply zrange_NoDup].
  - intros [x' y] I J. apply in_map_iff in I as (y' & [= <- <-] & _). apply in_flat_map in J as (x'' & I & J).
    apply in_map_iff in J as (y'' & [= -> _] & _). contradiction.
Qed.
Lemma sum_signs (f : Z * Z -> Z) s l : (s = 1 \/ s = -1) -> (forall c, f c = 0 \/ f c = s) -> zsum f l = s * Z.of_nat (length (filter (fun c => negb (f c =? 0)) l)).
Proof.
  intros S H. induction l as [|c l IH]; [cbn; lia|]. cbn [zsum fold_right filter]. change (fold_right (fun a s => f a + s) 0 l) with (zsum f l). rewrite IH.
  destruct (Z.eqb_spec (f c) 0) as [Z0|Z0]; cbn [negb length]; [rewrite Z0; lia|]. destruct (H c) as [E|E]; [contradiction|rewrite E; lia].
Qed.

Theorem hole_area h n : rectilinear h -> simple_line h -> encloses h n -> poly_area h = n.
Proof.
  intros R S (l & ND & L & Ln). destruct h as [|p rest].
  { cbn. destruct l as [|[x y] l]; [cbn in Ln; lia|]. exfalso. apply (L x y); [left; reflexivity|reflexivity]. }
  pose proof (rectilinear_chain p rest R) as C. set (b := extents (p :: rest)).
  destruct (hull_extents (p :: rest) ltac:(discriminate)) as (I & _). fold b in I.
  pose proof (strip_sum b p rest p C) as SS. cbn [poly_area].
  rewrite Z.sub_diag, Z.mul_0_r, Z.add_0_r in SS. rewrite <- SS by (intros q [<- |H]; apply I; auto with datatypes). clear SS.
  assert (X : exists s, (s = 1 \/ s = -1) /\ forall c : Z * Z, passes_all (fst c) (snd c) p p rest = 0 \/ passes_all (fst c) (snd c) p p rest = s).
  { destruct S as [S|S]; [exists 1|exists (-1)]; (split; [auto|intros [x y]; apply (S x y)]). }
  destruct X as (s & Hs & Hf). rewrite (sum_signs (fun c => passes_all (fst c) (snd c) p p rest) s _ Hs Hf).
  replace (length (filter _ (cells b))) with (length l); [destruct Hs as [-> | ->]; lia|].
  apply Permutation_length, NoDup_Permutation; [exact ND|apply NoDup_filter, cells_NoDup|].
  intros [x y]. rewrite L, filter_In, cells_square, Bool.negb_true_iff, Z.eqb_neq. cbn [fst snd].
  split; [intros W; split; [apply winding_inside; assumption|exact W]|intros [_ W]; exact W].
Qed.
