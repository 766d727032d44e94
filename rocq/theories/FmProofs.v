(* Proofs about fixed metal. *)
From Verif Require Import Base GeomModel GeomSpec GeomProofs FmModel FmSpec.
From Coq Require Import String.
From Coq Require Import List.
Open Scope list_scope.

Lemma box_ext a b : normalised a -> normalised b -> (forall q, in_box q a <-> in_box q b) -> a = b.
Proof.
  destruct a as [[x1 y1] [x2 y2]], b as [[x3 y3] [x4 y4]]. unfold normalised, in_box. cbn. intros [A1 A2] [B1 B2] H.
  pose proof (H (mkPt x1 y1)) as P1. pose proof (H (mkPt x2 y2)) as P2. pose proof (H (mkPt x3 y3)) as P3. pose proof (H (mkPt x4 y4)) as P4.
  cbn in *. assert (x1 = x3) by lia. assert (y1 = y3) by lia. assert (x2 = x4) by lia. assert (y2 = y4) by lia. congruence.
Qed.
Lemma image_unique f x1 y1 x2 y2 a b : image f x1 y1 x2 y2 a -> image f x1 y1 x2 y2 b -> a = b.
Proof. intros [NA A] [NB B]. apply box_ext; auto. intros q. rewrite A, B. reflexivity. Qed.
Lemma image_ext f g x1 y1 x2 y2 b : (forall p, f p = g p) -> image f x1 y1 x2 y2 b -> image g x1 y1 x2 y2 b.
Proof. intros E [N H]. split; [exact N|]. intros q. rewrite H. split; intros (p & A & B & C); exists p; rewrite C, E; auto. Qed.
Lemma set_points x1 y1 x2 y2 p : in_box p (box_set x1 y1 x2 y2) <-> between x1 x2 (px p) /\ between y1 y2 (py p).
Proof. unfold in_box, box_set, between. cbn. destruct (x1 >? x2) eqn:A, (y1 >? y2) eqn:B; rewrite Z.gtb_ltb in *; zcases; lia. Qed.
Lemma image_set x1 y1 x2 y2 : image (fun p => p) x1 y1 x2 y2 (box_set x1 y1 x2 y2).
Proof.
  split; [apply box_set_normalised|]. intros q. rewrite set_points. split; [intros [A B]; exists q; auto|intros (p & A & B & ->); auto].
Qed.
Lemma image_transform x1 y1 x2 y2 t : image (fun p => pt_transform p t) x1 y1 x2 y2 (box_transform (box_set x1 y1 x2 y2) t).
Proof.
  split; [apply box_transform_normalised|]. intros q.
  rewrite (box_transform_points _ t _ (box_set_normalised _ _ _ _)).
  split; intros (p & A); exists p; [destruct A as [A ->]; apply set_points in A as [A B]; auto|destruct A as (A & B & ->); rewrite set_points; auto].
Qed.
Lemma image_box_transform b t : image (fun p => pt_transform p t) (bleft b) (bbottom b) (bright b) (btop b) (box_transform b t).
Proof.
  pose proof (image_transform (bleft b) (bbottom b) (bright b) (btop b) t) as [N H]. split; [apply box_transform_normalised|].
  assert (E : box_transform (box_set (bleft b) (bbottom b) (bright b) (btop b)) t = box_transform b t).
  { rewrite box_set_minmax. unfold box_transform, bleft, bright, bbottom, btop. destruct b as [[a c] [d e]], t as [x y o]. cbn.
    unfold box_of_pts. rewrite !box_set_minmax. cbn. destruct o; cbn; rewrite ?box_set_minmax; f_equal; f_equal; lia. }
  rewrite <- E. exact H.
Qed.

Lemma somes_in {A B} (f : A -> option B) l y : In y (somes f l) <-> exists x, In x l /\ f x = Some y.
Proof.
  unfold somes. rewrite in_flat_map. split.
  - intros (x & I & H). exists x. destruct (f x); [destruct H as [->|[]]|destruct H]; auto.
  - intros (x & I & H). exists x. rewrite H. split; [exact I|left; reflexivity].
Qed.
Lemma number_in {A} (l : list A) k i x : In (i, x) (number k l) <-> exists j, i = (k + j)%nat /\ nth_error l j = Some x.
Proof.
  revert k. induction l as [|a l IH]; intros k; cbn.
  - split; [intros []|intros ([|j] & _ & H); discriminate H].
  - rewrite IH. split.
    + intros [H|(j & -> & H)]; [injection H as <- <-; exists 0%nat; split; [lia|reflexivity]|exists (S j); split; [lia|exact H]].
    + intros ([|j] & -> & H); [left; injection H as <-; f_equal; lia|right; exists j; split; [lia|exact H]].
Qed.
Lemma each_in {A B} (f : nat -> A -> list B) l y : In y (each f l) <-> exists i x, nth_error l i = Some x /\ In y (f i x).
Proof.
  unfold each. rewrite in_flat_map. split.
  - intros ([i x] & I & H). apply number_in in I as (j & -> & N). cbn in H. exists j, x. auto.
  - intros (i & x & N & H). exists (i, x). split; [apply number_in; exists i; auto|exact H].
Qed.
Lemma omap_nth {A B} (f : A -> option B) l l' : omap f l = Some l' -> forall i, nth_error l' i = match nth_error l i with Some x => f x | None => None end.
Proof.
  revert l'. induction l as [|a l IH]; cbn; intros l' E i; [injection E as <-; destruct i; reflexivity|].
  destruct (f a) eqn:Ea; [|discriminate]. destruct (omap f l) eqn:El; [|discriminate]. injection E as <-.
  destruct i; cbn; [symmetry; exact Ea|apply IH; reflexivity].
Qed.
Lemma omap_none {A B} (f : A -> option B) l : omap f l <> None <-> forall x, In x l -> f x <> None.
Proof.
  induction l as [|a l IH]; cbn; [split; [intros _ x []|discriminate]|]. split.
  - intros H x [<-|I]; destruct (f a) eqn:Ea; try congruence. destruct (omap f l) eqn:El; [|congruence]. apply IH; [discriminate|exact I].
  - intros H. pose proof (H a (or_introl eq_refl)). destruct (f a); [|congruence]. assert (X : omap f l <> None) by (apply IH; auto). destruct (omap f l); congruence.
Qed.
Lemma omap_in {A B} (f : A -> option B) l l' y : omap f l = Some l' -> In y l' <-> exists x, In x l /\ f x = Some y.
Proof.
  intros E. pose proof (omap_nth f l l' E) as H. split.
  - intros I. apply In_nth_error in I as (i & N). rewrite H in N. destruct (nth_error l i) eqn:L; [|discriminate]. apply nth_error_In in L. eauto.
  - intros (x & I & F). apply In_nth_error in I as (i & N). apply (nth_error_In _ i). rewrite H, N. exact F.
Qed.

Section P.
Variable lay : string -> option Z.

Lemma rect_on_cons a its n x1 y1 x2 y2 : rect_on its n x1 y1 x2 y2 -> rect_on (a :: its) n x1 y1 x2 y2.
Proof. intros (pre & mid & post & -> & H). exists (a :: pre), mid, post. auto. Qed.
Definition rect_free (its : list litem) (x1 y1 x2 y2 : Z) : Prop := exists mid post, its = mid ++ LRect x1 y1 x2 y2 :: post /\ forall m, ~ In (LLayer m) mid.
Lemma rect_on_inv a its n x1 y1 x2 y2 : rect_on (a :: its) n x1 y1 x2 y2 -> rect_on its n x1 y1 x2 y2 \/ a = LLayer n /\ rect_free its x1 y1 x2 y2.
Proof.
  intros ([|b pre] & mid & post & E & H); cbn in E; injection E as -> E.
  - right. split; [reflexivity|]. exists mid, post. auto.
  - left. exists pre, mid, post. auto.
Qed.
Lemma rect_free_inv a its x1 y1 x2 y2 : rect_free (a :: its) x1 y1 x2 y2 <-> a = LRect x1 y1 x2 y2 \/ (forall m, a <> LLayer m) /\ rect_free its x1 y1 x2 y2.
Proof.
  split.
  - intros ([|b mid] & post & E & H); cbn in E; injection E as -> E; [left; reflexivity|].
    right. split; [intros m ->; apply (H m); left; reflexivity|]. exists mid, post. split; [exact E|]. intros m I. apply (H m). right. exact I.
  - intros [->|[N (mid & post & -> & H)]]; [exists [], its; split; [reflexivity|intros m []]|].
    exists (a :: mid), post. split; [reflexivity|]. intros m [E|I]; [exact (N m E)|exact (H m I)].
Qed.
Lemma read_items_in its cur l b : In (MRect l b) (read_items lay its cur) <->
  (exists n x1 y1 x2 y2, rect_on its n x1 y1 x2 y2 /\ lay n = Some l /\ b = box_set x1 y1 x2 y2) \/
  (cur = Some l /\ exists x1 y1 x2 y2, rect_free its x1 y1 x2 y2 /\ b = box_set x1 y1 x2 y2).
Proof.
  revert cur. induction its as [|a its IH]; intros cur.
  - cbn. split; [intros []|]. intros [(n & x1 & y1 & x2 & y2 & (pre & mid & post & E & _) & _)|(_ & x1 & y1 & x2 & y2 & (mid & post & E & _) & _)]; [destruct pre|destruct mid]; discriminate E.
  - assert (SK : (forall m, a <> LLayer m) -> (forall x1 y1 x2 y2, a <> LRect x1 y1 x2 y2) ->
      (In (MRect l b) (read_items lay its cur) <->
       (exists n x1 y1 x2 y2, rect_on (a :: its) n x1 y1 x2 y2 /\ lay n = Some l /\ b = box_set x1 y1 x2 y2) \/
       (cur = Some l /\ exists x1 y1 x2 y2, rect_free (a :: its) x1 y1 x2 y2 /\ b = box_set x1 y1 x2 y2))).
    { intros NL NR. rewrite IH. split; intros [(n & x1 & y1 & x2 & y2 & H & L & E)|(C & x1 & y1 & x2 & y2 & H & E)].
      - left. exists n, x1, y1, x2, y2. split; [apply rect_on_cons, H|auto].
      - right. split; [exact C|]. exists x1, y1, x2, y2. split; [apply rect_free_inv; right; auto|exact E].
      - left. exists n, x1, y1, x2, y2. split; [|auto]. apply rect_on_inv in H as [H|[H _]]; [exact H|exfalso; exact (NL _ H)].
      - right. split; [exact C|]. exists x1, y1, x2, y2. split; [|exact E]. apply rect_free_inv in H as [H|[_ H]]; [exfalso; exact (NR _ _ _ _ H)|exact H]. }
    destruct a as [m|a1 b1 a2 b2|pts|s|w|]; cbn [read_items]; try (apply SK; discriminate).
    + rewrite IH. split; intros [(n & x1 & y1 & x2 & y2 & H & L & E)|(C & x1 & y1 & x2 & y2 & H & E)].
      * left. exists n, x1, y1, x2, y2. split; [apply rect_on_cons, H|auto].
      * left. exists m, x1, y1, x2, y2. split; [|auto]. destruct H as (mid & post & -> & H). exists [], mid, post. auto.
      * apply rect_on_inv in H as [H|[H F]]; [left; exists n, x1, y1, x2, y2; auto|]. injection H as ->. right. split; [exact L|]. exists x1, y1, x2, y2. auto.
      * apply rect_free_inv in H as [H|[N _]]; [discriminate H|exfalso; exact (N m eq_refl)].
    + rewrite in_app_iff, IH. split.
      * intros [H|[(n & x1 & y1 & x2 & y2 & H & L & E)|(C & x1 & y1 & x2 & y2 & H & E)]].
        -- destruct cur as [c|]; [|destruct H]. destruct H as [H|[]]. injection H as -> <-. right. split; [reflexivity|]. exists a1, b1, a2, b2. split; [apply rect_free_inv; left; reflexivity|reflexivity].
        -- left. exists n, x1, y1, x2, y2. split; [apply rect_on_cons, H|auto].
        -- right. split; [exact C|]. exists x1, y1, x2, y2. split; [apply rect_free_inv; right; split; [discriminate|exact H]|exact E].
      * intros [(n & x1 & y1 & x2 & y2 & H & L & E)|(C & x1 & y1 & x2 & y2 & H & E)].
        -- right. left. exists n, x1, y1, x2, y2. apply rect_on_inv in H as [H|[H _]]; [auto|discriminate H].
        -- apply rect_free_inv in H as [H|[_ H]]; [injection H as -> -> -> ->; left; subst cur; left; f_equal; auto|]. right. right. split; [exact C|]. exists x1, y1, x2, y2. auto.
    + rewrite in_app_iff. rewrite <- SK by discriminate. split; [|auto]. intros [H|H]; [|exact H]. destruct cur; [destruct H as [H|[]]; discriminate H|destruct H].
Qed.
Lemma read_items_top its l b : In (MRect l b) (read_items lay its None) <->
  exists n x1 y1 x2 y2, rect_on its n x1 y1 x2 y2 /\ lay n = Some l /\ b = box_set x1 y1 x2 y2.
Proof. rewrite read_items_in. split; [intros [H|[H _]]; [exact H|discriminate H]|auto]. Qed.

(* ---- library ---- *)
Lemma macro_of_cons a lib n m : macro_of (a :: lib) n m <-> macro_of lib n m \/ (m = a /\ lm_name a = n /\ forall m', In m' lib -> lm_name m' <> n).
Proof.
  split.
  - intros ([|x l1] & l2 & E & H); cbn in E; injection E as -> E; [right; subst; destruct H; auto|]. left. exists l1, l2. subst. auto.
  - intros [(l1 & l2 & -> & H)|(-> & H)]; [exists (a :: l1), l2; auto|exists [], lib; auto].
Qed.
Lemma rb_name_read m b : read_macro lay m = Some b -> rb_name b = lm_name m.
Proof. unfold read_macro. destruct (forallb _ _); [|discriminate]. intros E. injection E as <-. reflexivity. Qed.
Lemma find_app {A} (f : A -> bool) l l' : find f (l ++ l') = match find f l with Some x => Some x | None => find f l' end.
Proof. induction l as [|a l IH]; cbn; [reflexivity|]. destruct (f a); [reflexivity|exact IH]. Qed.
Lemma find_block_none rl n : find_block rl n = None <-> forall b, In b rl -> rb_name b <> n.
Proof.
  unfold find_block. split.
  - intros H b I E. apply (find_none _ _ H b) in I || (rewrite in_rev in I; apply (find_none _ _ H b) in I). subst n. rewrite String.eqb_refl in I. discriminate I.
  - intros H. destruct (find _ _) as [b|] eqn:E; [|reflexivity]. apply find_some in E as [I X]. apply String.eqb_eq in X. rewrite <- in_rev in I. exfalso. exact (H b I X).
Qed.
Lemma find_block_spec lib rl n b : omap (read_macro lay) lib = Some rl ->
  (find_block rl n = Some b <-> exists m, macro_of lib n m /\ read_macro lay m = Some b).
Proof.
  revert rl. induction lib as [|a lib IH]; cbn; intros rl E.
  - injection E as <-. split; [discriminate|]. intros (m & ([|] & l2 & E & _) & _); discriminate E.
  - destruct (read_macro lay a) as [ra|] eqn:Ea; [|discriminate]. destruct (omap (read_macro lay) lib) as [r|] eqn:El; [|discriminate]. injection E as <-.
    unfold find_block. cbn [rev]. rewrite find_app. fold (find_block r n). specialize (IH r eq_refl).
    assert (NO : find_block r n = None <-> forall m', In m' lib -> lm_name m' <> n).
    { rewrite find_block_none. split; intros H x I.
      - pose proof (proj1 (omap_none (read_macro lay) lib) ltac:(congruence) x I) as N. destruct (read_macro lay x) as [bx|] eqn:Ex; [|congruence].
        rewrite <- (rb_name_read x bx Ex). apply H. apply (omap_in _ _ _ _ El). eauto.
      - apply (omap_in _ _ _ _ El) in I as (y & I & Ey). rewrite (rb_name_read y x Ey). auto. }
    split.
    + destruct (find_block r n) as [b'|] eqn:EF.
      * intros H. injection H as ->. destruct (proj1 IH eq_refl) as (m & M & R). exists m. split; [apply macro_of_cons; left; exact M|exact R].
      * cbn. destruct (rb_name ra =? n)%string eqn:EN; [|discriminate]. intros H. injection H as ->. apply String.eqb_eq in EN. exists a. split; [|exact Ea].
        apply macro_of_cons. right. split; [reflexivity|]. rewrite <- (rb_name_read a b Ea). split; [exact EN|]. apply NO. reflexivity.
    + intros (m & M & R). apply macro_of_cons in M as [M|(-> & N & NN)].
      * rewrite (proj2 IH); [reflexivity|]. eauto.
      * rewrite (proj2 NO NN). cbn. rewrite R in Ea. injection Ea as <-. rewrite (rb_name_read a b R), N, String.eqb_refl. reflexivity.
Qed.
Lemma read_comps_nth lib seen cs il : read_comps lib seen cs = Some il -> forall i,
  nth_error il i = match nth_error cs i with
                   | Some c => match find_block lib (dc_macro c) with Some b => Some (mkFI b (dc_x c) (dc_y c) (dc_ori c)) | None => None end
                   | None => None end.
Proof.
  revert seen il. induction cs as [|c cs IH]; cbn; intros seen il E i; [injection E as <-; destruct i; reflexivity|].
  destruct (find_block lib (dc_macro c)) eqn:EF; [|discriminate]. destruct (existsb _ seen); [discriminate|]. destruct (read_comps lib _ cs) eqn:ER; [|discriminate]. injection E as <-.
  destruct i; cbn; [rewrite EF; reflexivity|]. eapply IH. exact ER.
Qed.
Lemma read_comps_none lib cs : forall seen, read_comps lib seen cs <> None <->
  (forall c, In c cs -> find_block lib (dc_macro c) <> None) /\ NoDup (map dc_id cs) /\ forall c, In c cs -> ~ In (dc_id c) seen.
Proof.
  induction cs as [|c cs IH]; intros seen; cbn.
  - split; [intros _; split; [intros c []|split; [constructor|intros c []]]|discriminate].
  - assert (EX : existsb (fun s => (s =? dc_id c)%string) seen = true <-> In (dc_id c) seen).
    { rewrite existsb_exists. split; [intros (s & I & E); apply String.eqb_eq in E; subst; exact I|intros I; exists (dc_id c); split; [exact I|apply String.eqb_refl]]. }
    specialize (IH (dc_id c :: seen)). destruct (find_block lib (dc_macro c)) eqn:EF.
    + destruct (existsb _ seen) eqn:EE.
      * split; [congruence|]. intros (_ & _ & H). exfalso. apply (H c (or_introl eq_refl)). apply EX. reflexivity.
      * assert (IH' : (match read_comps lib (dc_id c :: seen) cs with Some l => Some (mkFI r (dc_x c) (dc_y c) (dc_ori c) :: l) | None => None end <> None) <-> read_comps lib (dc_id c :: seen) cs <> None).
        { destruct (read_comps lib (dc_id c :: seen) cs); split; congruence. }
        rewrite IH', IH. split.
        -- intros (A & B & C). split; [intros x [<-|I]; [congruence|auto]|]. split.
           ++ constructor; [|exact B]. intros I. apply in_map_iff in I as (x & E & I). apply (C x I). left. auto.
           ++ intros x [<-|I] Z; [apply EX in Z; congruence|]. apply (C x I). right. exact Z.
        -- intros (A & B & C). inversion B as [|? ? N B']; subst. split; [auto|]. split; [exact B'|]. intros x I [E|Z]; [apply N; rewrite E; apply in_map; exact I|exact (C x (or_intror I) Z)].
    + split; [congruence|]. intros (A & _). exfalso. exact (A c (or_introl eq_refl) EF).
Qed.
End P.
