From Verif Require Import Base NlModel NlSpec.
From Coq Require Import List String Permutation.
Open Scope list_scope.

Lemma first_named_some s l k : first_named s l = Some k -> nth_error l k = Some s.
Proof.
  revert k. induction l as [|x l IH]; intros k H; [discriminate|]. cbn in H. destruct (String.eqb_spec x s) as [->|N]; [injection H as <-; reflexivity|].
  destruct (first_named s l) as [j|]; [|discriminate]. injection H as <-. exact (IH j eq_refl).
Qed.
Lemma first_named_none s l : first_named s l = None -> ~ In s l.
Proof.
  induction l as [|x l IH]; intros H I; [destruct I|]. cbn in H. destruct (String.eqb_spec x s) as [->|N]; [discriminate|]. destruct (first_named s l); [discriminate|]. destruct I as [->|I]; [congruence|exact (IH eq_refl I)].
Qed.
Lemma nth_nodup {A} (l : list A) i j a : NoDup l -> nth_error l i = Some a -> nth_error l j = Some a -> i = j.
Proof. intros N E F. apply (proj1 (NoDup_nth_error l) N); [apply nth_error_Some; congruence|congruence]. Qed.
Lemma first_named_iff s l k : NoDup l -> first_named s l = Some k <-> nth_error l k = Some s.
Proof.
  intros N. split; [apply first_named_some|]. intros E. destruct (first_named s l) as [j|] eqn:F.
  - f_equal. apply (nth_nodup l j k s N); [apply first_named_some; exact F|exact E].
  - destruct (first_named_none s l F). apply nth_error_In in E. exact E.
Qed.
Lemma last_named_some s l k : last_named s l = Some k -> nth_error l k = Some s.
Proof.
  revert k. induction l as [|x l IH]; intros k H; [discriminate|]. cbn in H. destruct (last_named s l) as [j|]; [injection H as <-; exact (IH j eq_refl)|].
  destruct (String.eqb_spec x s) as [->|N]; [injection H as <-; reflexivity|discriminate].
Qed.
Lemma last_named_none s l : last_named s l = None <-> ~ In s l.
Proof.
  induction l as [|x l IH]; [cbn; split; auto|]. cbn. destruct (last_named s l) as [j|] eqn:E.
  - split; [discriminate|]. intros H. destruct H. right. apply last_named_some, nth_error_In in E. exact E.
  - destruct (String.eqb_spec x s) as [->|N]; [split; [discriminate|intros H; destruct H; left; reflexivity]|]. split; [intros _ [H|H]; [congruence|exact (proj1 IH eq_refl H)]|reflexivity].
Qed.
Lemma last_named_iff s l k : NoDup l -> last_named s l = Some k <-> nth_error l k = Some s.
Proof.
  intros N. split; [apply last_named_some|]. intros E. destruct (last_named s l) as [j|] eqn:F.
  - f_equal. apply (nth_nodup l j k s N); [apply last_named_some; exact F|exact E].
  - apply last_named_none in F. destruct F. apply nth_error_In in E. exact E.
Qed.
Lemma pair_eqb_spec a b : pair_eqb a b = true <-> a = b.
Proof. destruct a, b. unfold pair_eqb. cbn. rewrite andb_true_iff, !Nat.eqb_eq. split; [intros (-> & ->); reflexivity|intros E; injection E; auto]. Qed.
Lemma upd_same {A B} eqb (f : A -> B) a b : eqb a a = true -> upd eqb f a b a = b. Proof. unfold upd. intros ->. reflexivity. Qed.
Lemma nth_map_some {A B} (f : A -> B) l i b : nth_error (map f l) i = Some b <-> exists a, nth_error l i = Some a /\ f a = b.
Proof. rewrite nth_error_map. destruct (nth_error l i); cbn; split; [intros E; injection E as <-; eauto|intros (a' & E & <-); injection E as ->; reflexivity|discriminate|intros (a' & E & _); discriminate]. Qed.

(* connection [c] names pin p of component i, by the components read *)
Definition nm (is : list (string * list string)) (c : conn) (i p : nat) : Prop :=
  exists id ps pin, nth_error is i = Some (id, ps) /\ nth_error ps p = Some pin /\ match c with CIo _ => False | CAll s => s = pin | CPin inst s => inst = id /\ s = pin end.
Definition nmio (ts : list string) (c : conn) (t : nat) : Prop := exists s, nth_error ts t = Some s /\ c = CIo s.
Definition okdb (d : db) : Prop := NoDup (map fst (insts d)) /\ (forall id ps, In (id, ps) (insts d) -> NoDup ps) /\ NoDup (terms d).
(* what a step of connecting net n does: pins [P] and IO pins [Q] are joined *)
Definition joined (n : nat) (P : nat -> nat -> Prop) (Q : nat -> Prop) (d d' : db) (nt nt' : net) : Prop :=
  insts d' = insts d /\ terms d' = terms d /\ nets d' = nets d /\ n_name nt' = n_name nt /\ n_special nt' = n_special nt /\
  (forall i p, In (i, p) (n_pins nt') <-> In (i, p) (n_pins nt) \/ P i p) /\ (forall t, In t (n_terms nt') <-> In t (n_terms nt) \/ Q t) /\
  (forall i p, P i p -> pin_net d' (i, p) = Some n) /\ (forall i p, ~ P i p -> pin_net d' (i, p) = pin_net d (i, p)) /\
  (forall t, Q t -> term_net d' t = Some n) /\ (forall t, ~ Q t -> term_net d' t = term_net d t).
Lemma joined_refl n d nt : joined n (fun _ _ => False) (fun _ => False) d d nt nt.
Proof. unfold joined. repeat split; auto; try contradiction; intros [H|H]; auto; contradiction. Qed.
Lemma joined_trans n P P' Q Q' d d' d'' nt nt' nt'' : (forall i p, P' i p \/ ~ P' i p) -> (forall t, Q' t \/ ~ Q' t) -> joined n P Q d d' nt nt' -> joined n P' Q' d' d'' nt' nt'' -> joined n (fun i p => P i p \/ P' i p) (fun t => Q t \/ Q' t) d d'' nt nt''.
Proof.
  intros DP DQ (A1 & A2 & A3 & A4 & A5 & A6 & A7 & A8 & A9 & A10 & A11) (B1 & B2 & B3 & B4 & B5 & B6 & B7 & B8 & B9 & B10 & B11).
  split; [congruence|]. split; [congruence|]. split; [congruence|]. split; [congruence|]. split; [congruence|].
  split; [intros i p; rewrite B6, A6; tauto|]. split; [intros t; rewrite B7, A7; tauto|].
  split; [intros i p H; destruct (DP i p) as [D|D]; [apply B8, D|rewrite (B9 i p D); apply A8; tauto]|].
  split; [intros i p H; rewrite B9 by tauto; apply A9; tauto|].
  split; [intros t H; destruct (DQ t) as [D|D]; [apply B10, D|rewrite (B11 t D); apply A10; tauto]|]. intros t H. rewrite B11 by tauto. apply A11. tauto.
Qed.
Lemma joined_ext n P P' Q Q' d d' nt nt' : (forall i p, P i p <-> P' i p) -> (forall t, Q t <-> Q' t) -> joined n P Q d d' nt nt' -> joined n P' Q' d d' nt nt'.
Proof.
  intros EP EQ (A1 & A2 & A3 & A4 & A5 & A6 & A7 & A8 & A9 & A10 & A11). do 5 (split; [assumption|]).
  split; [intros; rewrite A6, EP; reflexivity|]. split; [intros; rewrite A7, EQ; reflexivity|]. split; [intros i p H; apply A8, EP, H|]. split; [intros i p H; apply A9; rewrite EP; exact H|]. split; [intros t H; apply A10, EQ, H|]. intros t H. apply A11. rewrite EQ. exact H.
Qed.
Lemma join_joined n i p d nt : joined n (fun i' p' => i' = i /\ p' = p) (fun _ => False) d (fst (join n i p d nt)) nt (snd (join n i p d nt)).
Proof.
  unfold join, joined. cbn [fst snd insts terms nets pin_net term_net n_name n_special n_terms n_pins]. do 5 (split; [reflexivity|]).
  split; [intros i' p'; rewrite in_app_iff; split; [intros [H|[H|[]]]; [auto|injection H as -> ->; auto]|intros [H|(-> & ->)]; [auto|right; left; reflexivity]]|].
  split; [intros t; tauto|]. split; [intros i' p' (-> & ->); apply upd_same, pair_eqb_spec; reflexivity|].
  split; [|split; [contradiction|reflexivity]]. intros i' p' H. unfold upd. destruct (pair_eqb (i', p') (i, p)) eqn:E; [|reflexivity]. apply pair_eqb_spec in E. injection E as -> ->. tauto.
Qed.
Lemma dec_eq2 (i p i' p' : nat) : (i = i' /\ p = p') \/ ~ (i = i' /\ p = p').
Proof. destruct (Nat.eq_dec i i'), (Nat.eq_dec p p'); tauto. Qed.
Lemma nm_dec is c i p : nm is c i p \/ ~ nm is c i p.
Proof.
  unfold nm. destruct (nth_error is i) as [[id ps]|] eqn:E; [|right; intros (a & b & q & H & _); discriminate]. destruct (nth_error ps p) as [pin|] eqn:F; [|right; intros (a & b & q & H & H2 & _); injection H as <- <-; congruence].
  destruct c as [s|s|inst s].
  - right. intros (a & b & q & _ & _ & []).
  - destruct (string_dec s pin) as [->|N]; [left; do 3 eexists; split; [reflexivity|]; split; [exact F|reflexivity]|right; intros (a & b & q & H & H2 & H3); injection H as <- <-; congruence].
  - destruct (string_dec s pin) as [->|N]; [|right; intros (a & b & q & H & H2 & _ & H3); injection H as <- <-; congruence]. destruct (string_dec inst id) as [->|N]; [left; do 3 eexists; split; [reflexivity|]; split; [exact F|auto]|right; intros (a & b & q & H & H2 & H3 & _); injection H as <- <-; congruence].
Qed.
Lemma nmio_dec ts c t : nmio ts c t \/ ~ nmio ts c t.
Proof.
  unfold nmio. destruct (nth_error ts t) as [s|]; [|right; intros (a & H & _); discriminate]. destruct c as [s'|s'|a b]; [|right; intros (x & _ & H); discriminate|right; intros (x & _ & H); discriminate].
  destruct (string_dec s' s) as [->|N]; [left; eauto|right; intros (x & H & H2); injection H as <-; injection H2 as ->; congruence].
Qed.
(* a wildcard joins the pins of that name from component i0 on *)
Lemma join_all_joined n pin is : (forall id ps, In (id, ps) is -> NoDup ps) -> forall i0 d nt,
  joined n (fun i p => exists k id ps, i = (i0 + k)%nat /\ nth_error is k = Some (id, ps) /\ nth_error ps p = Some pin) (fun _ => False) d (fst (join_all n pin i0 is d nt)) nt (snd (join_all n pin i0 is d nt)).
Proof.
  induction is as [|[id ps] is IH]; intros N i0 d nt.
  - eapply joined_ext; [| |apply joined_refl]; [|tauto]. intros i p. split; [contradiction|intros (k & a & b & _ & E & _); destruct k; discriminate].
  - assert (IH' := IH (fun a b I => N a b (or_intror I)) (S i0)). cbn [join_all]. assert (NP := N id ps (or_introl eq_refl)).
    assert (Sp : forall i p, (exists k a b, i = (i0 + k)%nat /\ nth_error ((id, ps) :: is) k = Some (a, b) /\ nth_error b p = Some pin) <-> (i = i0 /\ nth_error ps p = Some pin) \/ (exists k a b, i = (S i0 + k)%nat /\ nth_error is k = Some (a, b) /\ nth_error b p = Some pin)).
    { intros i p. split.
      - intros ([|k] & a & b & -> & E & F); [injection E as <- <-; left; split; [lia|exact F]|right; exists k, a, b; split; [lia|split; [exact E|exact F]]].
      - intros [(-> & F)|(k & a & b & -> & E & F)]; [exists O, id, ps; split; [lia|split; [reflexivity|exact F]]|exists (S k), a, b; split; [lia|split; [exact E|exact F]]]. }
    destruct (first_named pin ps) as [p0|] eqn:F.
    + unfold join. set (d1 := mkDb _ _ _ _ _). set (nt1 := mkNet _ _ _ _). eapply joined_ext; [| |eapply (joined_trans n (fun i p => i = i0 /\ p = p0) _ (fun _ => False) _ d d1 _ nt nt1); [| |exact (join_joined n i0 p0 d nt)|exact (IH' d1 nt1)]].
      * intros i p. cbn beta. rewrite Sp. assert (Q : p = p0 <-> nth_error ps p = Some pin). { rewrite <- (first_named_iff pin ps p NP), F. split; [intros ->; reflexivity|intros E; injection E; auto]. } rewrite Q. tauto.
      * tauto.
      * intros i p. destruct (le_lt_dec (S i0) i) as [L|L].
        -- destruct (nth_error is (i - S i0)) as [[a b]|] eqn:E; [|right; intros (k & x & y & -> & E2 & _); replace (S i0 + k - S i0)%nat with k in E by lia; congruence].
           destruct (nth_error b p) as [q|] eqn:E2; [destruct (string_dec q pin) as [->|NQ]|]; [left; exists (i - S i0)%nat, a, b; repeat split; [lia|assumption|assumption]|right|right]; intros (k & x & y & -> & E3 & E4); replace (S i0 + k - S i0)%nat with k in E by lia; rewrite E in E3; injection E3 as <- <-; congruence.
        -- right. intros (k & x & y & -> & _). lia.
      * right. tauto.
    + eapply joined_ext; [| |exact (IH' d nt)]; [|tauto]. intros i p. cbn beta. rewrite Sp. split; [auto|]. intros [(_ & E)|H]; [|exact H]. destruct (first_named_none pin ps F). apply nth_error_In in E. exact E.
Qed.
Lemma connect_joined n c d nt : okdb d -> match connect n c d nt with
  | Some (d', nt') => joined n (nm (insts d) c) (nmio (terms d) c) d d' nt nt' /\ match c with CIo _ => exists t, nmio (terms d) c t | CAll _ => True | CPin _ _ => exists i p, nm (insts d) c i p end
  | None => match c with CIo _ => forall t, ~ nmio (terms d) c t | CAll _ => False | CPin _ _ => forall i p, ~ nm (insts d) c i p end
  end.
Proof.
  intros (N1 & N2 & N3). destruct c as [s|s|inst s]; cbn [connect].
  - destruct (last_named s (terms d)) as [t|] eqn:E.
    + apply (last_named_iff s _ t N3) in E. split; [|exists t, s; auto].
      unfold joined. cbn [insts terms nets pin_net term_net n_name n_special n_terms n_pins]. do 5 (split; [reflexivity|]).
      assert (Q : forall t', nmio (terms d) (CIo s) t' <-> t' = t). { intros t'. split; [intros (x & F & H); injection H as <-; exact (nth_nodup _ _ _ _ N3 F E)|intros ->; exists s; auto]. }
      split; [intros i p; split; [auto|intros [H|(a & b & q & _ & _ & [])]; exact H]|].
      split; [intros t'; rewrite Q, in_app_iff; cbn; split; [intros [H|[H|[]]]; auto|intros [H|H]; auto]|].
      split; [intros i p (a & b & q & _ & _ & [])|]. split; [reflexivity|].
      split; [intros t' H; apply Q in H; subst t'; apply upd_same, Nat.eqb_refl|]. intros t' H. unfold upd. destruct (Nat.eqb_spec t' t) as [->|D]; [destruct H; apply Q; reflexivity|reflexivity].
    + intros t (x & F & H). injection H as <-. apply last_named_none in E. apply E. apply nth_error_In in F. exact F.
  - assert (J := join_all_joined n s (insts d) N2 O d nt). destruct (join_all n s 0 (insts d) d nt) as [d' nt'] eqn:E. cbn [fst snd] in J. split; [|exact I]. eapply joined_ext; [| |exact J].
    + intros i p. unfold nm. split; [intros (k & a & b & -> & H1 & H2); exists a, b, s; auto|intros (a & b & q & H1 & H2 & H3); subst q; exists i, a, b; auto].
    + intros t. unfold nmio. split; [contradiction|intros (x & _ & H); discriminate].
  - destruct (last_named inst (map fst (insts d))) as [i|] eqn:E.
    + apply (last_named_iff inst _ i N1) in E. apply nth_map_some in E as ([id ps] & E & H). cbn in H. subst id. rewrite E. assert (NP : NoDup ps) by (apply (N2 inst), (nth_error_In _ i), E).
      assert (Q : forall i' p', nm (insts d) (CPin inst s) i' p' <-> i' = i /\ nth_error ps p' = Some s).
      { intros i' p'. unfold nm. split; [intros (a & b & q & H1 & H2 & H3 & H4)|intros (-> & H); exists inst, ps, s; auto]. subst a q.
        assert (i' = i) as ->. { apply (nth_nodup (map fst (insts d)) i' i inst N1); rewrite nth_error_map; [rewrite H1|rewrite E]; reflexivity. } rewrite E in H1. injection H1 as <-. auto. }
      destruct (first_named s ps) as [p|] eqn:F.
      * apply (first_named_iff s ps p NP) in F. split; [|exists i, p; apply Q; auto]. eapply joined_ext; [| |exact (join_joined n i p d nt)].
        -- intros i' p'. cbn beta. rewrite Q. split; [intros (-> & ->); auto|intros (-> & H); split; [reflexivity|exact (nth_nodup _ _ _ _ NP H F)]].
        -- intros t. unfold nmio. split; [contradiction|intros (x & _ & H); discriminate].
      * intros i' p' H. apply Q in H as (-> & H). apply (first_named_none s ps F). apply nth_error_In in H. exact H.
    + intros i p (a & b & q & H1 & H2 & H3 & H4). subst a. apply last_named_none in E. apply E. apply in_map_iff. exists (inst, b). split; [reflexivity|]. apply nth_error_In in H1. exact H1.
Qed.
Definition named (is : list (string * list string)) (ts : list string) (c : conn) : Prop := match c with CIo _ => exists t, nmio ts c t | CAll _ => True | CPin _ _ => exists i p, nm is c i p end.
Lemma ex_dec {A} (l : list A) (P : A -> Prop) : (forall a, P a \/ ~ P a) -> (exists a, In a l /\ P a) \/ ~ (exists a, In a l /\ P a).
Proof.
  intros D. induction l as [|a l IH]; [right; intros (a & [] & _)|]. destruct (D a) as [H|H]; [left; exists a; split; [left; reflexivity|exact H]|]. destruct IH as [(b & I & Hb)|IH]; [left; exists b; split; [right; exact I|exact Hb]|].
  right. intros (b & [->|I] & Hb); [exact (H Hb)|]. apply IH. exists b. auto.
Qed.
Lemma connects_joined n cs : forall d nt, okdb d -> match connects n cs d nt with
  | Some (d', nt') => joined n (fun i p => exists c, In c cs /\ nm (insts d) c i p) (fun t => exists c, In c cs /\ nmio (terms d) c t) d d' nt nt' /\ Forall (named (insts d) (terms d)) cs
  | None => ~ Forall (named (insts d) (terms d)) cs
  end.
Proof.
  induction cs as [|c cs IH]; intros d nt K; cbn [connects].
  - split; [|constructor]. eapply joined_ext; [| |apply joined_refl]; [intros i p; split; [contradiction|intros (c & [] & _)]|intros t; split; [contradiction|intros (c & [] & _)]].
  - assert (C := connect_joined n c d nt K). destruct (connect n c d nt) as [[d1 nt1]|].
    + destruct C as (C & NC). assert (I1 : insts d1 = insts d) by apply C. assert (T1 : terms d1 = terms d) by apply C. assert (K1 : okdb d1) by (unfold okdb; rewrite I1, T1; exact K). specialize (IH d1 nt1 K1). rewrite I1, T1 in IH.
      destruct (connects n cs d1 nt1) as [[d2 nt2]|].
      * destruct IH as (J & F). split; [|constructor; [exact NC|exact F]]. eapply joined_ext; [| |eapply joined_trans; [| |exact C|exact J]].
        -- intros i p. cbn beta. split; [intros [H|(c' & I & H)]; [exists c; split; [left; reflexivity|exact H]|exists c'; split; [right; exact I|exact H]]|intros (c' & [->|I] & H); [left; exact H|right; exists c'; auto]].
        -- intros t. cbn beta. split; [intros [H|(c' & I & H)]; [exists c; split; [left; reflexivity|exact H]|exists c'; split; [right; exact I|exact H]]|intros (c' & [->|I] & H); [left; exact H|right; exists c'; auto]].
        -- intros i p. apply ex_dec. intros a. apply nm_dec.
        -- intros t. apply ex_dec. intros a. apply nmio_dec.
      * intros F. inversion F; subst. contradiction.
    + intros F. inversion F as [|x l F1 F2]; subst. destruct c as [s|s|a s]; cbn in F1, C; [destruct F1 as (t & F1); exact (C t F1)|exact C|destruct F1 as (i & p & F1); exact (C i p F1)].
Qed.

Lemma nodup_left {A} (l l' : list A) : NoDup (l ++ l') -> NoDup l.
Proof. induction l as [|a l IH]; intros H; [constructor|]. inversion H as [|x y N H']; subst. constructor; [intros I; apply N, in_app_iff; auto|exact (IH H')]. Qed.

Section R.
Variable macro : string -> option (list string).
Notation read_entry := (read_entry macro). Notation read_from := (read_from macro). Notation read := (read macro).
Notation names_pin := (names_pin macro). Notation on_net := (on_net macro). Notation complete := (complete macro).
Lemma read_from_app es1 : forall es2 d, read_from (es1 ++ es2) d = match read_from es1 d with Some d => read_from es2 d | None => None end.
Proof. induction es1 as [|e es1 IH]; intros es2 d; [reflexivity|]. cbn [app NlModel.read_from]. destruct (read_entry e d); [apply IH|reflexivity]. Qed.
Lemma read_snoc es e : read (es ++ [e]) = match read es with Some d => read_entry e d | None => None end.
Proof. unfold NlModel.read. rewrite read_from_app. destruct (read_from es db0); [|reflexivity]. cbn. destruct (read_entry e d); reflexivity. Qed.
Lemma comps_app a b : comps (a ++ b) = comps a ++ comps b. Proof. apply flat_map_app. Qed.
Lemma ios_app a b : ios (a ++ b) = ios a ++ ios b. Proof. apply flat_map_app. Qed.
Lemma net_list_app a b : net_list (a ++ b) = net_list a ++ net_list b. Proof. apply flat_map_app. Qed.
Definition pins_of (c : string * string) : string * list string := (fst c, match macro (snd c) with Some ps => ps | None => [] end).
(* the nets of a file with one more entry *)
Lemma snoc_split {A} (es : list A) e before x after : es ++ [e] = before ++ x :: after -> (after = [] /\ before = es /\ x = e) \/ (exists after', after = after' ++ [e] /\ es = before ++ x :: after').
Proof.
  intros H. assert (D : after = [] \/ exists after' y, after = after' ++ [y]) by (destruct after as [|w after0]; [left; reflexivity|right; destruct (@exists_last _ (w :: after0) ltac:(discriminate)) as (a & b & ->); eauto]). destruct D as [->|(after' & y & ->)].
  - left. apply app_inj_tail in H as (-> & ->). auto.
  - right. exists after'. change (before ++ x :: after' ++ [y]) with (before ++ (x :: after') ++ [y]) in H. rewrite app_assoc in H. apply app_inj_tail in H as (-> & ->). auto.
Qed.
Lemma net_at_snoc es e n before s sp cs : net_at (es ++ [e]) n before s sp cs <-> net_at es n before s sp cs \/ (e = ENet s sp cs /\ before = es /\ n = List.length (net_list es)).
Proof.
  unfold net_at. split.
  - intros (after & H & L). apply snoc_split in H as [(-> & -> & ->)|(after' & -> & ->)]; [right; auto|left; exists after'; auto].
  - intros [(after & -> & L)|(-> & -> & ->)]; [exists (after ++ [e]); rewrite <- app_assoc; auto|exists []; auto].
Qed.
Record inv (es : list entry) (d : db) : Prop := {
  i_insts : insts d = map pins_of (comps es); i_terms : terms d = ios es;
  i_nets : map (fun nt => (n_name nt, n_special nt)) (nets d) = map fst (net_list es);
  i_ok : okdb d; i_cells : forall id cell, In (id, cell) (comps es) -> macro cell <> None;
  i_pins : forall n i p, (exists nt, nth_error (nets d) n = Some nt /\ In (i, p) (n_pins nt)) <-> on_net es n i p;
  i_ios : forall n t, (exists nt, nth_error (nets d) n = Some nt /\ In t (n_terms nt)) <-> io_on_net es n t;
  i_pn : forall n i p, pin_net d (i, p) = Some n <-> on_net es n i p /\ forall m, (n < m)%nat -> ~ on_net es m i p;
  i_tn : forall n t, term_net d t = Some n <-> io_on_net es n t /\ forall m, (n < m)%nat -> ~ io_on_net es m t }.
Lemma nm_names es d c i p : inv es d -> nm (insts d) c i p <-> names_pin es c i p.
Proof.
  intros V. unfold nm, NlSpec.names_pin. rewrite (i_insts es d V). split.
  - intros (id & ps & pin & H1 & H2 & H3). apply nth_map_some in H1 as ([id' cell] & H1 & H4). unfold pins_of in H4. cbn in H4. injection H4 as <- <-.
    destruct (macro cell) as [ps|] eqn:M; [|destruct p; discriminate H2]. exists id', cell, ps, pin. auto.
  - intros (id & cell & ps & pin & H1 & H2 & H3 & H4). exists id, ps, pin. split; [|auto]. apply nth_map_some. exists (id, cell). split; [exact H1|]. unfold pins_of. cbn. rewrite H2. reflexivity.
Qed.
Lemma net_at_lt es n before s sp cs : net_at es n before s sp cs -> (n < List.length (net_list es))%nat.
Proof. intros (after & -> & <-). rewrite net_list_app, app_length. cbn. lia. Qed.
Lemma on_net_lt es n i p : on_net es n i p -> (n < List.length (net_list es))%nat.
Proof. intros (b & s & sp & cs & c & H & _). exact (net_at_lt _ _ _ _ _ _ H). Qed.
Lemma io_on_net_lt es n t : io_on_net es n t -> (n < List.length (net_list es))%nat.
Proof. intros (b & s & sp & cs & c & H & _). exact (net_at_lt _ _ _ _ _ _ H). Qed.
Lemma on_net_snoc es e n i p : on_net (es ++ [e]) n i p <-> on_net es n i p \/ (n = List.length (net_list es) /\ match e with ENet _ _ cs => exists c, In c cs /\ names_pin es c i p | _ => False end).
Proof.
  unfold NlSpec.on_net. split.
  - intros (b & s & sp & cs & c & H & I & N). apply net_at_snoc in H as [H|(-> & -> & ->)]; [left; exists b, s, sp, cs, c; auto|right; eauto].
  - intros [(b & s & sp & cs & c & H & I & N)|(-> & H)]; [exists b, s, sp, cs, c; split; [apply net_at_snoc; auto|auto]|]. destruct e as [| |s sp cs]; try contradiction. destruct H as (c & I & N). exists es, s, sp, cs, c. split; [apply net_at_snoc; auto|auto].
Qed.
Lemma io_on_net_snoc es e n t : io_on_net (es ++ [e]) n t <-> io_on_net es n t \/ (n = List.length (net_list es) /\ match e with ENet _ _ cs => exists c, In c cs /\ names_io es c t | _ => False end).
Proof.
  unfold NlSpec.io_on_net. split.
  - intros (b & s & sp & cs & c & H & I & N). apply net_at_snoc in H as [H|(-> & -> & ->)]; [left; exists b, s, sp, cs, c; auto|right; eauto].
  - intros [(b & s & sp & cs & c & H & I & N)|(-> & H)]; [exists b, s, sp, cs, c; split; [apply net_at_snoc; auto|auto]|]. destruct e as [| |s sp cs]; try contradiction. destruct H as (c & I & N). exists es, s, sp, cs, c. split; [apply net_at_snoc; auto|auto].
Qed.
(* without a new net *)
Lemma on_net_same es e n i p : (match e with ENet _ _ _ => False | _ => True end) -> on_net (es ++ [e]) n i p <-> on_net es n i p.
Proof. intros H. rewrite on_net_snoc. destruct e; tauto. Qed.
Lemma io_on_net_same es e n t : (match e with ENet _ _ _ => False | _ => True end) -> io_on_net (es ++ [e]) n t <-> io_on_net es n t.
Proof. intros H. rewrite io_on_net_snoc. destruct e; tauto. Qed.
Lemma complete_snoc es e : complete (es ++ [e]) <-> complete es /\
  match e with
  | EComp id cell => macro cell <> None /\ ~ In id (map fst (comps es))
  | ETerm _ => True
  | ENet _ _ cs => forall c, In c cs -> match c with CIo _ => exists t, names_io es c t | CAll _ => True | CPin _ _ => exists i p, names_pin es c i p end
  end.
Proof.
  unfold NlSpec.complete. rewrite comps_app. split.
  - intros (A & B & C). split; [split; [|split]|].
    + intros id cell I. apply (A id). apply in_app_iff. auto.
    + rewrite map_app in B. exact (nodup_left _ _ B).
    + intros n b s sp cs c H. apply (C n b s sp cs c). apply net_at_snoc. auto.
    + destruct e as [id cell| |s sp cs]; [|exact I|].
      * split; [apply (A id), in_app_iff; right; left; reflexivity|]. rewrite map_app in B. cbn in B. apply NoDup_remove_2 in B. rewrite app_nil_r in B. exact B.
      * intros c I. apply (C (List.length (net_list es)) es s sp cs c); [apply net_at_snoc; auto|exact I].
  - intros ((A & B & C) & D). split; [|split].
    + intros id cell I. apply in_app_iff in I as [I|I]; [exact (A id cell I)|]. destruct e as [id' cell'| |]; cbn in I; [destruct I as [I|[]]; injection I as <- <-; apply D|destruct I|destruct I].
    + rewrite map_app. destruct e as [id cell| |]; cbn; try (rewrite app_nil_r; exact B). apply (Permutation_NoDup (Permutation_cons_append (map fst (comps es)) id)). constructor; [apply D|exact B].
    + intros n b s sp cs c H. apply net_at_snoc in H as [H|(-> & -> & ->)]; [exact (C n b s sp cs c H)|]. apply D.
Qed.
Lemma inv0 : inv [] db0.
Proof.
  assert (E : forall n b s sp cs, ~ net_at [] n b s sp cs) by (intros n b s sp cs (a & H & _); destruct b; discriminate).
  assert (E1 : forall n i p, ~ on_net [] n i p) by (intros n i p (b & s & sp & cs & c & H & _); exact (E _ _ _ _ _ H)).
  assert (E2 : forall n t, ~ io_on_net [] n t) by (intros n t (b & s & sp & cs & c & H & _); exact (E _ _ _ _ _ H)).
  constructor; try reflexivity.
  - split; [constructor|]. split; [intros ? ? []|constructor].
  - intros id cell [].
  - intros n i p. split; [intros (nt & H & _); destruct n; discriminate|intros H; destruct (E1 _ _ _ H)].
  - intros n t. split; [intros (nt & H & _); destruct n; discriminate|intros H; destruct (E2 _ _ H)].
  - intros n i p. split; [discriminate|intros (H & _); destruct (E1 _ _ _ H)].
  - intros n t. split; [discriminate|intros (H & _); destruct (E2 _ _ H)].
Qed.
Lemma inv_len es d : inv es d -> List.length (nets d) = List.length (net_list es).
Proof. intros V. assert (H := f_equal (@List.length _) (i_nets es d V)). rewrite !map_length in H. exact H. Qed.
Lemma nth_snoc {A} (l : list A) a n x : nth_error (l ++ [a]) n = Some x <-> nth_error l n = Some x \/ (n = List.length l /\ x = a).
Proof.
  destruct (lt_eq_lt_dec n (List.length l)) as [[L| ->]|L].
  - rewrite nth_error_app1 by exact L. split; [auto|intros [H|(H & _)]; [exact H|lia]].
  - rewrite nth_error_app2, Nat.sub_diag by lia. cbn. split; [intros H; injection H as <-; auto|intros [H|(_ & ->)]; [|reflexivity]]. assert (N : nth_error l (List.length l) = None) by (apply nth_error_None; lia). congruence.
  - assert (N : nth_error l n = None) by (apply nth_error_None; lia). rewrite N. split; [|intros [H|(H & _)]; [discriminate|lia]]. rewrite nth_error_app2 by lia. destruct (n - List.length l)%nat as [|[|k]] eqn:Q; cbn; try discriminate; lia.
Qed.
Lemma inv_step es d e : (forall cell ps, macro cell = Some ps -> NoDup ps) -> NoDup (ios (es ++ [e])) -> inv es d -> complete es ->
  match read_entry e d with Some d' => inv (es ++ [e]) d' /\ complete (es ++ [e]) | None => ~ complete (es ++ [e]) end.
Proof.
  intros DM DI V CO. destruct e as [id cell|s|s sp cs]; cbn [NlModel.read_entry].
  - (* a component *)
    destruct (macro cell) as [ps|] eqn:M; [|intros C; apply complete_snoc in C as (_ & C & _); congruence].
    assert (FI : map fst (insts d) = map fst (comps es)) by (rewrite (i_insts es d V), map_map; apply map_ext; intros []; reflexivity). rewrite FI.
    destruct (last_named id (map fst (comps es))) as [j|] eqn:LN.
    + intros C. apply complete_snoc in C as (_ & _ & C). apply C. apply last_named_some, nth_error_In in LN. exact LN.
    + apply last_named_none in LN. split; [|apply complete_snoc; split; [exact CO|split; [congruence|exact LN]]]. destruct V as [V1 V2 V3 V4 V5 V6 V7 V8 V9]. constructor; cbn [insts terms nets pin_net term_net].
      * rewrite comps_app, map_app, V1. f_equal. cbn [comps flat_map map app]. unfold pins_of. cbn [fst snd]. rewrite M. reflexivity.
      * rewrite ios_app, V2. cbn. rewrite app_nil_r. reflexivity.
      * rewrite net_list_app, V3. cbn. rewrite app_nil_r. reflexivity.
      * destruct V4 as (K1 & K2 & K3). split; [|split].
        -- cbn [insts]. rewrite map_app. cbn. apply (Permutation_NoDup (Permutation_cons_append (map fst (insts d)) id)). constructor; [rewrite FI; exact LN|exact K1].
        -- intros a b I. cbn [insts] in I. apply in_app_iff in I as [I|[I|[]]]; [exact (K2 a b I)|]. injection I as <- <-. exact (DM cell ps M).
        -- exact K3.
      * intros a b I. rewrite comps_app in I. apply in_app_iff in I as [I|[I|[]]]; [exact (V5 a b I)|]. injection I as <- <-. congruence.
      * intros n i p. rewrite on_net_same by exact I. apply V6.
      * intros n t. rewrite io_on_net_same by exact I. apply V7.
      * intros n i p. rewrite V8, on_net_same by exact I. split; intros (A & B); (split; [exact A|]); intros m L H; apply (B m L); [apply on_net_same in H; [exact H|exact I]|apply on_net_same; [exact I|exact H]].
      * intros n t. rewrite V9, io_on_net_same by exact I. split; intros (A & B); (split; [exact A|]); intros m L H; apply (B m L); [apply io_on_net_same in H; [exact H|exact I]|apply io_on_net_same; [exact I|exact H]].
  - (* an IO pin *)
    split; [|apply complete_snoc; split; [exact CO|exact I]]. destruct V as [V1 V2 V3 V4 V5 V6 V7 V8 V9]. constructor; cbn [insts terms nets pin_net term_net].
    + rewrite comps_app, V1. cbn. rewrite app_nil_r. reflexivity.
    + rewrite ios_app, V2. reflexivity.
    + rewrite net_list_app, V3. cbn. rewrite app_nil_r. reflexivity.
    + destruct V4 as (K1 & K2 & K3). split; [exact K1|]. split; [exact K2|]. cbn [terms]. rewrite V2. rewrite ios_app in DI. exact DI.
    + intros a b I. rewrite comps_app in I. cbn in I. rewrite app_nil_r in I. exact (V5 a b I).
    + intros n i p. rewrite on_net_same by exact I. apply V6.
    + intros n t. rewrite io_on_net_same by exact I. apply V7.
    + intros n i p. rewrite V8, on_net_same by exact I. split; intros (A & B); (split; [exact A|]); intros m L H; apply (B m L); [apply on_net_same in H; [exact H|exact I]|apply on_net_same; [exact I|exact H]].
    + intros n t. rewrite V9, io_on_net_same by exact I. split; intros (A & B); (split; [exact A|]); intros m L H; apply (B m L); [apply io_on_net_same in H; [exact H|exact I]|apply io_on_net_same; [exact I|exact H]].
  - (* a net *)
    assert (J := connects_joined (List.length (nets d)) cs d (mkNet s sp [] []) (i_ok es d V)). assert (LN := inv_len es d V).
    assert (NI : forall c t, nmio (terms d) c t <-> names_io es c t) by (intros c t; unfold nmio, names_io; rewrite (i_terms es d V); reflexivity).
    assert (NM : Forall (named (insts d) (terms d)) cs <-> forall c, In c cs -> match c with CIo _ => exists t, names_io es c t | CAll _ => True | CPin _ _ => exists i p, names_pin es c i p end).
    { rewrite Forall_forall. split; intros H c I; specialize (H c I); destruct c as [x|x|y x]; cbn in *; auto.
      - destruct H as (t & H). exists t. apply NI. exact H.
      - destruct H as (i & p & H). exists i, p. apply (nm_names es d _ _ _ V). exact H.
      - destruct H as (t & H). exists t. apply NI. exact H.
      - destruct H as (i & p & H). exists i, p. apply (nm_names es d _ _ _ V). exact H. }
    destruct (connects (List.length (nets d)) cs d (mkNet s sp [] [])) as [[d1 nt]|]; [|intros C; apply complete_snoc in C as (_ & C); apply J, NM, C].
    destruct J as (J & F). split; [|apply complete_snoc; split; [exact CO|apply NM, F]].
    destruct J as (J1 & J2 & J3 & J4 & J5 & J6 & J7 & J8 & J9 & J10 & J11).
    assert (PP : forall i p, (exists c, In c cs /\ nm (insts d) c i p) <-> (exists c, In c cs /\ names_pin es c i p)).
    { intros i p. split; intros (c & I & H); exists c; (split; [exact I|]); [apply (nm_names es d _ _ _ V) in H; exact H|apply (nm_names es d _ _ _ V); exact H]. }
    assert (QQ : forall t, (exists c, In c cs /\ nmio (terms d) c t) <-> (exists c, In c cs /\ names_io es c t)).
    { intros t. split; intros (c & I & H); exists c; (split; [exact I|]); apply NI; exact H. }
    assert (PD : forall i p, (exists c, In c cs /\ nm (insts d) c i p) \/ ~ (exists c, In c cs /\ nm (insts d) c i p)) by (intros; apply ex_dec; intros; apply nm_dec).
    assert (QD : forall t, (exists c, In c cs /\ nmio (terms d) c t) \/ ~ (exists c, In c cs /\ nmio (terms d) c t)) by (intros; apply ex_dec; intros; apply nmio_dec).
    destruct V as [V1 V2 V3 V4 V5 V6 V7 V8 V9]. constructor; cbn [insts terms nets pin_net term_net].
    + rewrite comps_app, J1, V1. cbn. rewrite app_nil_r. reflexivity.
    + rewrite ios_app, J2, V2. cbn. rewrite app_nil_r. reflexivity.
    + rewrite net_list_app, !map_app, J3, V3. cbn. rewrite J4, J5. reflexivity.
    + unfold okdb. cbn [insts terms]. rewrite J1, J2. exact V4.
    + intros a b I. rewrite comps_app in I. cbn in I. rewrite app_nil_r in I. exact (V5 a b I).
    + intros n i p. rewrite on_net_snoc, J3. rewrite <- (V6 n i p), <- PP, <- LN. split.
      * intros (nt' & H & I). apply nth_snoc in H as [H|(-> & ->)]; [left; exists nt'; auto|right; split; [reflexivity|]]. apply J6 in I as [[]|I]. exact I.
      * intros [(nt' & H & I)|(-> & I)]; [exists nt'; split; [apply nth_snoc; auto|exact I]|exists nt; split; [apply nth_snoc; auto|apply J6; auto]].
    + intros n t. rewrite io_on_net_snoc, J3. rewrite <- (V7 n t), <- QQ, <- LN. split.
      * intros (nt' & H & I). apply nth_snoc in H as [H|(-> & ->)]; [left; exists nt'; auto|right; split; [reflexivity|]]. apply J7 in I as [[]|I]. exact I.
      * intros [(nt' & H & I)|(-> & I)]; [exists nt'; split; [apply nth_snoc; auto|exact I]|exists nt; split; [apply nth_snoc; auto|apply J7; auto]].
    + intros n i p. destruct (PD i p) as [P|P].
      * rewrite (J8 i p P). split.
        -- intros E. injection E as <-. split; [apply on_net_snoc; right; split; [exact LN|apply PP, P]|]. intros m L H. apply on_net_snoc in H as [H|(-> & _)]; [apply on_net_lt in H; lia|lia].
        -- intros (H & B). apply on_net_snoc in H as [H|(-> & _)]; [|f_equal; exact LN]. exfalso. assert (L := on_net_lt _ _ _ _ H). apply (B _ L). apply on_net_snoc. right. split; [reflexivity|apply PP, P].
      * rewrite (J9 i p P), V8. assert (E : forall m, on_net (es ++ [ENet s sp cs]) m i p <-> on_net es m i p) by (intros m; rewrite on_net_snoc, <- PP; tauto). rewrite E. split; intros (A & B); (split; [exact A|]); intros m L H; apply (B m L), E, H.
    + intros n t. destruct (QD t) as [P|P].
      * rewrite (J10 t P). split.
        -- intros E. injection E as <-. split; [apply io_on_net_snoc; right; split; [exact LN|apply QQ, P]|]. intros m L H. apply io_on_net_snoc in H as [H|(-> & _)]; [apply io_on_net_lt in H; lia|lia].
        -- intros (H & B). apply io_on_net_snoc in H as [H|(-> & _)]; [|f_equal; exact LN]. exfalso. assert (L := io_on_net_lt _ _ _ H). apply (B _ L). apply io_on_net_snoc. right. split; [reflexivity|apply QQ, P].
      * rewrite (J11 t P), V9. assert (E : forall m, io_on_net (es ++ [ENet s sp cs]) m t <-> io_on_net es m t) by (intros m; rewrite io_on_net_snoc, <- QQ; tauto). rewrite E. split; intros (A & B); (split; [exact A|]); intros m L H; apply (B m L), E, H.
Qed.
Lemma read_inv es : distinct macro es -> match read es with Some d => inv es d /\ complete es | None => ~ complete es end.
Proof.
  intros (DM & DI). induction es as [|e es IH] using rev_ind.
  - cbn. split; [exact inv0|]. split; [intros ? ? []|]. split; [constructor|]. intros n b s sp cs c (a & H & _). destruct b; discriminate.
  - rewrite read_snoc. assert (DI' : NoDup (ios es)) by (rewrite ios_app in DI; exact (nodup_left _ _ DI)). specialize (IH DI'). destruct (read es) as [d|].
    + destruct IH as (V & C). apply (inv_step es d e DM DI V C).
    + intros C. apply IH. apply complete_snoc in C as (C & _). exact C.
Qed.
End R.
