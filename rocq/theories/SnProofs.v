From Coq Require Import String.
From Verif Require Import Base DwModel DwSpec DwProofs DwProofs2 SnModel SnSpec.
Local Open Scope string_scope.
Local Open Scope Z_scope.
Local Open Scope list_scope.

Lemma digits3 n : 0 <= n -> 100 * (n / 100) + 10 * (n / 10 mod 10) + n mod 10 = n.
Proof. intros H. replace (n / 100) with (n / 10 / 10) by (rewrite Z.div_div by lia; reflexivity). pose proof (Z.div_mod n 10). pose proof (Z.div_mod (n / 10) 10). lia. Qed.
Lemma eat_other k s r : k <> s -> eat k (W s :: r) = None.
Proof. intros N. cbn [eat]. destruct (String.eqb_spec s k); [congruence|reflexivity]. Qed.
Lemma eat_same k r : eat k (W k :: r) = Some r.
Proof. cbn [eat]. rewrite String.eqb_refl. reflexivity. Qed.
Lemma eat_num k z r : eat k (Nu z :: r) = None. Proof. reflexivity. Qed.
Lemma ppt_read p r : read_ppt (print_ppt p ++ r) = Some (p, r).
Proof. destruct p; reflexivity. Qed.
Lemma ppt_paren p r : exists x, eat "(" (print_ppt p ++ r) = Some x. Proof. destruct p; eexists; reflexivity. Qed.
(* what follows a path item: another item or the end of the path *)
Definition follows (ts : list tok) : Prop := match ts with W s :: _ => ~ In s ["N"; "W"; "S"; "E"; "FN"; "FW"; "FS"; "FE"; "DO"] | _ => False end.
Lemma index_of_not (s : string) l : ~ In s l -> index_of s l = None.
Proof. induction l as [|a l IH]; intros N; [reflexivity|]. cbn [index_of]. destruct (String.eqb_spec s a) as [->|_]; [elim N; left; reflexivity|]. rewrite IH; [reflexivity|]. intros X. apply N. right. exact X. Qed.
Lemma follows_orient ts : follows ts -> orient ts = None /\ eat "DO" ts = None.
Proof.
  destruct ts as [|[s|z] r]; cbn [follows]; intros H; try contradiction. split.
  - cbn [orient]. rewrite index_of_not; [reflexivity|]. intros X. apply H. cbn in *. tauto.
  - apply eat_other. intros <-. apply H. cbn. tauto.
Qed.
Lemma is_key_not s : ~ In s path_keys -> is_key s = false.
Proof. intros N. unfold is_key. destruct (existsb _ _) eqn:E; [|reflexivity]. apply existsb_exists in E. destruct E as (x & X & Y). apply String.eqb_eq in Y. subst. contradiction. Qed.
Lemma via_read m n o a rest : via_name n -> (forall x, o = Some x -> is_orient x) -> follows rest ->
  read_via m ([W n] ++ opt (fun o => [W (orient_str o)]) o ++ opt (fun a => match a with (nx, ny, sx, sy) => [W "DO"; Nu nx; W "BY"; Nu ny; W "STEP"; Nu sx; Nu sy] end) a ++ rest) = Some (IVia m n o a, rest).
Proof.
  intros [V1 V2] O F. destruct (follows_orient rest F) as [F1 F2]. unfold read_via. cbn [app]. rewrite word_name by exact V1. rewrite is_key_not by (intros X; apply V2; right; exact X).
  destruct (String.eqb_spec n "TAPER") as [->|_]; [elim V2; left; reflexivity|]. cbn [orb].
  destruct o as [o|]; cbn [opt app].
  - rewrite orient_ok by (apply O; reflexivity). destruct a as [[[[nx ny] sx] sy]|]; cbn [opt app]; [reflexivity|]. rewrite F2. reflexivity.
  - destruct a as [[[[nx ny] sx] sy]|]; cbn [opt app]; [reflexivity|]. rewrite F1, F2. reflexivity.
Qed.
Lemma key_neq s k : ~ In s ("TAPER" :: path_keys) -> In k path_keys -> k <> s.
Proof. intros H K <-. apply H. right. exact K. Qed.
Ltac key := apply eat_other; eapply key_neq; [eassumption|cbn; tauto].
Lemma name_paren s r : is_name s -> eat "(" (W s :: r) = None.
Proof. intros H. apply eat_other. intros <-. apply H. cbn. tauto. Qed.
Lemma item_read i rest : item_wf i -> drawn i -> follows rest -> read_item (print_item i ++ rest) = Some (i, rest).
Proof.
  intros Wf D F. destruct i as [m n o a|m p|m a b c d|x y]; cbn [item_wf drawn] in *; try contradiction.
  - destruct Wf as (V & O & M). cbn [print_item]. repeat rewrite <- app_assoc. pose proof V as [V1 V2]. destruct m as [m|]; cbn [print_viamask opt app].
    + rewrite digits3 by (apply M; reflexivity). unfold read_item. change (eat "(" (W "MASK" :: ?r)) with (@None (list tok)). change (eat "MASK" (W "MASK" :: ?r)) with (Some r). cbv iota beta. cbn [num].
      rewrite (name_paren n) by exact V1. assert (E : forall r, eat "RECT" (W n :: r) = None) by (intros; key). rewrite E. exact (via_read (Some m) n o a rest V O F).
    + unfold read_item. rewrite (name_paren n) by exact V1.
      assert (E1 : forall r, eat "MASK" (W n :: r) = None) by (intros; key). assert (E2 : forall r, eat "RECT" (W n :: r) = None) by (intros; key). assert (E3 : forall r, eat "VIRTUAL" (W n :: r) = None) by (intros; key).
      rewrite E1, E2, E3. exact (via_read None n o a rest V O F).
  - cbn [print_item]. repeat rewrite <- app_assoc. destruct m as [m|]; cbn [print_mask opt app].
    + unfold read_item. change (eat "(" (W "MASK" :: ?r)) with (@None (list tok)). change (eat "MASK" (W "MASK" :: ?r)) with (Some r). cbv iota beta. cbn [num]. destruct (ppt_paren p rest) as (x & ->). rewrite ppt_read. reflexivity.
    + unfold read_item. destruct (ppt_paren p rest) as (x & ->). rewrite ppt_read. reflexivity.
Qed.
(* the end of a path *)
Definition ends (ts : list tok) : Prop := items_end ts = true.
Lemma ends_follows ts : ends ts -> follows ts.
Proof.
  unfold ends. destruct ts as [|[s|z] r]; cbn; try discriminate. intros H X. destruct (String.eqb_spec s "NEW") as [->|_]; [|destruct (String.eqb_spec s "+") as [->|_]; [|destruct (String.eqb_spec s ";") as [->|_]; [|discriminate]]];
  repeat destruct X as [X|X]; try discriminate X; exact X.
Qed.
Lemma item_head i r : item_wf i -> drawn i -> follows (print_item i ++ r) /\ items_end (print_item i ++ r) = false.
Proof.
  intros Wf D. destruct i as [m n o a|m p|m a b c d|x y]; cbn [item_wf drawn] in *; try contradiction.
  - destruct Wf as ((V1 & V2) & _). destruct m as [m|]; cbn [print_item print_viamask opt app].
    + split; [|reflexivity]. cbn. intros X. repeat destruct X as [X|X]; try discriminate X; exact X.
    + split.
      * cbn [follows]. intros X. apply V2. right. cbn in X |- *. tauto.
      * cbn [items_end]. destruct (String.eqb_spec n "NEW") as [->|_]; [elim V2; cbn; tauto|]. destruct (String.eqb_spec n "+") as [->|_]; [elim V1; cbn; tauto|]. destruct (String.eqb_spec n ";") as [->|_]; [elim V1; cbn; tauto|]. reflexivity.
  - destruct m as [m|]; cbn [print_item print_mask opt app]; [|destruct p]; (split; [|reflexivity]); cbn; intros X; repeat destruct X as [X|X]; try discriminate X; exact X.
Qed.
Lemma items_follow l r : (forall i, In i l -> item_wf i /\ drawn i) -> ends r -> follows (flat_map print_item l ++ r).
Proof. intros H E. destruct l as [|i l]; [apply ends_follows; exact E|]. cbn [flat_map]. rewrite <- app_assoc. apply item_head; apply H; left; reflexivity. Qed.
Lemma items_read l : forall f r, (forall i, In i l -> item_wf i /\ drawn i) -> ends r -> (length l < f)%nat -> read_items f (flat_map print_item l ++ r) = Some (l, r).
Proof.
  induction l as [|i l IH]; intros f r H E L; (destruct f as [|f]; [cbn in L; lia|]).
  - cbn [flat_map app read_items]. rewrite E. reflexivity.
  - cbn [flat_map]. rewrite <- app_assoc. cbn [read_items]. destruct (H i (or_introl eq_refl)) as [H1 H2]. rewrite (proj2 (item_head i _ H1 H2)).
    assert (H' : forall x, In x l -> item_wf x /\ drawn x) by (intros x X; apply H; right; exact X).
    rewrite item_read; [|exact H1|exact H2|apply items_follow; assumption]. rewrite IH; [reflexivity|exact H'|exact E|cbn [length] in L; lia].
Qed.
Lemma one_of_read l s r : In s l -> (forall x, In x l -> is_name x) -> one_of l (W s :: r) = Some (s, r).
Proof.
  intros I N. unfold one_of. rewrite word_name by (apply N; exact I). assert (E : existsb (String.eqb s) l = true) by (apply existsb_exists; exists s; split; [exact I|apply String.eqb_refl]). rewrite E. reflexivity.
Qed.
Ltac names := intros x X; cbn in X; repeat (destruct X as [<-|X]; [apply sign_name; reflexivity|]); contradiction.
Lemma shapes_names : forall x, In x shapes -> is_name x. Proof. names. Qed.
Lemma sources_names : forall x, In x sources -> is_name x. Proof. names. Qed.
Lemma patterns_names : forall x, In x patterns -> is_name x. Proof. names. Qed.
Lemma uses_names : forall x, In x uses -> is_name x. Proof. names. Qed.
Lemma sopts_read l : forall f r, (forall o, In o l -> sopt_wf o) -> eat "+" r = None -> (length l < f)%nat -> read_sopts f (flat_map print_sopt l ++ r) = Some (l, r).
Proof.
  induction l as [|o l IH]; intros f r H E L; (destruct f as [|f]; [cbn in L; lia|]).
  - cbn [flat_map app read_sopts]. rewrite E. reflexivity.
  - pose proof (H o (or_introl eq_refl)) as Ho. cbn [flat_map length] in *. rewrite <- app_assoc. destruct o as [s|z]; cbn [print_sopt app read_sopts]; rewrite eat_same.
    + rewrite eat_same, one_of_read; [|exact Ho|exact shapes_names]. rewrite IH; [reflexivity| |exact E|lia]. intros x X. apply H. right. exact X.
    + rewrite eat_other by discriminate. rewrite eat_same. cbn [num]. rewrite IH; [reflexivity| |exact E|lia]. intros x X. apply H. right. exact X.
Qed.
Lemma print_item_len i : drawn i -> (1 <= length (print_item i))%nat.
Proof. destruct i as [m n o a|m p|m a b c d|x y]; cbn [drawn print_item]; intros H; try contradiction; rewrite !app_length; cbn [length]; [lia|]. destruct p; cbn [print_ppt length]; lia. Qed.
Lemma items_len l : (forall i, In i l -> drawn i) -> (length l <= length (flat_map print_item l))%nat.
Proof. induction l as [|i l IH]; intros H; cbn [flat_map length]; [lia|]. rewrite app_length. pose proof (print_item_len i (H i (or_introl eq_refl))). assert (length l <= length (flat_map print_item l))%nat by (apply IH; intros; apply H; right; assumption). lia. Qed.
Lemma sopts_len l : (length l <= length (flat_map print_sopt l))%nat.
Proof. induction l as [|o l IH]; cbn [flat_map length]; [lia|]. rewrite app_length. assert (1 <= length (print_sopt o))%nat by (destruct o; cbn; lia). lia. Qed.
Lemma path_read p r : path_wf p -> (forall i, In i (p_items p) -> drawn i) -> ends r -> read_path (print_path p ++ r) = Some (p, r).
Proof.
  intros (H1 & H2 & H3) D E. destruct p as [ly w os fp is]. cbn [p_layer p_width p_opts p_first p_items] in *. unfold read_path, print_path. cbn [p_layer p_width p_opts p_first p_items]. repeat rewrite <- app_assoc. cbn [app]. rewrite word_name by exact H1. cbn [num].
  rewrite sopts_read; [|exact H2|destruct fp; reflexivity|]. 2: { rewrite app_length. pose proof (sopts_len os). lia. }
  rewrite ppt_read. rewrite items_read; [reflexivity| |exact E|]. { intros i I. split; [apply H3|apply D]; exact I. }
  rewrite app_length. pose proof (items_len is D). lia.
Qed.
Lemma more_read l : forall f r, (forall p, In p l -> path_wf p /\ forall i, In i (p_items p) -> drawn i) -> ends r -> eat "NEW" r = None -> (length l < f)%nat -> read_more f (flat_map (fun p => W "NEW" :: print_path p) l ++ r) = Some (l, r).
Proof.
  induction l as [|p l IH]; intros f r H E N L; (destruct f as [|f]; [cbn in L; lia|]).
  - cbn [flat_map app read_more]. rewrite N. reflexivity.
  - cbn [flat_map]. rewrite <- app_assoc. cbn [app read_more]. rewrite eat_same. destruct (H p (or_introl eq_refl)) as [H1 H2]. rewrite path_read; [|exact H1|exact H2|destruct l; [exact E|reflexivity]]. rewrite IH; [reflexivity| |exact E|exact N|cbn [length] in L; lia]. intros x X. apply H. right. exact X.
Qed.
Lemma more_len l : (length l <= length (flat_map (fun p => W "NEW" :: print_path p) l))%nat.
Proof. induction l as [|p l IH]; cbn [flat_map length app]; [lia|]. rewrite app_length. lia. Qed.
Lemma paths_read l r : l <> [] -> (forall p, In p l -> path_wf p /\ forall i, In i (p_items p) -> drawn i) -> ends r -> eat "NEW" r = None -> read_paths (print_paths l ++ r) = Some (l, r).
Proof.
  intros NE H E N. destruct l as [|p l]; [contradiction|]. cbn [print_paths]. rewrite <- app_assoc. unfold read_paths. destruct (H p (or_introl eq_refl)) as [H1 H2]. rewrite path_read; [|exact H1|exact H2|destruct l; [exact E|reflexivity]].
  rewrite more_read; [reflexivity| |exact E|exact N|rewrite app_length; pose proof (more_len l); lia]. intros x X. apply H. right. exact X.
Qed.
(* a plus sign or a semicolon *)
Definition stop2 (ts : list tok) : Prop := exists s r, ts = W s :: r /\ (s = "+" \/ s = ";").
Lemma stop2_ends ts : stop2 ts -> ends ts /\ eat "NEW" ts = None.
Proof. intros (s & r & -> & [-> | ->]); split; reflexivity. Qed.
Lemma wire_read st l n m r : l <> [] -> (forall p, In p l -> path_wf p /\ forall i, In i (p_items p) -> drawn i) -> stop2 r -> read_wire st m n (print_paths l ++ r) = Some (add_wire (mkWire st l) n, m, r).
Proof.
  intros NE H S. destruct (stop2_ends r S) as [E N]. destruct l as [|p l]; [contradiction|]. pose proof (paths_read (p :: l) r NE H E N) as P.
  pose proof (H p (or_introl eq_refl)) as [(H1 & _) _].
  assert (Z : exists q, print_paths (p :: l) ++ r = W (p_layer p) :: q) by (eexists; reflexivity). destruct Z as (q & Z). rewrite Z in P |- *. cbn [read_wire].
  destruct (String.eqb_spec (p_layer p) "+") as [X|_]; [elim H1; rewrite X; cbn; tauto|]. destruct (String.eqb_spec (p_layer p) ";") as [X|_]; [elim H1; rewrite X; cbn; tauto|]. cbn [orb]. rewrite P. reflexivity.
Qed.
