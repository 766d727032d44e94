From Coq Require Import String.
From Verif Require Import Base DwModel DwSpec DwProofs SnModel SnProofs DpProofs DvModel DvSpec.
Local Open Scope string_scope.
Local Open Scope Z_scope.
Local Open Scope list_scope.

(* --- counted sections --- *)
Section Counted.
Context {A : Type} (key : string) (pr : A -> list tok) (rd : list tok -> option (A * list tok)).
Hypothesis dash : forall x, exists r, pr x = W "-" :: r.
Definition reads_back (x : A) : Prop := forall rest, rd (pr x ++ rest) = Some (x, rest).
Definition unreadable (x : A) : Prop := forall rest, rd (pr x ++ rest) = None.
Lemma counted_app l : forall n m, (l = [] \/ Z.of_nat (length l) < n) -> print_counted key pr n (l ++ m) = flat_map pr l ++ print_counted key pr (n - Z.of_nat (length l)) m.
Proof.
  induction l as [|x l IH]; intros n m H; cbn [app flat_map length print_counted]; [rewrite Z.sub_0_r; reflexivity|].
  destruct H as [H|H]; [discriminate|]. cbn [length] in H. destruct (Z.leb_spec (n - 1) 0); [lia|]. cbn [app]. rewrite IH by (right; lia). rewrite <- app_assoc. do 3 f_equal. lia.
Qed.
Lemma counted_step l : forall f r, (forall x, In x l -> reads_back x) ->
  read_counted key rd (length l + f) (flat_map pr l ++ r) = match read_counted key rd f r with Some (l', r') => Some (l ++ l', r') | None => None end.
Proof.
  induction l as [|x l IH]; intros f r H; cbn [length Nat.add flat_map app]. { destruct (read_counted key rd f r) as [[? ?]|]; reflexivity. }
  rewrite <- app_assoc. cbn [read_counted]. assert (E : exists y, eat "-" (pr x ++ flat_map pr l ++ r) = Some y) by (destruct (dash x) as (y & ->); eexists; reflexivity). destruct E as (y & ->).
  rewrite (H x (or_introl eq_refl)). rewrite IH by (intros; apply H; right; assumption). destruct (read_counted key rd f r) as [[? ?]|]; reflexivity.
Qed.
Lemma flat_len l : (length l <= length (flat_map pr l))%nat.
Proof. induction l as [|x l IH]; cbn [flat_map length]; [lia|]. rewrite app_length. destruct (dash x) as (r & ->). cbn [length]. lia. Qed.
Lemma sec_step n l m rest : (forall x, In x l -> reads_back x) -> (l = [] \/ Z.of_nat (length l) < n) -> exists f,
  read_sec key rd (print_sec key pr n (l ++ m) ++ rest) = match read_counted key rd (S f) (print_counted key pr (n - Z.of_nat (length l)) m ++ rest) with Some (l', r') => Some (n, l ++ l', r') | None => None end
  /\ (length (print_counted key pr (n - Z.of_nat (length l)) m ++ rest) <= f)%nat.
Proof.
  intros H N. unfold read_sec, print_sec. rewrite counted_app by exact N. repeat rewrite <- app_assoc. cbn [app]. rewrite eat_same. cbn [num]. rewrite eat_same.
  match goal with |- context[flat_map pr l ++ ?x] => set (tl := x) end. set (ts := flat_map pr l ++ tl).
  exists (length (flat_map pr l) - length l + length tl)%nat. split; [|lia].
  assert (L : S (length ts) = (length l + S (length (flat_map pr l) - length l + length tl))%nat). { subst ts. rewrite app_length. pose proof (flat_len l). lia. }
  rewrite L. subst ts. rewrite counted_step by exact H. destruct (read_counted _ _ _ tl) as [[? ?]|]; reflexivity.
Qed.
(* the end comes behind the n-th (at least the first) object *)
Lemma sec_ends n l x m rest : (forall y, In y l -> reads_back y) -> reads_back x -> Z.of_nat (length l) + 1 = Z.max 1 n ->
  read_sec key rd (print_sec key pr n (l ++ x :: m) ++ rest) = Some (n, l ++ [x], print_counted key pr (n - Z.of_nat (length l) - 1) m ++ rest).
Proof.
  intros H X N. assert (C : l = [] \/ Z.of_nat (length l) < n) by (destruct l; [left; reflexivity|right; cbn [length] in *; lia]). destruct (sec_step n l (x :: m) rest H C) as (f & -> & F).
  cbn [print_counted] in *. destruct (Z.leb_spec (n - Z.of_nat (length l) - 1) 0); [|lia]. repeat rewrite <- app_assoc in *. cbn [app] in *.
  cbn [read_counted]. destruct (dash x) as (r & Er). assert (E : exists y, eat "-" (pr x ++ W "END" :: W key :: print_counted key pr (n - Z.of_nat (length l) - 1) m ++ rest) = Some y) by (rewrite Er; eexists; reflexivity). destruct E as (y & ->).
  rewrite X. rewrite app_length in F. cbn [length] in F. destruct f as [|f]; [lia|]. cbn [read_counted]. rewrite eat_other by discriminate. do 2 rewrite eat_same. reflexivity.
Qed.
Lemma sec_open n l rest : (forall y, In y l -> reads_back y) -> (l = [] \/ Z.of_nat (length l) < n) -> eat "-" rest = None -> eat "END" rest = None -> read_sec key rd (print_sec key pr n l ++ rest) = None.
Proof.
  intros H N E1 E2. replace l with (l ++ []) by apply app_nil_r. destruct (sec_step n l [] rest H N) as (f & -> & _). cbn [print_counted app read_counted]. rewrite E1, E2. reflexivity.
Qed.
Lemma sec_broken n l x m rest : (forall y, In y l -> reads_back y) -> unreadable x -> (l = [] \/ Z.of_nat (length l) < n) -> read_sec key rd (print_sec key pr n (l ++ x :: m) ++ rest) = None.
Proof.
  intros H X N. destruct (sec_step n l (x :: m) rest H N) as (f & -> & _). cbn [print_counted]. repeat rewrite <- app_assoc. cbn [read_counted].
  match goal with |- context[eat "-" ?z] => assert (E : exists y, eat "-" z = Some y) by (destruct (dash x) as (r & ->); eexists; reflexivity) end. destruct E as (y & ->). rewrite X. reflexivity.
Qed.
Lemma sec_kept n l rest : (forall y, In y l -> reads_back y) -> eat "-" rest = None -> eat "END" rest = None ->
  (read_sec key rd (print_sec key pr n l ++ rest) = Some (n, l, rest) <-> Z.of_nat (length l) = Z.max 1 n).
Proof.
  intros H E1 E2. split.
  - intros R. destruct (Z.lt_trichotomy (Z.max 1 n) (Z.of_nat (length l))) as [L|[L|L]]; [|congruence|].
    + exfalso. pose proof (firstn_skipn (Z.to_nat (Z.max 1 n - 1)) l) as Sp. assert (Fl : length (firstn (Z.to_nat (Z.max 1 n - 1)) l) = Z.to_nat (Z.max 1 n - 1)) by (rewrite firstn_length; lia).
      destruct (skipn _ l) as [|x m] eqn:Sk. { rewrite app_nil_r in Sp. rewrite Sp in Fl. lia. }
      rewrite <- Sp in R. rewrite sec_ends in R; [| | |rewrite Fl; lia].
      * injection R as R _. apply (f_equal (@length A)) in R. rewrite !app_length in R. cbn [length] in R. assert (length l = length (firstn (Z.to_nat (Z.max 1 n - 1)) l ++ x :: m)) by (rewrite Sp; reflexivity). rewrite app_length in *. cbn [length] in *. lia.
      * intros y Y. apply H. rewrite <- Sp. apply in_or_app. left. exact Y.
      * apply H. rewrite <- Sp. apply in_or_app. right. left. reflexivity.
    + rewrite sec_open in R; [discriminate|exact H| |exact E1|exact E2]. destruct l as [|y l]; [left; reflexivity|right; cbn [length] in *; lia].
  - intros L. destruct (exists_last (l := l)) as (l' & x & ->). { intros ->. cbn in L. lia. }
    rewrite app_length in L. cbn [length] in L. rewrite sec_ends; [reflexivity| | |lia].
    + intros y Y. apply H. apply in_or_app. left. exact Y.
    + apply H. apply in_or_app. right. left. reflexivity.
Qed.
Lemma sec_small n l rest : (forall y, In y l -> reads_back y) -> 1 <= n < Z.of_nat (length l) -> exists r, read_sec key rd (print_sec key pr n l ++ rest) = Some (n, firstn (Z.to_nat n) l, r).
Proof.
  intros H B. pose proof (firstn_skipn (Z.to_nat (n - 1)) l) as Sp. assert (Fl : length (firstn (Z.to_nat (n - 1)) l) = Z.to_nat (n - 1)) by (rewrite firstn_length; lia).
  destruct (skipn _ l) as [|x m] eqn:Sk. { rewrite app_nil_r in Sp. rewrite Sp in Fl. lia. }
  assert (F : firstn (Z.to_nat n) l = firstn (Z.to_nat (n - 1)) l ++ [x]). { rewrite <- Sp at 1. rewrite firstn_app, Fl. rewrite firstn_all2 by lia. replace (Z.to_nat n - Z.to_nat (n - 1))%nat with 1%nat by lia. reflexivity. }
  rewrite F. eexists. transitivity (read_sec key rd (print_sec key pr n (firstn (Z.to_nat (n - 1)) l ++ x :: m) ++ rest)); [rewrite Sp; reflexivity|]. apply sec_ends; [| |rewrite Fl; lia].
  - intros y Y. apply H. rewrite <- Sp. apply in_or_app. left. exact Y.
  - apply H. rewrite <- Sp. apply in_or_app. right. left. reflexivity.
Qed.
End Counted.

(* --- vias --- *)
Lemma quoted_name s : is_name (quoted s).
Proof. unfold is_name, quoted. cbn [append]. intros H. cbn [In] in H. repeat destruct H as [H|H]; try discriminate; contradiction. Qed.
Lemma vmask_read m t r : (forall s, t <> W s \/ s <> "+") -> read_vmask (vmask m ++ t :: r) = Some (m, t :: r).
Proof.
  intros H. unfold read_vmask, vmask. destruct (Z.eqb_spec m 0) as [->|E]; cbn [app].
  - assert (X : eat "+" (t :: r) = None). { destruct t as [s|z]; [|reflexivity]. apply eat_other. intros X. destruct (H s) as [N|N]; [apply N; reflexivity|apply N; symmetry; exact X]. } rewrite X. reflexivity.
  - do 2 rewrite eat_same. reflexivity.
Qed.
Section Via.
Variable Q : via -> list tok -> Prop.
Hypothesis Q_step : forall v v' b rest, read_viaopt v (b ++ rest) = Some (v', rest) -> Q v' rest -> Q v (W "+" :: b ++ rest).
Lemma q_rects ls : forall n rs ps ru rc og of c rest, (forall s m b, In (s, m, b) ls -> is_name s) ->
  Q (mkVia n (rs ++ ls) ps ru rc og of c) rest -> Q (mkVia n rs ps ru rc og of c) (flat_map print_vrect ls ++ rest).
Proof.
  induction ls as [|[[s m] [[[x1 y1] x2] y2]] ls IH]; intros n rs ps ru rc og of c rest H R. { rewrite app_nil_r in R. exact R. }
  cbn [flat_map]. rewrite <- app_assoc. unfold print_vrect at 1. rewrite <- app_assoc. change (Q (mkVia n rs ps ru rc og of c) (W "+" :: ([W "RECT"; W s] ++ (vmask m ++ [W "("; Nu x1; Nu y1; W ")"; W "("; Nu x2; Nu y2; W ")"])) ++ flat_map print_vrect ls ++ rest)).
  apply Q_step with (v' := mkVia n (rs ++ [(s, m, (x1, y1, x2, y2))]) ps ru rc og of c).
  - repeat rewrite <- app_assoc. cbn [app]. unfold read_viaopt. rewrite eat_same. rewrite word_name by (apply (H s m (x1, y1, x2, y2)); left; reflexivity). rewrite vmask_read; [|intros z; destruct (string_dec z "("); [right; subst; discriminate|left; congruence]].
    change (pt (W "(" :: Nu x1 :: Nu y1 :: W ")" :: ?r)) with (Some (x1, y1, r)). cbv iota beta. change (pt (W "(" :: Nu x2 :: Nu y2 :: W ")" :: ?r)) with (Some (x2, y2, r)). cbv iota beta. reflexivity.
  - apply IH. { intros. eapply H. right. eassumption. } rewrite <- app_assoc. exact R.
Qed.
Lemma q_rule r n rs ps ru rc og of c rest : is_name (vr_name r) -> is_name (vr_bot r) -> is_name (vr_cut r) -> is_name (vr_top r) ->
  Q (mkVia n rs ps (Some r) rc og of c) rest -> Q (mkVia n rs ps ru rc og of c) (print_vrule r ++ rest).
Proof.
  intros N1 N2 N3 N4 R. destruct r as [nm [a b] bl cl tl [cc d] [[[e f] g] h]]. cbn [vr_name vr_bot vr_cut vr_top] in *. unfold print_vrule. cbn [vr_name vr_size vr_bot vr_cut vr_top vr_spc vr_enc fst snd].
  match goal with |- Q _ ((W "+" :: ?x) ++ rest) => change (Q (mkVia n rs ps ru rc og of c) (W "+" :: x ++ rest)) end. eapply Q_step; [|exact R]. cbn [app]. unfold read_viaopt. do 2 rewrite eat_other by discriminate. rewrite eat_same. unfold read_vrule.
  rewrite word_name by exact N1. do 2 rewrite eat_same. cbn [num2 num]. do 2 rewrite eat_same. rewrite (word_name bl) by exact N2. rewrite (word_name cl) by exact N3. rewrite (word_name tl) by exact N4. do 2 rewrite eat_same. cbn [num2 num]. do 2 rewrite eat_same. reflexivity.
Qed.
Lemma q_rowcol p n rs ps r og of c rest : Q (mkVia n rs ps (Some r) p og of c) rest -> Q (mkVia n rs ps (Some r) (0, 0) og of c) (print_two "ROWCOL" p ++ rest).
Proof.
  destruct p as [a b]. unfold print_two. cbn [fst snd]. destruct (Z.eqb_spec a 0) as [->|A]; [destruct (Z.eqb_spec b 0) as [->|B]; [intros R; exact R|]|]; cbn [andb]; intros R;
  [apply (Q_step _ (mkVia n rs ps (Some r) (0, b) og of c) [W "ROWCOL"; Nu 0; Nu b])|apply (Q_step _ (mkVia n rs ps (Some r) (a, b) og of c) [W "ROWCOL"; Nu a; Nu b])]; try exact R; reflexivity.
Qed.
Lemma q_origin p n rs ps r rc of c rest : Q (mkVia n rs ps (Some r) rc p of c) rest -> Q (mkVia n rs ps (Some r) rc (0, 0) of c) (print_two "ORIGIN" p ++ rest).
Proof.
  destruct p as [a b]. unfold print_two. cbn [fst snd]. destruct (Z.eqb_spec a 0) as [->|A]; [destruct (Z.eqb_spec b 0) as [->|B]; [intros R; exact R|]|]; cbn [andb]; intros R;
  [apply (Q_step _ (mkVia n rs ps (Some r) rc (0, b) of c) [W "ORIGIN"; Nu 0; Nu b])|apply (Q_step _ (mkVia n rs ps (Some r) rc (a, b) of c) [W "ORIGIN"; Nu a; Nu b])]; try exact R; reflexivity.
Qed.
Lemma q_offset p n rs ps r rc og c rest : Q (mkVia n rs ps (Some r) rc og p c) rest -> Q (mkVia n rs ps (Some r) rc og (0, 0, 0, 0) c) (print_four "OFFSET" p ++ rest).
Proof.
  destruct p as [[[a b] d] e]. unfold print_four. destruct ((a =? 0) && (b =? 0) && (d =? 0) && (e =? 0)) eqn:E; intros R.
  - rewrite !andb_true_iff, !Z.eqb_eq in E. destruct E as (((-> & ->) & ->) & ->). exact R.
  - apply (Q_step _ (mkVia n rs ps (Some r) rc og (a, b, d, e) c) [W "OFFSET"; Nu a; Nu b; Nu d; Nu e]); [reflexivity|exact R].
Qed.
Lemma q_cut o n rs ps r rc og of rest : Q (mkVia n rs ps (Some r) rc og of (option_map quoted o)) rest -> Q (mkVia n rs ps (Some r) rc og of None) (opt (fun s => [W "+"; W "PATTERN"; W (quoted s)]) o ++ rest).
Proof.
  destruct o as [s|]; cbn [option_map opt]; intros R; [|exact R]. apply (Q_step _ (mkVia n rs ps (Some r) rc og of (Some (quoted s))) [W "PATTERN"; W (quoted s)]); [|exact R].
  cbn [app]. unfold read_viaopt. do 3 rewrite eat_other by discriminate. cbn [v_rule]. do 3 rewrite eat_other by discriminate. rewrite eat_same. rewrite word_name by apply quoted_name. reflexivity.
Qed.
Lemma q_rest v n rs ps rest : match v_rule v with
    | None => v_rowcol v = (0, 0) /\ v_origin v = (0, 0) /\ v_offset v = (0, 0, 0, 0) /\ v_cut v = None
    | Some r => is_name (vr_name r) /\ is_name (vr_bot r) /\ is_name (vr_cut r) /\ is_name (vr_top r)
    end -> Q (mkVia n rs ps (v_rule v) (v_rowcol v) (v_origin v) (v_offset v) (option_map quoted (v_cut v))) rest ->
  Q (mkVia n rs ps None (0, 0) (0, 0) (0, 0, 0, 0) None)
    (match v_rule v with None => [] | Some r => print_vrule r ++ print_two "ROWCOL" (v_rowcol v) ++ print_two "ORIGIN" (v_origin v) ++ print_four "OFFSET" (v_offset v) ++ opt (fun s => [W "+"; W "PATTERN"; W (quoted s)]) (v_cut v) end ++ rest).
Proof.
  intros H R. destruct (v_rule v) as [r|].
  - destruct H as (N1 & N2 & N3 & N4). repeat rewrite <- app_assoc. apply q_rule; try assumption. apply q_rowcol, q_origin, q_offset, q_cut. exact R.
  - destruct H as (E1 & E2 & E3 & E4). rewrite E1, E2, E3, E4 in R. exact R.
Qed.
End Via.
Definition okv (x : via * list tok) (v : via) (ts : list tok) : Prop := forall f, (length ts < f)%nat -> read_viaopts f v ts = Some x.
Lemma okv_step x v v' b rest : read_viaopt v (b ++ rest) = Some (v', rest) -> okv x v' rest -> okv x v (W "+" :: b ++ rest).
Proof. intros E R f L. destruct f as [|f]; [lia|]. cbn [read_viaopts]. rewrite eat_other by discriminate. rewrite eat_same, E. apply R. cbn [length] in L. rewrite app_length in L. lia. Qed.
Definition badv (v : via) (ts : list tok) : Prop := forall f, read_viaopts f v ts = None.
Lemma badv_step v v' b rest : read_viaopt v (b ++ rest) = Some (v', rest) -> badv v' rest -> badv v (W "+" :: b ++ rest).
Proof. intros E R f. destruct f as [|f]; [reflexivity|]. cbn [read_viaopts]. rewrite eat_other by discriminate. rewrite eat_same, E. apply R. Qed.
Lemma via_read v rest : via_wf v -> v_polys v = [] -> read_via (print_via v ++ rest) = Some (with_cut (option_map quoted (v_cut v)) v, rest).
Proof.
  intros (N & R & _ & U) P. unfold print_via. rewrite P. cbn [flat_map]. repeat rewrite <- app_assoc. cbn [app]. unfold read_via. rewrite eat_same. rewrite word_name by exact N. unfold via0.
  match goal with |- read_viaopts (S (length ?t)) _ ?t = Some ?x => cut (okv x (mkVia (v_name v) [] [] None (0, 0) (0, 0) (0, 0, 0, 0) None) t); [intros K; apply K; lia|] end.
  apply (q_rects _ (okv_step _)); [exact R|]. cbn [app]. apply (q_rest _ (okv_step _)); [exact U|]. intros f L. destruct f as [|f]; [lia|]. cbn [read_viaopts app]. rewrite eat_same. unfold with_cut. rewrite P. reflexivity.
Qed.
Lemma via_broken v rest : via_wf v -> v_polys v <> [] -> read_via (print_via v ++ rest) = None.
Proof.
  intros (N & R & P & U) B. unfold print_via. repeat rewrite <- app_assoc. cbn [app]. unfold read_via. rewrite eat_same. rewrite word_name by exact N. unfold via0.
  match goal with |- read_viaopts _ _ ?t = None => cut (badv (mkVia (v_name v) [] [] None (0, 0) (0, 0) (0, 0, 0, 0) None) t); [intros K; apply K|] end.
  apply (q_rects _ badv_step); [exact R|]. destruct (v_polys v) as [|[[s m] l] ps]; [contradiction|]. destruct (P s m l (or_introl eq_refl)) as (Ns & L). destruct l as [|[x y] l]; [cbn in L; lia|]. intros f. destruct f as [|f]; [reflexivity|].
  cbn [flat_map print_vpoly fst snd]. repeat rewrite <- app_assoc. cbn [app]. cbn [read_viaopts]. rewrite eat_other by discriminate. rewrite eat_same. unfold read_viaopt. rewrite eat_other by discriminate. rewrite eat_same. rewrite word_name by exact Ns. rewrite vmask_read; [reflexivity|intros z; left; discriminate].
Qed.

(* --- blockages --- *)
Section Blk.
Variable Q : bool -> bool -> blk -> list tok -> Prop.
Hypothesis Q_step : forall ty sp b ty' sp' b' t rest, (match b_layer b with Some _ => read_lopt | None => read_popt end) ty sp b (t ++ rest) = Some (ty', sp', b', rest) -> Q ty' sp' b' rest -> Q ty sp b (W "+" :: t ++ rest).
Lemma b_layerq s c sl fi pu pg m x d rest : (forall n, c = Some n -> is_name n) -> ~ (sl = true /\ fi = true) -> x = -1 \/ d = -1 ->
  (forall ty sp, Q ty sp (mkBlk (Some s) c sl fi pu pg false m x d (-1) [] []) rest) ->
  Q false false (blk0 (Some s)) (opt (fun c => [W "+"; W "COMPONENT"; W c]) c ++ flag sl "SLOTS" ++ flag fi "FILLS" ++ flag pu "PUSHDOWN" ++ flag pg "EXCEPTPGNET" ++ (if m =? 0 then [] else [W "+"; W "MASK"; Nu m]) ++ given "SPACING" x ++ given "DESIGNRULEWIDTH" d ++ rest).
Proof.
  intros C SF XD R. unfold blk0.
  assert (H8 : forall ty sp, (sp = false \/ d = -1) -> Q ty sp (mkBlk (Some s) c sl fi pu pg false m x (-1) (-1) [] []) (given "DESIGNRULEWIDTH" d ++ rest)).
  { intros ty sp H. unfold given. destruct (Z.eqb_spec d (-1)) as [->|E]; [apply R|]. destruct H as [->|H]; [|contradiction]. apply (Q_step ty false _ ty true (mkBlk (Some s) c sl fi pu pg false m x d (-1) [] []) [W "DESIGNRULEWIDTH"; Nu d]); [reflexivity|apply R]. }
  assert (H7 : forall ty, Q ty false (mkBlk (Some s) c sl fi pu pg false m (-1) (-1) (-1) [] []) (given "SPACING" x ++ given "DESIGNRULEWIDTH" d ++ rest)).
  { intros ty. unfold given at 1. destruct (Z.eqb_spec x (-1)) as [->|E]; [apply H8; left; reflexivity|]. apply (Q_step ty false _ ty true (mkBlk (Some s) c sl fi pu pg false m x (-1) (-1) [] []) [W "SPACING"; Nu x]); [reflexivity|]. apply H8. right. destruct XD; [contradiction|assumption]. }
  assert (H6 : forall ty, Q ty false (mkBlk (Some s) c sl fi pu pg false 0 (-1) (-1) (-1) [] []) ((if m =? 0 then [] else [W "+"; W "MASK"; Nu m]) ++ given "SPACING" x ++ given "DESIGNRULEWIDTH" d ++ rest)).
  { intros ty. destruct (Z.eqb_spec m 0) as [E|E]. - specialize (H7 ty). rewrite E in H7. exact H7. - apply (Q_step ty false _ ty false (mkBlk (Some s) c sl fi pu pg false m (-1) (-1) (-1) [] []) [W "MASK"; Nu m]); [reflexivity|apply H7]. }
  set (t6 := (if m =? 0 then [] else [W "+"; W "MASK"; Nu m]) ++ _) in *.
  assert (H5 : forall ty, Q ty false (mkBlk (Some s) c sl fi pu false false 0 (-1) (-1) (-1) [] []) (flag pg "EXCEPTPGNET" ++ t6)).
  { intros ty. destruct pg; [|apply H6]. apply (Q_step ty false _ ty false (mkBlk (Some s) c sl fi pu true false 0 (-1) (-1) (-1) [] []) [W "EXCEPTPGNET"]); [reflexivity|apply H6]. }
  assert (H4 : forall ty, Q ty false (mkBlk (Some s) c sl fi false false false 0 (-1) (-1) (-1) [] []) (flag pu "PUSHDOWN" ++ flag pg "EXCEPTPGNET" ++ t6)).
  { intros ty. destruct pu; [|apply H5]. apply (Q_step ty false _ ty false (mkBlk (Some s) c sl fi true false false 0 (-1) (-1) (-1) [] []) [W "PUSHDOWN"]); [reflexivity|apply H5]. }
  assert (H3 : forall ty, (ty = false \/ fi = false) -> Q ty false (mkBlk (Some s) c sl false false false false 0 (-1) (-1) (-1) [] []) (flag fi "FILLS" ++ flag pu "PUSHDOWN" ++ flag pg "EXCEPTPGNET" ++ t6)).
  { intros ty H. destruct fi; [|apply H4]. destruct H as [->|H]; [|discriminate]. apply (Q_step false false _ true false (mkBlk (Some s) c sl true false false false 0 (-1) (-1) (-1) [] []) [W "FILLS"]); [reflexivity|apply H4]. }
  assert (H2 : Q false false (mkBlk (Some s) c false false false false false 0 (-1) (-1) (-1) [] []) (flag sl "SLOTS" ++ flag fi "FILLS" ++ flag pu "PUSHDOWN" ++ flag pg "EXCEPTPGNET" ++ t6)).
  { destruct sl; [|apply H3; left; reflexivity]. apply (Q_step false false _ true false (mkBlk (Some s) c true false false false false 0 (-1) (-1) (-1) [] []) [W "SLOTS"]); [reflexivity|]. apply H3. right. destruct fi; [elim SF; auto|reflexivity]. }
  destruct c as [c|]; cbn [opt]; [|exact H2]. apply (Q_step false false _ false false (mkBlk (Some s) (Some c) false false false false false 0 (-1) (-1) (-1) [] []) [W "COMPONENT"; W c]); [|exact H2].
  cbn [b_layer app read_lopt]. rewrite eat_same. rewrite word_name by (apply C; reflexivity). reflexivity.
Qed.
Lemma b_placeq c pu so q rest : (forall n, c = Some n -> is_name n) -> (so = true -> q = -1) ->
  (forall ty sp, Q ty sp (mkBlk None c false false pu false so 0 (-1) (-1) q [] []) rest) ->
  Q false false (blk0 None) (flag so "SOFT" ++ given "PARTIAL" q ++ opt (fun c => [W "+"; W "COMPONENT"; W c]) c ++ flag pu "PUSHDOWN" ++ rest).
Proof.
  intros C SQ R. unfold blk0.
  assert (H4 : forall ty, Q ty false (mkBlk None c false false false false so 0 (-1) (-1) q [] []) (flag pu "PUSHDOWN" ++ rest)).
  { intros ty. destruct pu; [|apply R]. apply (Q_step ty false _ ty false (mkBlk None c false false true false so 0 (-1) (-1) q [] []) [W "PUSHDOWN"]); [reflexivity|apply R]. }
  assert (H3 : forall ty, Q ty false (mkBlk None None false false false false so 0 (-1) (-1) q [] []) (opt (fun c => [W "+"; W "COMPONENT"; W c]) c ++ flag pu "PUSHDOWN" ++ rest)).
  { intros ty. destruct c as [c|]; cbn [opt]; [|apply H4]. apply (Q_step ty false _ ty false (mkBlk None (Some c) false false false false so 0 (-1) (-1) q [] []) [W "COMPONENT"; W c]); [|apply H4]. cbn [b_layer app read_popt]. rewrite eat_same. rewrite word_name by (apply C; reflexivity). reflexivity. }
  assert (H2 : forall ty, (ty = false \/ q = -1) -> Q ty false (mkBlk None None false false false false so 0 (-1) (-1) (-1) [] []) (given "PARTIAL" q ++ opt (fun c => [W "+"; W "COMPONENT"; W c]) c ++ flag pu "PUSHDOWN" ++ rest)).
  { intros ty H. unfold given. destruct (Z.eqb_spec q (-1)) as [E|E]; [specialize (H3 ty); rewrite E in H3; exact H3|]. destruct H as [->|H]; [|contradiction]. apply (Q_step false false _ true false (mkBlk None None false false false false so 0 (-1) (-1) q [] []) [W "PARTIAL"; Nu q]); [reflexivity|apply H3]. }
  destruct so; [|apply H2; left; reflexivity]. apply (Q_step false false _ true false (mkBlk None None false false false false true 0 (-1) (-1) (-1) [] []) [W "SOFT"]); [reflexivity|]. apply H2. right. apply SQ. reflexivity.
Qed.
End Blk.
Definition okb (b : blk) (x : list tok) (ty sp : bool) (b0 : blk) (ts : list tok) : Prop := forall f, (length ts < f)%nat -> read_bopts f ty sp b0 ts = Some (b, x).
Lemma okb_step bx x ty sp b ty' sp' b' t rest : (match b_layer b with Some _ => read_lopt | None => read_popt end) ty sp b (t ++ rest) = Some (ty', sp', b', rest) -> okb bx x ty' sp' b' rest -> okb bx x ty sp b (W "+" :: t ++ rest).
Proof. intros E R f L. destruct f as [|f]; [lia|]. cbn [read_bopts]. rewrite eat_same, E. apply R. cbn [length] in L. rewrite app_length in L. lia. Qed.
Definition opts_of (b : blk) (q : Z) : blk := mkBlk (b_layer b) (b_comp b) (b_slots b) (b_fills b) (b_push b) (b_pg b) (b_soft b) (b_mask b) (b_spc b) (b_drw b) q [] [].
Definition density (n : Z) : Z := if n =? -1 then -1 else g6 n.
Definition blk_head (b : blk) : list tok :=
  match b_layer b with
  | Some s => [W "LAYER"; W s] ++ opt (fun c => [W "+"; W "COMPONENT"; W c]) (b_comp b) ++ flag (b_slots b) "SLOTS" ++ flag (b_fills b) "FILLS" ++ flag (b_push b) "PUSHDOWN" ++ flag (b_pg b) "EXCEPTPGNET" ++
              (if b_mask b =? 0 then [] else [W "+"; W "MASK"; Nu (b_mask b)]) ++ given "SPACING" (b_spc b) ++ given "DESIGNRULEWIDTH" (b_drw b)
  | None => [W "PLACEMENT"] ++ flag (b_soft b) "SOFT" ++ given "PARTIAL" (density (b_part b)) ++ opt (fun c => [W "+"; W "COMPONENT"; W c]) (b_comp b) ++ flag (b_push b) "PUSHDOWN"
  end.
Lemma print_blk_eq b : print_blk b = W "-" :: blk_head b ++ flat_map print_brect (b_rects b) ++ flat_map print_bpoly (b_polys b) ++ [W ";"].
Proof. unfold print_blk, blk_head, density. destruct (b_layer b); reflexivity. Qed.
Lemma head_read b geo : blk_wf b -> eat "+" geo = None ->
  match eat "LAYER" (blk_head b ++ geo) with
  | Some r => let* (s, r) := word r in read_bopts (S (List.length r)) false false (blk0 (Some s)) r
  | None => let* r := eat "PLACEMENT" (blk_head b ++ geo) in read_bopts (S (List.length r)) false false (blk0 None) r
  end = Some (opts_of b (density (b_part b)), geo).
Proof.
  intros (C & _ & _ & K) E. unfold blk_head. destruct (b_layer b) as [s|] eqn:L.
  - destruct K as (N & So & Pa & SF & XD). repeat rewrite <- app_assoc.
    cbn [app]. rewrite eat_same. rewrite word_name by exact N.
    match goal with |- read_bopts (S (length ?t)) _ _ _ ?t = _ => cut (okb (opts_of b (density (b_part b))) geo false false (blk0 (Some s)) t); [intros Q; apply Q; lia|] end.
    apply (b_layerq _ (okb_step _ _)); try assumption. intros ty sp f F. destruct f as [|f]; [lia|]. cbn [read_bopts]. rewrite E. unfold opts_of, density. rewrite L, So, Pa. reflexivity.
  - destruct K as (K1 & K2 & K3 & K4 & K5 & K6 & K7 & K8). repeat rewrite <- app_assoc.
    cbn [app]. rewrite eat_other by discriminate. rewrite eat_same.
    match goal with |- read_bopts (S (length ?t)) _ _ _ ?t = _ => cut (okb (opts_of b (density (b_part b))) geo false false (blk0 None) t); [intros Q; apply Q; lia|] end.
    apply (b_placeq _ (okb_step _ _)); [exact C| |]. { intros X. unfold density. rewrite (K8 X). reflexivity. }
    intros ty sp f F. destruct f as [|f]; [lia|]. cbn [read_bopts]. rewrite E. unfold opts_of. rewrite L, K1, K2, K3, K4, K5, K6. reflexivity.
Qed.
Definition with_rects (b : blk) (l : list box) : blk := match b with mkBlk y c s f p g o m x d q rs ps => mkBlk y c s f p g o m x d q l ps end.
Lemma geoms_read l : forall b f rest, (length l < f)%nat -> read_geoms f b (flat_map print_brect l ++ W ";" :: rest) = Some (with_rects b (b_rects b ++ l), rest).
Proof.
  induction l as [|[[[x1 y1] x2] y2] l IH]; intros b f rest L; (destruct f as [|f]; [cbn in L; lia|]).
  - cbn [flat_map app read_geoms]. rewrite eat_same. destruct b as [y c s ff p g o m x d q rs ps]. cbn [with_rects b_rects]. rewrite app_nil_r. reflexivity.
  - cbn [flat_map print_brect app read_geoms]. rewrite eat_other by discriminate. unfold read_geom. rewrite eat_same. change (pt (W "(" :: Nu x1 :: Nu y1 :: W ")" :: ?r)) with (Some (x1, y1, r)). cbv iota beta. change (pt (W "(" :: Nu x2 :: Nu y2 :: W ")" :: ?r)) with (Some (x2, y2, r)). cbv iota beta.
    rewrite IH by (cbn [length] in L; lia). destruct b as [y c s ff p g o m x d q rs ps]. cbn [with_rects add_rect b_rects]. rewrite <- app_assoc. reflexivity.
Qed.
Lemma rects_len l : (length l <= length (flat_map print_brect l))%nat.
Proof. induction l as [|[[[? ?] ?] ?] l IH]; cbn [flat_map length app print_brect]; lia. Qed.
Definition with_part (n : Z) (b : blk) : blk := match b with mkBlk y c s f p g o m x d q rs ps => mkBlk y c s f p g o m x d n rs ps end.
Lemma blk_read b rest : blk_wf b -> b_polys b = [] -> read_blk (print_blk b ++ rest) = Some (with_part (density (b_part b)) b, rest).
Proof.
  intros Wf P. pose proof (head_read b ((flat_map print_brect (b_rects b) ++ flat_map print_bpoly (b_polys b) ++ [W ";"]) ++ rest) Wf) as H. assert (G0 : eat "+" ((flat_map print_brect (b_rects b) ++ flat_map print_bpoly (b_polys b) ++ [W ";"]) ++ rest) = None).
  { destruct Wf as (_ & [G|G] & _); [|contradiction]. destruct (b_rects b) as [|[[[? ?] ?] ?] ?]; [contradiction|]. reflexivity. }
  specialize (H G0). rewrite print_blk_eq. rewrite <- app_comm_cons, <- app_assoc. unfold read_blk. rewrite eat_same. rewrite H. rewrite P. cbn [flat_map app]. rewrite <- app_assoc. cbn [app].
  destruct Wf as (_ & [G|G] & _); [|contradiction]. destruct b as [y c s f p g o m x d q rs ps]. cbn [b_rects b_polys] in *. destruct rs as [|[[[x1 y1] x2] y2] rs]; [contradiction|].
  cbn [flat_map print_brect app]. unfold read_geom. rewrite eat_same. change (pt (W "(" :: Nu x1 :: Nu y1 :: W ")" :: ?r)) with (Some (x1, y1, r)). cbv iota beta. change (pt (W "(" :: Nu x2 :: Nu y2 :: W ")" :: ?r)) with (Some (x2, y2, r)). cbv iota beta.
  rewrite geoms_read by (rewrite app_length; pose proof (rects_len rs); lia). subst ps. reflexivity.
Qed.
Lemma geoms_broken l : forall b f x y tl, read_geoms f b (flat_map print_brect l ++ W "POLYGON" :: Nu x :: Nu y :: tl) = None.
Proof.
  induction l as [|[[[x1 y1] x2] y2] l IH]; intros b f x y tl; (destruct f as [|f]; [reflexivity|]).
  - reflexivity.
  - cbn [flat_map print_brect app read_geoms]. rewrite eat_other by discriminate. unfold read_geom. rewrite eat_same. change (pt (W "(" :: Nu x1 :: Nu y1 :: W ")" :: ?r)) with (Some (x1, y1, r)). cbv iota beta. change (pt (W "(" :: Nu x2 :: Nu y2 :: W ")" :: ?r)) with (Some (x2, y2, r)). cbv iota beta. apply IH.
Qed.
Lemma blk_broken b rest : blk_wf b -> b_polys b <> [] -> read_blk (print_blk b ++ rest) = None.
Proof.
  intros Wf P. pose proof (head_read b ((flat_map print_brect (b_rects b) ++ flat_map print_bpoly (b_polys b) ++ [W ";"]) ++ rest) Wf) as H. assert (G0 : eat "+" ((flat_map print_brect (b_rects b) ++ flat_map print_bpoly (b_polys b) ++ [W ";"]) ++ rest) = None).
  { destruct (b_rects b) as [|[[[? ?] ?] ?] ?]; [|reflexivity]. destruct (b_polys b); [contradiction|reflexivity]. }
  specialize (H G0). rewrite print_blk_eq. rewrite <- app_comm_cons, <- app_assoc. unfold read_blk. rewrite eat_same. rewrite H.
  destruct Wf as (_ & _ & L & _). destruct (b_polys b) as [|[|[x y] q] ps]; [contradiction|specialize (L [] (or_introl eq_refl)); cbn in L; lia|].
  cbn [flat_map print_bpoly fst snd app]. repeat rewrite <- app_assoc. destruct (b_rects b) as [|[[[x1 y1] x2] y2] rs]; [reflexivity|].
  cbn [flat_map print_brect app]. unfold read_geom. rewrite eat_same. change (pt (W "(" :: Nu x1 :: Nu y1 :: W ")" :: ?r)) with (Some (x1, y1, r)). cbv iota beta. change (pt (W "(" :: Nu x2 :: Nu y2 :: W ")" :: ?r)) with (Some (x2, y2, r)). cbv iota beta. repeat rewrite <- app_comm_cons. apply geoms_broken.
Qed.
