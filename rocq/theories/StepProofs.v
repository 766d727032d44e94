(* The walk along an outline finds the rows of short edges. *)
From Verif Require Import Base Stl GeomModel GcModel GcSpec GcProofs GcProofs2 GcProofs3 CutModel CutProofs2 EolModel EolSpec EolProofs
  EolProofs3 StepModel StepSpec.

Lemma add_grows ms m : grows (fun x => x = m) ms (add_marker ms m).
Proof. eapply grows_ext; [|apply (add_opt_grows ms (Some m))]. intros x. cbv beta. split; [intros [= ->]; reflexivity|intros ->; reflexivity]. Qed.

(* ---- rows in a list ---- *)
Section Rows.
Context {A : Type} (Sh : A -> Prop).
Lemma row_eq : forall acc run (x e : A) rest Y, Forall Sh acc -> Forall Sh run -> ~ Sh x -> ~ Sh e ->
  acc ++ x :: rest = run ++ e :: Y -> acc = run /\ x = e /\ rest = Y.
Proof.
  induction acc as [|a acc IH]; intros run x e rest Y Ha Hr Hx He E; destruct run as [|r run]; cbn in E.
  - injection E as -> ->. auto.
  - injection E as -> _. inversion Hr; contradiction.
  - injection E as -> _. inversion Ha; contradiction.
  - injection E as -> E. inversion Ha; inversion Hr; subst. destruct (IH run x e rest Y) as (-> & -> & ->); auto.
Qed.
Lemma row_skip : forall acc X (x b : A) rest Z, Forall Sh acc -> ~ Sh b -> acc ++ x :: rest = X ++ b :: Z ->
  exists X', X = acc ++ X' /\ x :: rest = X' ++ b :: Z.
Proof.
  induction acc as [|a acc IH]; intros X x b rest Z Ha Hb E; cbn in E.
  - exists X. auto.
  - destruct X as [|y X]; cbn in E; injection E as -> E.
    + inversion Ha; contradiction.
    + inversion Ha; subst. destruct (IH X x b rest Z) as (X' & -> & E'); auto. exists X'. auto.
Qed.
Lemma row_split acc (be x : A) rest X b run e Y : Forall Sh acc -> ~ Sh x -> ~ Sh b -> ~ Sh e -> Forall Sh run ->
  be :: acc ++ x :: rest = X ++ b :: run ++ e :: Y ->
  (X = [] /\ b = be /\ run = acc /\ e = x /\ Y = rest) \/
  (exists X', X = be :: acc ++ X' /\ x :: rest = X' ++ b :: run ++ e :: Y).
Proof.
  intros Ha Hx Hb He Hr E. destruct X as [|y X]; cbn in E; injection E as E1 E2.
  - left. destruct (row_eq acc run x e rest Y) as (-> & -> & ->); auto.
  - right. destruct (row_skip acc X x b rest (run ++ e :: Y)) as (X' & -> & E'); auto. exists X'. subst. auto.
Qed.
Lemma row_none acc (be : A) X b run e Y : Forall Sh acc -> ~ Sh b -> ~ Sh e -> be :: acc = X ++ b :: run ++ e :: Y -> False.
Proof.
  intros Ha Hb He E. rewrite Forall_forall in Ha. apply He, Ha. destruct X; cbn in E; injection E as _ ->; apply in_or_app; right; [left; reflexivity|].
  right. apply in_or_app. right. left. reflexivity.
Qed.
End Rows.

(* ---- the loop ---- *)
Definition sh (con : mstep) (ke : nat * oedge) : Prop := seg_length (snd ke) < ms_len con.
Definition routedb (l : list (nat * oedge)) : bool := existsb (fun ke => negb (o_fixed (snd ke))) l.
Definition too_many (con : mstep) (k : Z) : Prop :=
  ms_type con = None /\ (ms_maxedges con = -1 \/ ms_maxedges con < k).
Definition row_box (b : nat * oedge) (run : list (nat * oedge)) : box :=
  fold_left box_add (map (fun ke => o_high (snd ke)) run) (pt_box (o_high (snd b))).
Definition row_found (V : senv) (P : spoly) (con : mstep) (T : list (nat * oedge)) (m : marker) : Prop :=
  exists X b run e Y, T = X ++ b :: run ++ e :: Y /\ ~ sh con b /\ ~ sh con e /\ Forall (sh con) run /\ fst b <> fst e /\
    run <> [] /\ routedb (b :: run ++ [e]) = true /\ too_many con (Z.of_nat (length run)) /\
    m = shape_marker V P (ms_id con) (row_box b run).

Lemma step_report_grows V P con bb len ms (run : list (nat * oedge)) hr :
  grows (fun m => run <> [] /\ hr = true /\ too_many con (Z.of_nat (length run)) /\ m = shape_marker V P (ms_id con) bb)
    ms (step_report V P con bb false false false (Z.of_nat (length run)) len hr ms).
Proof.
  unfold step_report. destruct (Z.eqb_spec (Z.of_nat (length run)) 0) as [Z0|Z0].
  { apply grows_none. intros m (N & _). apply N. destruct run; [reflexivity|cbn in Z0; lia]. }
  destruct hr; cbn [negb]; [|apply grows_none; intros m (_ & H & _); discriminate].
  unfold too_many. destruct (ms_type con) as [t|].
  { replace (negb match t with MInside => false | MOutside => false | MStep => false end) with true by (destruct t; reflexivity).
    cbn [orb]. apply grows_none. intros m (_ & _ & (H & _) & _). discriminate. }
  destruct (Z.eqb_spec (ms_maxedges con) (-1)) as [M|M]; cbn [negb andb].
  { eapply grows_ext; [|apply add_grows]. intros m. cbv beta. split; [intros ->|tauto]. split; [intros ->; cbn in Z0; lia|auto]. }
  destruct (Z.leb_spec (Z.of_nat (length run)) (ms_maxedges con)) as [L|L].
  { apply grows_none. intros m (_ & _ & (_ & [H|H]) & _); lia. }
  eapply grows_ext; [|apply add_grows]. intros m. cbv beta. split; [intros ->|tauto]. split; [intros ->; cbn in Z0; lia|auto].
Qed.

Lemma routedb_app a b : routedb (a ++ b) = routedb a || routedb b.
Proof. apply existsb_app. Qed.
Lemma row_box_app b run x : row_box b (run ++ [x]) = box_add (row_box b run) (o_high (snd x)).
Proof. unfold row_box. rewrite map_app, fold_left_app. reflexivity. Qed.

Lemma step_loop_grows V P con first : forall rest acc kb eb edges len hr bb ms,
  Forall (sh con) acc -> ~ sh con (kb, eb) -> edges = Z.of_nat (length acc) -> hr = routedb ((kb, eb) :: acc) ->
  bb = row_box (kb, eb) acc -> NoDup (map fst rest) ->
  (forall A x B, rest = A ++ x :: B -> fst x = first -> B = []) -> (In kb (map fst rest) -> kb = first) ->
  grows (row_found V P con ((kb, eb) :: acc ++ rest)) ms (step_loop V P con first kb rest edges len hr bb ms).
Proof.
  induction rest as [|[k e] rest IH]; intros acc kb eb edges len hr bb ms Ha Hb -> -> -> ND HF HB; cbn [step_loop].
  { apply grows_none. intros m (X & b & run & e & Y & E & Lb & Le & _). rewrite app_nil_r in E. exact (row_none (sh con) acc (kb, eb) X b run e Y Ha Lb Le E). }
  assert (ND' : NoDup (map fst rest) /\ ~ In k (map fst rest)) by (inversion ND; auto).
  assert (HF' : forall A x B, rest = A ++ x :: B -> fst x = first -> B = []).
  { intros A x B -> F. apply (HF ((k, e) :: A) x B); [reflexivity|exact F]. }
  destruct (Z.ltb_spec (seg_length e) (ms_len con)) as [S|S].
  { replace (acc ++ (k, e) :: rest) with ((acc ++ [(k, e)]) ++ rest) by (rewrite <- app_assoc; reflexivity). apply IH.
    - apply Forall_app. split; [exact Ha|]. constructor; [exact S|constructor].
    - exact Hb.
    - rewrite app_length. cbn. lia.
    - change ((kb, eb) :: acc ++ [(k, e)]) with (((kb, eb) :: acc) ++ [(k, e)]). rewrite routedb_app.
      replace (routedb [(k, e)]) with (negb (o_fixed e)) by (cbn; rewrite Bool.orb_false_r; reflexivity). reflexivity.
    - rewrite row_box_app. reflexivity.
    - tauto.
    - exact HF'.
    - intros I. apply HB. right. exact I. }
  assert (Ls : ~ sh con (k, e)) by (unfold sh; cbn; lia).
  destruct (Nat.eqb_spec k kb) as [Ek|Ek].
  { subst kb. assert (k = first) by (apply HB; left; reflexivity). assert (rest = []) by (apply (HF [] (k, e) rest); [reflexivity|assumption]).
    subst rest. apply grows_none. intros m (X & b & run & e' & Y & E & Lb & Le & Sr & D & _).
    destruct (row_split (sh con) acc (k, eb) (k, e) [] X b run e' Y) as [(_ & -> & _ & -> & _)|(X' & _ & E')]; auto.
    destruct X' as [|? [|? ?]]; cbn in E'; try discriminate E'. injection E' as _ E'. destruct run; discriminate E'. }
  assert (R : forall ms0, grows (row_found V P con ((k, e) :: rest)) (step_report V P con (row_box (kb, eb) acc) false false false
              (Z.of_nat (length acc)) len (routedb ((kb, eb) :: acc) || negb (o_fixed e)) ms) ms0 ->
            grows (row_found V P con ((kb, eb) :: acc ++ (k, e) :: rest)) ms ms0).
  { intros ms0 G. eapply grows_ext; [|eapply grows_trans; [apply step_report_grows|exact G]]. intros m. cbv beta. split.
    - intros [(N & Rt & Tm & ->)|(X & b & run & e' & Y & E & H)].
      + exists [], (kb, eb), acc, (k, e), rest. split; [reflexivity|]. split; [exact Hb|]. split; [exact Ls|]. split; [exact Ha|].
        split; [cbn; congruence|]. split; [exact N|]. split; [|auto].
        change ((kb, eb) :: acc ++ [(k, e)]) with (((kb, eb) :: acc) ++ [(k, e)]). rewrite routedb_app.
        replace (routedb [(k, e)]) with (negb (o_fixed e)) by (cbn; rewrite Bool.orb_false_r; reflexivity). auto.
      + exists ((kb, eb) :: acc ++ X), b, run, e', Y. split; [|exact H]. rewrite E. cbn. rewrite <- app_assoc. reflexivity.
    - intros (X & b & run & e' & Y & E & Lb & Le & Sr & D & N & Rt & Tm & M).
      destruct (row_split (sh con) acc (kb, eb) (k, e) rest X b run e' Y) as [(_ & -> & -> & -> & ->)|(X' & -> & E')]; auto.
      + left. split; [exact N|]. split; [|auto]. change ((kb, eb) :: acc ++ [(k, e)]) with (((kb, eb) :: acc) ++ [(k, e)]) in Rt.
        rewrite routedb_app in Rt. replace (routedb [(k, e)]) with (negb (o_fixed e)) in Rt by (cbn; rewrite Bool.orb_false_r; reflexivity). exact Rt.
      + right. exists X', b, run, e', Y. split; [exact E'|]. auto 10. }
  apply R. destruct (Nat.eqb_spec k first) as [Kf|Kf].
  - assert (rest = []) by (apply (HF [] (k, e) rest); [reflexivity|exact Kf]). subst rest.
    apply grows_none. intros m (X & b & run & e' & Y & E & _).
    destruct X as [|? [|? ?]]; cbn in E; try discriminate E. injection E as _ E. destruct run; discriminate E.
  - apply (IH [] k e); auto; try tauto. { cbn. rewrite Bool.orb_false_r. reflexivity. } 
Qed.
