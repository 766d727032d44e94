(* Proofs about the set-up of the checker and about its use in a clip. *)
From Verif Require Import Base GeomModel GeomSpec GeomProofs FmModel FmSpec GiModel GiSpec GiProofs GiProofs2.
From Coq Require Import List Permutation.
Open Scope list_scope.

Section P.
Variable P : Type.
Variable mkpins : list (Z * box) -> list (Z * box) -> list (Z * box) -> list (Z * box) -> list P.
Variable isCut : Z -> bool.
Notation gn_own := (gn_own P). Notation gs_nets := (gs_nets P). Notation gs_rq := (gs_rq P).
Notation own := (own P). Notation hl := (hl P). Notation inv := (inv P mkpins).

Lemma inv_sound s : inv [] s -> sound P mkpins s.
Proof.
  intros (ND & _ & PI & RQ). split; [exact ND|]. split; [intros n I; apply PI; [exact I|intros m []]|].
  rewrite <- map_flat_map_pairs. apply Permutation_map. exact RQ.
Qed.
Lemma pins_inv ns : good P ns -> inv [] (mkGS P (map (init_pins P mkpins) ns) (flat_map (rq_entries P) (map (init_pins P mkpins) ns))).
Proof.
  intros [ND NP]. split; [|split; [|split]].
  - cbn [GiModel.gs_nets]. unfold own, GiProofs.own. rewrite map_map. exact ND.
  - intros g n _ [].
  - intros g I _. cbn [GiModel.gs_nets] in I. apply in_map_iff in I as (m & <- & _). reflexivity.
  - apply Permutation_refl.
Qed.
Lemma design_spec ignore w tg fixed routed ns : init_design P isCut ignore w tg fixed routed [new_net P GVss; new_net P GVdd] = Some ns ->
  good P ns /\ forall fx o cut l b, hl ns fx o cut l b <->
    ignore = false /\ (if fx then db_metal isCut tg fixed o cut l b else w = false /\ db_metal isCut tg routed o cut l b).
Proof.
  unfold init_design. destruct ignore.
  - intros E. injection E as <-. split; [apply start_good|]. intros. split; [intros H; apply start_hl in H as []|intros [E _]; discriminate E].
  - destruct (init_objs P isCut true tg fixed _) as [n1|] eqn:E1; [|discriminate 1].
    destruct (init_objs_spec P isCut true tg fixed _ _ (start_good P) E1) as (G1 & _ & H1). destruct w.
    + intros E. injection E as <-. split; [exact G1|]. intros fx o cut l b. rewrite H1. split.
      * intros [H|[-> H]]; [apply start_hl in H as []|]. auto.
      * intros [_ H]. destruct fx; [auto|destruct H as [E _]; discriminate E].
    + intros E. destruct (init_objs_spec P isCut false tg routed _ _ G1 E) as (G2 & _ & H2). split; [exact G2|]. intros fx o cut l b. rewrite H2, H1. split.
      * intros [[H|[-> H]]|[-> H]]; [apply start_hl in H as []| |]; auto.
      * intros [_ H]. destruct fx; [auto|]. destruct H as [_ H]. auto.
Qed.
Lemma gc_init_spec ignore tg fixed routed W s : gc_init P mkpins isCut ignore tg fixed routed W = Some s ->
  inv [] s /\ (forall o cut l b, hl (gs_nets s) true o cut l b <-> ignore = false /\ db_metal isCut tg fixed o cut l b) /\
  (forall o cut l b, hl (gs_nets s) false o cut l b <->
     match W with Some W => clip_metal W o cut l b | None => ignore = false /\ db_metal isCut tg routed o cut l b end) /\
  (forall W' N, W = Some W' -> In N W' -> In (GNet (wn_net N)) (own (gs_nets s))).
Proof.
  unfold gc_init. destruct (init_design _ _ _ _ _ _ _ _) as [ns|] eqn:E; [|discriminate 1]. intros X. injection X as <-. apply design_spec in E as [G H].
  destruct W as [W|].
  - unfold init_worker. destruct (worker_spec P isCut W ns G) as (G2 & O2 & H2). cbv zeta in G2, O2, H2. split; [apply pins_inv; exact G2|]. cbn [GiModel.gs_nets]. split; [|split].
    + intros. rewrite init_pins_hl. rewrite H2, H. split; [intros [Y|[Y _]]; [exact Y|discriminate Y]|auto].
    + intros. rewrite init_pins_hl. rewrite H2, H. split; [intros [(_ & Y & _)|[_ Y]]; [discriminate Y|exact Y]|auto].
    + intros W' N Y I. injection Y as <-. unfold own, GiProofs.own. rewrite map_map. apply O2. right. eauto.
  - unfold init_worker. split; [apply pins_inv; exact G|]. cbn [GiModel.gs_nets]. split; [|split].
    + intros. rewrite init_pins_hl. rewrite H. tauto.
    + intros. rewrite init_pins_hl. rewrite H. tauto.
    + intros W' N Y. discriminate Y.
Qed.
Lemma gc_init_some ignore tg fixed routed W :
  gc_init P mkpins isCut ignore tg fixed routed W <> None <->
  (ignore = false -> forall l b x, In (l, b, x) (fixed ++ match W with None => routed | Some _ => [] end) -> looked_at tg x -> x <> XShape None).
Proof.
  unfold gc_init, init_design. destruct ignore; [split; [intros _ E; discriminate E|intros _ E; discriminate E]|].
  pose proof (init_objs_some P isCut true tg fixed [new_net P GVss; new_net P GVdd]) as A.
  destruct (init_objs P isCut true tg fixed _) as [n1|].
  - assert (A' : forall l b x, In (l, b, x) fixed -> looked_at tg x -> x <> XShape None) by (apply A; discriminate).
    destruct W as [W|].
    + split; [intros _ _ l b x I; rewrite app_nil_r in I; eauto|discriminate 2].
    + pose proof (init_objs_some P isCut false tg routed n1) as B. destruct (init_objs P isCut false tg routed n1) as [n2|].
      * split; [|discriminate 2]. intros _ _ l b x I. apply in_app_iff in I as [I|I]; [eauto|]. revert l b x I. apply B. discriminate.
      * split; [intros X; exfalso; apply X; reflexivity|]. intros X. exfalso. apply (proj2 B); [|reflexivity]. intros l b x I. apply (X eq_refl l b). apply in_app_iff. auto.
  - split; [intros X; exfalso; apply X; reflexivity|]. intros X. exfalso. apply (proj2 A); [|reflexivity]. intros l b x I. apply (X eq_refl l b). apply in_app_iff. auto.
Qed.

(* ---- the nets of the clip ---- *)
Lemma set_nth_names k f W : (forall N, wn_net (f N) = wn_net N) -> map wn_net (set_nth k f W) = map wn_net W.
Proof. intros F. revert k. induction W as [|N W IH]; intros [|k]; cbn; auto; [rewrite F|rewrite IH]; reflexivity. Qed.
Lemma nth_names W W' k : map wn_net W = map wn_net W' -> option_map wn_net (nth_error W k) = option_map wn_net (nth_error W' k).
Proof. intros E. rewrite <- !nth_error_map, E. reflexivity. Qed.
Lemma patch_net_names W W' p : map wn_net W = map wn_net W' -> patch_net W p = patch_net W' p.
Proof. destruct p as [[[k l] o] b]. apply nth_names. Qed.
Lemma set_nth_in {A} k (f : A -> A) l x : In x (set_nth k f l) <-> (exists j, j <> k /\ nth_error l j = Some x) \/ (exists y, nth_error l k = Some y /\ x = f y).
Proof.
  revert k. induction l as [|y l IH]; intros k.
  - cbn. split; [destruct k; intros []|]. intros [(j & _ & E)|(z & E & _)]; [destruct j|destruct k]; discriminate E.
  - destruct k as [|k]; cbn.
    + split.
      * intros [<-|I]; [right; eauto|]. left. apply In_nth_error in I as (j & E). exists (S j). auto.
      * intros [([|j] & N & E)|(z & E & ->)]; [congruence|right; eapply nth_error_In; exact E|left; congruence].
    + rewrite IH. split.
      * intros [<-|[(j & N & E)|R]]; [left; exists O; auto|left; exists (S j); auto|auto].
      * intros [([|j] & N & E)|R]; [left; cbn in E; congruence|right; left; exists j; cbn in E; auto|auto].
Qed.
Lemma clip_alt W o cut l b : clip_metal W o cut l b <-> exists j N f, nth_error W j = Some N /\ o = GNet (wn_net N) /\ In f (wn_ext N ++ wn_route N) /\ fig_metal f cut l b.
Proof. unfold clip_metal. split; [intros (N & f & I & R); apply In_nth_error in I as (j & E); exists j, N, f; auto|intros (j & N & f & E & R); exists N, f; split; [eapply nth_error_In; exact E|exact R]]. Qed.
Lemma add_one_metal W p o cut l b :
  clip_metal (set_nth (fst (fst (fst p))) (fun N => mkWN (wn_net N) (wn_ext N) (wn_route N ++ [patch_fig p])) W) o cut l b <->
  clip_metal W o cut l b \/ exists n, patch_net W p = Some n /\ o = GNet n /\ fig_metal (patch_fig p) cut l b.
Proof.
  destruct p as [[[k pl] po] pb]. cbn [fst]. set (p := (k, pl, po, pb)). unfold patch_net. subst p. cbv iota beta. split.
  - intros (N & f & I & EO & IF & M). apply set_nth_in in I as [(j & _ & E)|(N0 & E & ->)].
    + left. exists N, f. split; [eapply nth_error_In; exact E|auto].
    + cbn [wn_net wn_ext wn_route] in *. rewrite app_assoc in IF. apply in_app_iff in IF as [IF|[<-|[]]].
      * left. exists N0, f. split; [eapply nth_error_In; exact E|auto].
      * right. exists (wn_net N0). rewrite E. auto.
  - intros [H|(n & E & EO & M)].
    + apply clip_alt in H as (j & N & f & E & EO & IF & M). destruct (Nat.eq_dec j k) as [->|NE].
      * eexists _, f. split; [apply set_nth_in; right; exists N; split; [exact E|reflexivity]|]. cbn [wn_net wn_ext wn_route]. split; [exact EO|]. split; [rewrite app_assoc; apply in_app_iff; auto|exact M].
      * exists N, f. split; [apply set_nth_in; left; eauto|auto].
    + destruct (nth_error W k) as [N|] eqn:EN; [|discriminate E]. injection E as E.
      eexists _, _. split; [apply set_nth_in; right; exists N; split; [exact EN|reflexivity]|]. cbn [wn_net wn_ext wn_route]. split; [congruence|]. split; [rewrite app_assoc; apply in_app_iff; right; left; reflexivity|exact M].
Qed.
Lemma write_names c : map wn_net (cs_W P (write_back P c)) = map wn_net (cs_W P c).
Proof. unfold write_back. cbn [cs_W]. generalize (cs_W P c). induction (cs_pw P c) as [|p pw IH]; intros W; [reflexivity|]. cbn [fold_left]. rewrite IH. apply set_nth_names. reflexivity. Qed.
Lemma patch_metal_names W W' pw o cut l b : map wn_net W = map wn_net W' -> patch_metal W pw o cut l b <-> patch_metal W' pw o cut l b.
Proof. intros E. unfold patch_metal. split; intros (p & n & I & EP & R); exists p, n; (split; [exact I|split; [|exact R]]); [rewrite <- (patch_net_names _ _ p E)|rewrite (patch_net_names _ _ p E)]; exact EP. Qed.
Lemma write_metal c o cut l b : clip_metal (cs_W P (write_back P c)) o cut l b <-> clip_metal (cs_W P c) o cut l b \/ patch_metal (cs_W P c) (cs_pw P c) o cut l b.
Proof.
  unfold write_back. cbn [cs_W]. generalize (cs_W P c). induction (cs_pw P c) as [|p pw IH]; intros W.
  - cbn. split; [auto|]. intros [H|(p & n & [] & _)]; exact H.
  - cbn [fold_left]. rewrite IH, add_one_metal. rewrite (patch_metal_names _ W pw) by (apply set_nth_names; reflexivity). unfold patch_metal. split.
    + intros [[H|(n & R)]|(q & n & I & R)]; [auto|right; exists p, n; cbn; auto|right; exists q, n; cbn; auto].
    + intros [H|(q & n & [<-|I] & R)]; [auto|left; right; eauto|right; exists q, n; auto].
Qed.
Lemma reroute_metal k N route W o cut l b : nth_error W k = Some N -> o <> GNet (wn_net N) ->
  clip_metal (set_nth k (fun N => mkWN (wn_net N) (wn_ext N) route) W) o cut l b <-> clip_metal W o cut l b.
Proof.
  intros EN NE. split.
  - intros (M & f & I & EO & R). apply set_nth_in in I as [(j & _ & E)|(N0 & E & ->)]; [exists M, f; split; [eapply nth_error_In; exact E|auto]|].
    exfalso. rewrite EN in E. injection E as <-. exact (NE EO).
  - intros H. apply clip_alt in H as (j & M & f & E & EO & R). exists M, f. split; [|auto]. apply set_nth_in. left. exists j. split; [|exact E]. intros ->. rewrite EN in E. injection E as <-. exact (NE EO).
Qed.

(* ---- one run of the checker ---- *)
Section R.
Variable gf14 : bool.
Variables (tg : option target) (fixed : list (Z * box * gobj)).
(* [ok X c]: up to the nets for which [X] holds the checker has the metal of the clip *)
Definition ok (X : gowner -> Prop) (c : cstate P) : Prop :=
  inv [] (cs_gc P c) /\ (forall N, In N (cs_W P c) -> In (GNet (wn_net N)) (own (gs_nets (cs_gc P c)))) /\
  (forall o cut l b, hl (gs_nets (cs_gc P c)) true o cut l b <-> db_metal isCut tg fixed o cut l b) /\
  (forall o cut l b, ~ X o -> (hl (gs_nets (cs_gc P c)) false o cut l b <-> clip_metal (cs_W P c) o cut l b)).
Lemma main_spec surgical found modified c : ok (fun o => exists n, In n modified /\ o = GNet n) c ->
  (forall n, In n modified -> exists N, In N (cs_W P c) /\ wn_net N = n) ->
  let pw := if surgical && gf14 then found else cs_pw P c in
  exists c', gc_main P mkpins gf14 surgical found modified c = Some c' /\ cs_W P c' = cs_W P c /\ cs_pw P c' = pw /\
    inv [] (cs_gc P c') /\ (forall N, In N (cs_W P c) -> In (GNet (wn_net N)) (own (gs_nets (cs_gc P c')))) /\
    (forall o cut l b, hl (gs_nets (cs_gc P c')) true o cut l b <-> db_metal isCut tg fixed o cut l b) /\
    (forall o cut l b, hl (gs_nets (cs_gc P c')) false o cut l b <-> clip_metal (cs_W P c) o cut l b \/ patch_metal (cs_W P c) pw o cut l b).
Proof.
  intros (I & OW & HT & HF) MW. cbv zeta. unfold gc_main. set (pw := if surgical && gf14 then found else cs_pw P c).
  assert (D : modified = [] /\ pw = [] \/ (match modified, pw with [], [] => Some (mkCS P (cs_W P c) (cs_gc P c) pw) | _, _ => match update P mkpins (cs_W P c) modified pw (cs_gc P c) with Some g => Some (mkCS P (cs_W P c) g pw) | None => None end end =
     match update P mkpins (cs_W P c) modified pw (cs_gc P c) with Some g => Some (mkCS P (cs_W P c) g pw) | None => None end)).
  { destruct modified; [|right; reflexivity]. destruct pw; [left; auto|right; reflexivity]. }
  destruct D as [[EM EP]|D].
  - rewrite EM, EP. eexists. split; [reflexivity|]. cbn [cs_W cs_pw cs_gc]. split; [reflexivity|]. split; [reflexivity|]. split; [exact I|]. split; [exact OW|]. split; [exact HT|].
    intros o cut l b. rewrite HF by (intros (n & IN & _); rewrite EM in IN; destruct IN). split; [auto|]. intros [H|(p & n & [] & _)]; exact H.
  - destruct (update_spec P mkpins isCut (cs_W P c) modified pw (cs_gc P c) I OW MW) as (g & EU & I2 & O2 & H2). setoid_rewrite D. rewrite EU.
    eexists. split; [reflexivity|]. cbn [cs_W cs_pw cs_gc]. split; [reflexivity|]. split; [reflexivity|]. split; [exact I2|]. split; [rewrite O2; exact OW|]. split.
    + intros. rewrite H2. apply HT.
    + intros o cut l b. rewrite H2. split.
      * intros [[NE H]|[_ H]]; [|exact H]. left. apply HF; [|exact H]. intros (n & IN & E). apply (NE n); [left; exact IN|exact E].
      * intros H. assert (DEC : (exists n, touched (cs_W P c) modified pw n /\ o = GNet n) \/ (forall n, touched (cs_W P c) modified pw n -> o <> GNet n)).
        { assert (TD : forall n, touched (cs_W P c) modified pw n \/ ~ touched (cs_W P c) modified pw n).
          { intros n. unfold touched. destruct (in_dec Z.eq_dec n modified) as [J|J]; [auto|].
            destruct (Exists_dec (fun p => patch_net (cs_W P c) p = Some n) pw) as [E|E].
            - intros p. destruct (patch_net (cs_W P c) p) as [m|]; [|right; discriminate]. destruct (Z.eq_dec m n) as [->|NE]; [left; reflexivity|right; congruence].
            - left. right. apply Exists_exists in E. exact E.
            - right. intros [K|K]; [exact (J K)|]. apply E. apply Exists_exists. exact K. }
          destruct o as [n| | | | | |]; try (right; intros m _; discriminate).
          destruct (TD n) as [T|T]; [left; eauto|right; intros m TM E; injection E as <-; exact (T TM)]. }
        destruct DEC as [T|T]; [auto|]. left. split; [exact T|]. destruct H as [H|(p & n & IP & EP & EO & M)].
        -- apply HF; [|exact H]. intros (n & IN & E). apply (T n); [left; exact IN|exact E].
        -- exfalso. apply (T n); [right; eauto|exact EO].
Qed.
Definition pend (c : cstate P) : Prop :=
  (gf14 = false -> cs_pw P c = []) /\ forall o cut l b, patch_metal (cs_W P c) (cs_pw P c) o cut l b -> clip_metal (cs_W P c) o cut l b.
Definition allright (c : cstate P) : Prop := ok (fun _ => False) c /\ pend c.
Lemma after_write c pw : cs_pw P c = pw -> (gf14 = false -> pw = []) -> inv [] (cs_gc P c) ->
  (forall N, In N (cs_W P c) -> In (GNet (wn_net N)) (own (gs_nets (cs_gc P c)))) ->
  (forall o cut l b, hl (gs_nets (cs_gc P c)) true o cut l b <-> db_metal isCut tg fixed o cut l b) ->
  (forall o cut l b, hl (gs_nets (cs_gc P c)) false o cut l b <-> clip_metal (cs_W P c) o cut l b \/ patch_metal (cs_W P c) pw o cut l b) ->
  allright (write_back P c) /\ length (cs_W P (write_back P c)) = length (cs_W P c).
Proof.
  intros <- G I OW HT HF. split.
  - split.
    + split; [exact I|]. split; [|split; [exact HT|]].
      * intros N IN. apply (in_map wn_net) in IN. rewrite write_names in IN. apply in_map_iff in IN as (M & <- & IM). apply OW. exact IM.
      * intros o cut l b _. rewrite write_metal. apply HF.
    + split; [exact G|]. intros o cut l b H. apply (patch_metal_names _ (cs_W P c)) in H; [|apply write_names]. apply write_metal. right. exact H.
  - rewrite <- !(map_length wn_net), write_names. reflexivity.
Qed.
Lemma ok_weaken (X Y : gowner -> Prop) c : (forall o, X o -> Y o) -> ok X c -> ok Y c.
Proof. intros XY (A & B & C & D). split; [exact A|]. split; [exact B|]. split; [exact C|]. intros o cut l b N. apply D. intros H. apply N, XY, H. Qed.
Lemma step_spec c s : allright c -> step_ok gf14 (length (cs_W P c)) s -> exists c', cstep_run P mkpins gf14 c s = Some c' /\ allright c' /\ length (cs_W P c') = length (cs_W P c).
Proof.
  intros [OK [PE PW]] SO. assert (NOMOD : ok (fun o => exists n, In n [] /\ o = GNet n) c) by (eapply ok_weaken; [|exact OK]; intros o []).
  assert (NM : forall n : Z, In n [] -> exists N, In N (cs_W P c) /\ wn_net N = n) by (intros n []).
  destruct s as [k route found| |found|found]; cbn [cstep_run step_ok] in *.
  - destruct (nth_error (cs_W P c) k) as [N|] eqn:EN; [|apply nth_error_None in EN; lia].
    set (W1 := set_nth k (fun N => mkWN (wn_net N) (wn_ext N) route) (cs_W P c)).
    assert (N1 : map wn_net W1 = map wn_net (cs_W P c)) by (apply set_nth_names; reflexivity).
    assert (SUB : forall M, In M W1 -> exists M', In M' (cs_W P c) /\ wn_net M' = wn_net M).
    { intros M IM. apply (in_map wn_net) in IM. rewrite N1 in IM. apply in_map_iff in IM as (M' & E & I). eauto. }
    destruct (main_spec true found [wn_net N] (mkCS P W1 (cs_gc P c) (cs_pw P c))) as (c1 & E1 & EW & EP & I1 & O1 & T1 & F1).
    { destruct OK as (A & B & C & D). split; [exact A|]. split; [|split; [exact C|]]; cbn [cs_W cs_gc].
      - intros M IM. destruct (SUB M IM) as (M' & I' & <-). apply B. exact I'.
      - intros o cut l b NX. rewrite D by tauto. symmetry. apply reroute_metal with (N := N); [exact EN|]. intros E. apply NX. exists (wn_net N). cbn. auto. }
    { intros n [<-|[]]. cbn [cs_W]. assert (I : In (wn_net N) (map wn_net W1)) by (rewrite N1; apply in_map; eapply nth_error_In; exact EN).
      apply in_map_iff in I as (M & E & I). eauto. }
    cbn [cs_W cs_pw andb] in *. rewrite E1. cbn [option_map]. eexists. split; [reflexivity|].
    destruct (after_write c1 (if gf14 then found else cs_pw P c)) as [A L].
    { exact EP. } { intros G. rewrite G. apply PE. exact G. } { exact I1. } { rewrite EW. exact O1. } { exact T1. } { rewrite EW. exact F1. }
    split; [exact A|]. rewrite L, EW, <- !(map_length wn_net), N1. reflexivity.
  - destruct (main_spec false [] [] c NOMOD NM) as (c1 & E1 & EW & EP & I1 & O1 & T1 & F1). cbn [andb] in *. exists c1. split; [exact E1|]. split; [|rewrite EW; reflexivity].
    split; [|split; [rewrite EP; exact PE|rewrite EW, EP; exact PW]]. split; [exact I1|]. split; [rewrite EW; exact O1|]. split; [exact T1|].
    intros o cut l b _. rewrite F1, EW. split; [intros [H|H]; [exact H|apply PW; exact H]|auto].
  - destruct (main_spec true found [] c NOMOD NM) as (c1 & E1 & EW & EP & I1 & O1 & T1 & F1). cbn [andb] in *. rewrite E1. cbn [option_map]. eexists. split; [reflexivity|].
    destruct (after_write c1 (if gf14 then found else cs_pw P c)) as [A L].
    { exact EP. } { intros G. rewrite G. apply PE. exact G. } { exact I1. } { rewrite EW. exact O1. } { exact T1. } { rewrite EW. exact F1. }
    split; [exact A|]. rewrite L, EW. reflexivity.
  - destruct (main_spec true found [] c NOMOD NM) as (c1 & E1 & EW & EP & I1 & O1 & T1 & F1). rewrite SO in EP, F1. cbn [andb] in *. exists c1. split; [exact E1|]. split; [|rewrite EW; reflexivity].
    split; [|split; [rewrite EP; exact PE|rewrite EW, EP; exact PW]]. split; [exact I1|]. split; [rewrite EW; exact O1|]. split; [exact T1|].
    intros o cut l b _. rewrite F1, EW. split; [intros [H|H]; [exact H|apply PW; exact H]|auto].
Qed.
Lemma run_spec ss : forall c, allright c -> Forall (step_ok gf14 (length (cs_W P c))) ss -> exists c', crun P mkpins gf14 c ss = Some c' /\ allright c' /\ length (cs_W P c') = length (cs_W P c).
Proof.
  induction ss as [|s ss IH]; intros c A F; [exists c; auto|]. inversion F as [|x l S F']; subst. destruct (step_spec c s A S) as (c1 & E1 & A1 & L1).
  destruct (IH c1 A1) as (c2 & E2 & A2 & L2); [rewrite L1; exact F'|]. exists c2. split; [|split; [exact A2|congruence]].
  unfold crun in *. cbn [fold_left]. rewrite E1. exact E2.
Qed.
(* ---- what becomes of the nets of the clip ---- *)
Definition becomes (W W' : list wnet) (fr : nat -> list wfig -> list wfig) : Prop :=
  forall j N, nth_error W j = Some N -> exists N' ps, nth_error W' j = Some N' /\ wn_net N' = wn_net N /\ wn_ext N' = wn_ext N /\
    wn_route N' = fr j (wn_route N) ++ ps /\ Forall isPatch ps /\ (gf14 = false -> ps = []).
Lemma set_nth_eq {A} k (f : A -> A) l j : nth_error (set_nth k f l) j = option_map (fun x => if Nat.eqb k j then f x else x) (nth_error l j).
Proof.
  revert k j. induction l as [|x l IH]; intros [|k] [|j]; cbn; auto. destruct (nth_error l j); reflexivity.
Qed.
Lemma write_becomes c : (gf14 = false -> cs_pw P c = []) -> becomes (cs_W P c) (cs_W P (write_back P c)) (fun _ r => r).
Proof.
  unfold write_back. cbn [cs_W]. generalize (cs_W P c). induction (cs_pw P c) as [|p pw IH]; intros W G j N E.
  - cbn. exists N, []. rewrite app_nil_r. repeat split; auto.
  - cbn [fold_left].
    assert (NG : gf14 = false -> False) by (intros X; specialize (G X); discriminate G).
    destruct (Nat.eqb (fst (fst (fst p))) j) eqn:EK.
    + destruct (IH (set_nth (fst (fst (fst p))) (fun N => mkWN (wn_net N) (wn_ext N) (wn_route N ++ [patch_fig p])) W) (fun X => False_ind _ (NG X)) j (mkWN (wn_net N) (wn_ext N) (wn_route N ++ [patch_fig p]))) as (N' & ps & A & B & C & D & F & _).
      { rewrite set_nth_eq, E. cbn [option_map]. rewrite EK. reflexivity. }
      exists N', (patch_fig p :: ps). cbn [wn_net wn_ext wn_route] in *. split; [exact A|]. split; [exact B|]. split; [exact C|]. split; [rewrite D, <- app_assoc; reflexivity|]. split; [|intros X; destruct (NG X)].
      constructor; [destruct p as [[[? ?] ?] ?]; exact Logic.I|exact F].
    + destruct (IH (set_nth (fst (fst (fst p))) (fun N => mkWN (wn_net N) (wn_ext N) (wn_route N ++ [patch_fig p])) W) (fun X => False_ind _ (NG X)) j N) as (N' & ps & R).
      { rewrite set_nth_eq, E. cbn [option_map]. rewrite EK. reflexivity. }
      exists N', ps. exact R.
Qed.
Definition step_route (s : cstep) (j : nat) (r : list wfig) : list wfig := match s with SReroute k r' _ => if Nat.eqb k j then r' else r | _ => r end.
Lemma main_pw surgical found modified c c' : gc_main P mkpins gf14 surgical found modified c = Some c' -> cs_W P c' = cs_W P c /\ cs_pw P c' = (if surgical && gf14 then found else cs_pw P c).
Proof.
  unfold gc_main. set (pw := if surgical && gf14 then found else cs_pw P c). intros E.
  destruct modified, pw; try (injection E as <-; auto); (destruct (update _ _ _ _ _ _); [injection E as <-; auto|discriminate E]).
Qed.
Lemma becomes_refl W : becomes W W (fun _ r => r).
Proof. intros j N E. exists N, []. rewrite app_nil_r. repeat split; auto. Qed.
Lemma step_becomes c s c' : (gf14 = false -> cs_pw P c = []) -> cstep_run P mkpins gf14 c s = Some c' -> becomes (cs_W P c) (cs_W P c') (step_route s) /\ (gf14 = false -> cs_pw P c' = []).
Proof.
  intros G E. destruct s as [k route found| |found|found]; cbn [cstep_run] in E.
  - destruct (nth_error (cs_W P c) k) as [N0|]; [|discriminate E]. destruct (gc_main _ _ _ _ _ _ _) as [c1|] eqn:E1; [|discriminate E]. cbn [option_map] in E. injection E as <-. apply main_pw in E1 as [EW EP]. cbn [cs_W cs_pw andb] in *.
    assert (G1 : gf14 = false -> cs_pw P c1 = []) by (intros X; rewrite EP, X; auto).
    split; [|exact G1]. intros j N E. destruct (write_becomes c1 G1 j (if Nat.eqb k j then mkWN (wn_net N) (wn_ext N) route else N)) as (N' & ps & A & B & C & D & F & H).
    { rewrite EW, set_nth_eq, E. reflexivity. }
    exists N', ps. cbn [step_route]. destruct (Nat.eqb k j); cbn [wn_net wn_ext wn_route] in *; repeat split; assumption.
  - apply main_pw in E as [EW EP]. split; [rewrite EW; apply becomes_refl|intros X; rewrite EP; auto].
  - destruct (gc_main _ _ _ _ _ _ _) as [c1|] eqn:E1; [|discriminate E]. cbn [option_map] in E. injection E as <-. apply main_pw in E1 as [EW EP]. cbn [andb] in *.
    assert (G1 : gf14 = false -> cs_pw P c1 = []) by (intros X; rewrite EP, X; auto). split; [|exact G1]. rewrite <- EW. apply write_becomes. exact G1.
  - apply main_pw in E as [EW EP]. cbn [andb] in *. split; [rewrite EW; apply becomes_refl|intros X; rewrite EP, X; auto].
Qed.
Lemma last_app j ss : forall r ps, exists qs, last_route j ss (r ++ ps) = last_route j ss r ++ qs /\ (qs = [] \/ qs = ps).
Proof.
  induction ss as [|s ss IH]; intros r ps; [exists ps; auto|]. unfold last_route in *. cbn [fold_left]. destruct s as [k r' f| | |]; try apply IH. destruct (Nat.eqb k j); [|apply IH]. exists []. rewrite app_nil_r. auto.
Qed.
Lemma run_none ss : fold_left (fun o s => match o with Some c => cstep_run P mkpins gf14 c s | None => None end) ss None = None.
Proof. induction ss; [reflexivity|exact IHss]. Qed.
Lemma run_becomes ss : forall c c', (gf14 = false -> cs_pw P c = []) -> crun P mkpins gf14 c ss = Some c' -> becomes (cs_W P c) (cs_W P c') (fun j r => last_route j ss r).
Proof.
  induction ss as [|s ss IH]; intros c c' G E; [cbn in E; injection E as <-; apply becomes_refl|].
  unfold crun in E. cbn [fold_left] in E. destruct (cstep_run P mkpins gf14 c s) as [c1|] eqn:E1; [|rewrite run_none in E; discriminate E].
  destruct (step_becomes c s c1 G E1) as [B1 G1]. specialize (IH c1 c' G1 E). intros j N EN.
  destruct (B1 j N EN) as (N1 & p1 & A1 & A2 & A3 & A4 & A5 & A6). destruct (IH j N1 A1) as (N2 & p2 & D1 & D2 & D3 & D4 & D5 & D6).
  destruct (last_app j ss (step_route s j (wn_route N)) p1) as (qs & EQ & QS). rewrite <- A4 in EQ.
  exists N2, (qs ++ p2). split; [exact D1|]. split; [congruence|]. split; [congruence|]. split; [rewrite D4; cbv beta; rewrite EQ, <- app_assoc; reflexivity|].
  split; [apply Forall_app; split; [destruct QS as [-> | ->]; [constructor|exact A5]|exact D5]|].
  intros X. rewrite (D6 X). destruct QS as [-> | ->]; [reflexivity|rewrite (A6 X); reflexivity].
Qed.
Lemma allright_current c : allright c -> current P mkpins isCut tg fixed (cs_W P c) (cs_gc P c).
Proof. intros [(I & _ & T & F) _]. split; [apply inv_sound; exact I|]. split; [exact T|]. intros o cut l b. apply F. tauto. Qed.
End R.
End P.
