(* Proofs about the update of the checker. *)
From Verif Require Import Base GeomModel GeomSpec GeomProofs FmModel FmSpec GiModel GiSpec GiProofs.
From Coq Require Import List Permutation.
Open Scope list_scope.

Lemma filter_perm A (f : A -> bool) l l' : Permutation l l' -> Permutation (filter f l) (filter f l').
Proof.
  induction 1 as [|x l l' H IH|x y l|l l' l'' H1 IH1 H2 IH2]; cbn; [auto| | |eapply Permutation_trans; eauto].
  - destruct (f x); auto.
  - destruct (f x), (f y); auto. constructor.
Qed.
Lemma filter_all A (f : A -> bool) l : (forall x, In x l -> f x = true) -> filter f l = l.
Proof. induction l as [|x l IH]; intros H; [reflexivity|]. cbn. rewrite (H x) by (left; reflexivity). rewrite IH; [reflexivity|]. intros y I. apply H. right. exact I. Qed.
Lemma filter_nothing A (f : A -> bool) l : (forall x, In x l -> f x = false) -> filter f l = [].
Proof. induction l as [|x l IH]; intros H; [reflexivity|]. cbn. rewrite (H x) by (left; reflexivity). apply IH. intros y I. apply H. right. exact I. Qed.
Lemma number_in A (l : list A) k i x : In (i, x) (number k l) -> (k <= i < k + length l)%nat.
Proof. revert k. induction l as [|y l IH]; intros k; [intros []|]. intros [E|I]; [injection E as <- <-; cbn; lia|]. apply IH in I. cbn. lia. Qed.

Section P.
Variable P : Type.
Variable mkpins : list (Z * box) -> list (Z * box) -> list (Z * box) -> list (Z * box) -> list P.
Variable isCut : Z -> bool.
Notation gnet := (gnet P). Notation gn_own := (gn_own P). Notation gn_pins := (gn_pins P). Notation gs_nets := (gs_nets P). Notation gs_rq := (gs_rq P).
Notation own := (own P). Notation hl := (hl P).

(* pins are those of the metal, except for the nets in [D], which have none *)
Definition inv (D : list Z) (s : gstate P) : Prop :=
  NoDup (own (gs_nets s)) /\
  (forall g n, In g (gs_nets s) -> In n D -> gn_own g = GNet n -> gn_pins g = []) /\
  (forall g, In g (gs_nets s) -> (forall n, In n D -> gn_own g <> GNet n) -> gn_pins g = mkpins (gn_fp P g) (gn_rp P g) (gn_fr P g) (gn_rr P g)) /\
  Permutation (gs_rq s) (flat_map (rq_entries P) (gs_nets s)).

Lemma get_spec o ns g : NoDup (own ns) -> (get P o ns = Some g <-> In g ns /\ gn_own g = o).
Proof.
  intros ND. unfold get. split.
  - intros H. apply find_some in H as [I E]. apply own_eqb_spec in E. auto.
  - intros [I E]. induction ns as [|m r IH]; [destruct I|]. cbn. cbn in ND. inversion ND as [|x l NI ND']; subst.
    destruct I as [<-|I].
    + rewrite own_eqb_refl. reflexivity.
    + destruct (own_eqb (gn_own m) (gn_own g)) eqn:E; [|apply IH; auto]. apply own_eqb_spec in E. exfalso. apply NI. rewrite E. apply in_map. exact I.
Qed.
Lemma get_some o ns : In o (own ns) -> exists g, get P o ns = Some g.
Proof.
  intros I. unfold get. destruct (find _ ns) as [g|] eqn:F; [eauto|]. exfalso. apply in_own in I as (n & I & E). apply (find_none _ _ F) in I. rewrite E, own_eqb_refl in I. discriminate I.
Qed.

(* entries of the nets after the pins of one net changed from [] *)
Lemma entries_clear ns o g : NoDup (own ns) -> In g ns -> gn_own g = o ->
  Permutation (filter (fun e : rqentry P => negb (own_eqb (fst (fst e)) (gn_own g) && Nat.ltb (snd (fst e)) (length (gn_pins g)))) (flat_map (rq_entries P) ns))
              (flat_map (rq_entries P) (upd P o (clear_net P) ns)).
Proof.
  intros ND I E. induction ns as [|m r IH]; [destruct I|]. cbn in ND. inversion ND as [|x l NI ND']; subst. cbn [flat_map upd]. rewrite filter_app.
  assert (KEEP : forall m', gn_own m' <> gn_own g -> filter (fun e : rqentry P => negb (own_eqb (fst (fst e)) (gn_own g) && Nat.ltb (snd (fst e)) (length (gn_pins g)))) (rq_entries P m') = rq_entries P m').
  { intros m' N. apply filter_all. intros e IE. unfold rq_entries in IE. apply in_map_iff in IE as ([k p] & <- & _). cbn. apply own_eqb_neq in N. rewrite N. reflexivity. }
  destruct I as [<-|I].
  - rewrite own_eqb_refl. cbn [flat_map].
    rewrite (filter_nothing _ _ (rq_entries P m)).
    + cbn [app]. assert (R : filter (fun e : rqentry P => negb (own_eqb (fst (fst e)) (gn_own m) && Nat.ltb (snd (fst e)) (length (gn_pins m)))) (flat_map (rq_entries P) r) = flat_map (rq_entries P) r).
      { apply filter_all. intros e IE. apply in_flat_map in IE as (m' & I' & IE). unfold rq_entries in IE. apply in_map_iff in IE as ([k p] & <- & _). cbn.
        assert (N : gn_own m' <> gn_own m) by (intros E; apply NI; rewrite <- E; apply in_map; exact I'). apply own_eqb_neq in N. rewrite N. reflexivity. }
      rewrite R. apply Permutation_refl.
    + intros e IE. unfold rq_entries in IE. apply in_map_iff in IE as ([k p] & <- & IK). cbn [fst snd]. rewrite own_eqb_refl. apply number_in in IK. rewrite (proj2 (Nat.ltb_lt _ _)) by lia. reflexivity.
  - assert (N : gn_own m <> gn_own g) by (intros E; apply NI; rewrite E; apply in_map; exact I).
    pose proof N as N'. apply own_eqb_neq in N'. rewrite N'. cbn [flat_map]. rewrite (KEEP m N). apply Permutation_app_head. apply IH; assumption.
Qed.
Lemma entries_map ns ns' : map (fun n => (gn_own n, gn_pins n)) ns = map (fun n => (gn_own n, gn_pins n)) ns' -> flat_map (rq_entries P) ns = flat_map (rq_entries P) ns'.
Proof.
  revert ns'. induction ns as [|n r IH]; intros [|n' r'] E; try discriminate E; [reflexivity|]. cbn in E. injection E as E1 E2 E3. cbn [flat_map]. rewrite (IH r' E3). unfold rq_entries. rewrite E1, E2. reflexivity.
Qed.
Lemma clear_own n : gn_own (clear_net P n) = gn_own n. Proof. reflexivity. Qed.
Lemma clear_hl o ns fixed o' cut l b : NoDup (own ns) -> hl (upd P o (clear_net P) ns) fixed o' cut l b <-> hl ns fixed o' cut l b /\ (fixed = true \/ o' <> o).
Proof.
  intros ND. unfold hl, GiProofs.hl. split.
  - intros (n & I & E & H). apply in_upd in I as [[I N]|(m & I & EM & ->)]; [split; [eauto|right; congruence]| |exact ND].
    destruct fixed; [|destruct cut; destruct H]. split; [|auto]. exists m. split; [exact I|]. split; [exact E|]. destruct cut; exact H.
  - intros [(n & I & E & H) D]. destruct (own_dec (gn_own n) o) as [EO|NO].
    + destruct D as [-> |D]; [|congruence]. exists (clear_net P n). split; [apply in_upd; eauto|]. split; [exact E|]. destruct cut; exact H.
    + exists n. split; [apply in_upd; auto|auto].
Qed.
(* the net with an owner keeps its parts under a pairing of owners and pins *)
Lemma other_nets o ns f : NoDup (own ns) -> (forall n, gn_own (f n) = gn_own n) -> forall g, gn_own g <> o -> (In g (upd P o f ns) <-> In g ns).
Proof. intros ND F g N. rewrite in_upd by exact ND. split; [intros [[I _]|(m & I & E & ->)]; [exact I|rewrite F in N; congruence]|auto]. Qed.
Lemma fig_other o fs : forall ns, NoDup (own ns) -> forall g, gn_own g <> o -> (In g (fold_left (init_fig P o) fs ns) <-> In g ns).
Proof.
  induction fs as [|f fs IH]; intros ns ND g N; [tauto|]. cbn [fold_left]. rewrite IH; [|rewrite fig_own; exact ND|exact N].
  unfold init_fig. revert ns ND. induction (fig_rects f) as [|r rs IHr]; intros ns ND; [tauto|]. cbn [fold_left]. rewrite IHr; [|rewrite own_upd; [exact ND|reflexivity]].
  apply other_nets; auto.
Qed.
Lemma pair_pins ns ns' g : map (fun n => (gn_own n, gn_pins n)) ns = map (fun n => (gn_own n, gn_pins n)) ns' -> In g ns -> exists g', In g' ns' /\ gn_own g' = gn_own g /\ gn_pins g' = gn_pins g.
Proof. intros E I. apply (in_map (fun n => (gn_own n, gn_pins n))) in I. rewrite E in I. apply in_map_iff in I as (g' & EQ & I). injection EQ as E1 E2. eauto. Qed.

Definition of_net (W : list wnet) (n : Z) : list wfig := flat_map (fun N => wn_ext N ++ wn_route N) (filter (fun N => wn_net N =? n) W).
Lemma of_net_spec W n cut l b : (exists f, In f (of_net W n) /\ fig_metal f cut l b) <-> clip_metal W (GNet n) cut l b.
Proof.
  unfold of_net, clip_metal. split.
  - intros (f & I & M). apply in_flat_map in I as (N & I & IF). apply filter_In in I as [I E]. apply Z.eqb_eq in E. exists N, f. subst n. auto.
  - intros (N & f & I & E & IF & M). injection E as ->. exists f. split; [|exact M]. apply in_flat_map. exists N. split; [apply filter_In; split; [exact I|apply Z.eqb_refl]|exact IF].
Qed.
Lemma reinit_spec W D s n : inv D s -> In (GNet n) (own (gs_nets s)) -> (exists N, In N W /\ wn_net N = n) ->
  exists s', reinit P W (Some s) n = Some s' /\ inv (n :: D) s' /\ own (gs_nets s') = own (gs_nets s) /\
  forall fixed o cut l b, hl (gs_nets s') fixed o cut l b <->
    if fixed then hl (gs_nets s) true o cut l b else (o <> GNet n /\ hl (gs_nets s) false o cut l b \/ o = GNet n /\ clip_metal W o cut l b).
Proof.
  intros (ND & NP & PI & RQ) IO (N & IN & EN). destruct (get_some (GNet n) (gs_nets s) IO) as (g & EG). pose proof EG as EG'. apply get_spec in EG' as [IG OG]; [|exact ND].
  unfold reinit. rewrite EG. destruct (filter (fun N => wn_net N =? n) W) as [|N0 dn] eqn:FW.
  { exfalso. assert (I : In N (filter (fun N => wn_net N =? n) W)) by (apply filter_In; split; [exact IN|apply Z.eqb_eq; exact EN]). rewrite FW in I. destruct I. }
  cbv iota beta. rewrite <- FW. fold (of_net W n).
  set (ns := upd P (GNet n) (clear_net P) (gs_nets s)).
  assert (OU : own ns = own (gs_nets s)) by (apply own_upd; reflexivity).
  assert (NDU : NoDup (own ns)) by (rewrite OU; exact ND). assert (IOU : In (GNet n) (own ns)) by (rewrite OU; exact IO).
  destruct (figs_spec P isCut (GNet n) (of_net W n) ns NDU IOU) as (A & C & B). cbv zeta in A, B, C.
  eexists. split; [reflexivity|]. cbn [GiModel.gs_nets GiModel.gs_rq]. split; [|split; [rewrite A; exact OU|]].
  - split; [cbn [GiModel.gs_nets]; rewrite A; exact NDU|]. split; [|split].
    + intros g' m I' ID E'. cbn [GiModel.gs_nets] in I'. destruct (pair_pins _ _ g' C I') as (h & IH & EH & PH). rewrite <- PH. unfold ns in IH. apply in_upd in IH as [[IH NH]|(h0 & IH & EH0 & ->)]; [| |exact ND].
      * destruct ID as [<-|ID]; [congruence|]. apply (NP h m IH ID). congruence.
      * reflexivity.
    + intros g' I' ND'. cbn [GiModel.gs_nets] in I'. assert (NE : gn_own g' <> GNet n) by (apply ND'; left; reflexivity).
      apply (fig_other (GNet n) (of_net W n) ns NDU g' NE) in I'. unfold ns in I'. apply (other_nets (GNet n) (gs_nets s) (clear_net P) ND clear_own g' NE) in I'.
      apply PI; [exact I'|]. intros m IM. apply ND'. right. exact IM.
    + cbn [GiModel.gs_nets GiModel.gs_rq]. rewrite (entries_map _ _ C). unfold rq_remove. eapply Permutation_trans; [apply filter_perm; exact RQ|]. apply entries_clear; assumption.
  - intros fixed o cut l b. cbn [GiModel.gs_nets]. rewrite B. unfold ns. rewrite clear_hl by exact ND. destruct fixed.
    + split; [intros [[H _]|(E & _)]; [exact H|discriminate E]|auto].
    + split.
      * intros [[H [E|NE]]|(_ & -> & M)]; [discriminate E|auto|]. right. split; [reflexivity|]. apply of_net_spec. exact M.
      * intros [[NE H]|[-> M]]; [auto|]. right. split; [reflexivity|split; [reflexivity|]]. apply of_net_spec. exact M.
Qed.
Lemma reinits_spec W fn : forall D s, inv D s -> (forall n, In n fn -> In (GNet n) (own (gs_nets s)) /\ exists N, In N W /\ wn_net N = n) ->
  exists s', fold_left (reinit P W) fn (Some s) = Some s' /\ inv (rev fn ++ D) s' /\ own (gs_nets s') = own (gs_nets s) /\
  forall fixed o cut l b, hl (gs_nets s') fixed o cut l b <->
    if fixed then hl (gs_nets s) true o cut l b
    else ((forall n, In n fn -> o <> GNet n) /\ hl (gs_nets s) false o cut l b \/ (exists n, In n fn /\ o = GNet n) /\ clip_metal W o cut l b).
Proof.
  induction fn as [|n fn IH]; intros D s I F.
  - exists s. cbn. split; [reflexivity|]. split; [exact I|]. split; [reflexivity|]. intros fixed o cut l b. destruct fixed; [tauto|]. split; [intros H; left; split; [intros n []|exact H]|].
    intros [[_ H]|[(n & [] & _) _]]; exact H.
  - destruct (F n (or_introl eq_refl)) as [IO EW]. destruct (reinit_spec W D s n I IO EW) as (s1 & E1 & I1 & O1 & H1).
    destruct (IH (n :: D) s1 I1) as (s2 & E2 & I2 & O2 & H2).
    { intros m IM. rewrite O1. apply F. right. exact IM. }
    exists s2. cbn [fold_left]. rewrite E1. split; [exact E2|]. split; [cbn; rewrite <- app_assoc; exact I2|]. split; [congruence|].
    intros fixed o cut l b. rewrite H2. destruct fixed; [rewrite H1; reflexivity|]. rewrite (H1 false). split.
    + intros [[NE [[NN H]|[-> M]]]|[(m & IM & ->) M]].
      * left. split; [|exact H]. intros m [<-|IM]; auto.
      * right. split; [exists n; cbn; auto|exact M].
      * right. split; [exists m; cbn; auto|exact M].
    + intros [[NE H]|[(m & [<-|IM] & ->) M]].
      * left. split; [intros m IM; apply NE; right; exact IM|]. left. split; [apply NE; left; reflexivity|exact H].
      * destruct (in_dec Z.eq_dec n fn) as [J|J].
        -- right. split; [eauto|exact M].
        -- left. split; [intros m IM E; injection E as <-; exact (J IM)|]. right. auto.
      * right. split; [eauto|exact M].
Qed.
(* patches *)
Definition patch_metal (W : list wnet) (pw : list patch) (o : gowner) (cut : bool) (l : Z) (b : box) : Prop :=
  exists p n, In p pw /\ patch_net W p = Some n /\ o = GNet n /\ fig_metal (patch_fig p) cut l b.
Lemma patches_spec W D pw : forall s, inv D s -> (forall p n, In p pw -> patch_net W p = Some n -> In n D /\ In (GNet n) (own (gs_nets s))) ->
  let s' := fold_left (add_patch P W) pw s in
  inv D s' /\ own (gs_nets s') = own (gs_nets s) /\
  forall fixed o cut l b, hl (gs_nets s') fixed o cut l b <-> hl (gs_nets s) fixed o cut l b \/ fixed = false /\ patch_metal W pw o cut l b.
Proof.
  induction pw as [|p pw IH]; intros s I F.
  - cbn. split; [exact I|split; [reflexivity|]]. intros. split; [auto|]. intros [H|(_ & p & n & [] & _)]; exact H.
  - cbn [fold_left]. cbv zeta in *. destruct (patch_net W p) as [n|] eqn:EP.
    + destruct (F p n (or_introl eq_refl) EP) as [ID IO]. destruct I as (ND & NP & PI & RQ).
      destruct (figs_spec P isCut (GNet n) [patch_fig p] (gs_nets s) ND IO) as (A & C & B). cbv zeta in A, B, C. cbn [fold_left] in A, B, C.
      assert (E1 : add_patch P W s p = mkGS P (init_fig P (GNet n) (gs_nets s) (patch_fig p)) (gs_rq s)) by (unfold add_patch; rewrite EP; reflexivity).
      assert (I1 : inv D (add_patch P W s p)).
      { rewrite E1. split; [cbn [GiModel.gs_nets]; rewrite A; exact ND|]. split; [|split].
        - intros g m IG IM EO. cbn [GiModel.gs_nets] in IG. destruct (pair_pins _ _ g C IG) as (h & IH' & EH & PH). rewrite <- PH. apply (NP h m IH' IM). congruence.
        - intros g IG NG. cbn [GiModel.gs_nets] in IG. assert (NE : gn_own g <> GNet n) by (apply NG; exact ID). apply (fig_other (GNet n) [patch_fig p] (gs_nets s) ND g NE) in IG. apply PI; assumption.
        - cbn [GiModel.gs_nets GiModel.gs_rq]. rewrite (entries_map _ _ C). exact RQ. }
      destruct (IH (add_patch P W s p) I1) as (I2 & O2 & H2).
      { intros q m IQ EQ. rewrite E1. cbn [GiModel.gs_nets]. rewrite A. apply F with q; [right; exact IQ|exact EQ]. }
      split; [exact I2|]. split; [rewrite O2, E1; exact A|]. intros fixed o cut l b. rewrite H2, E1. cbn [GiModel.gs_nets]. rewrite B. unfold patch_metal. split.
      * intros [[H|(-> & -> & f & [<-|[]] & M)]|(-> & q & m & IQ & R)]; [auto| |].
        -- right. split; [reflexivity|]. exists p, n. cbn. auto.
        -- right. split; [reflexivity|]. exists q, m. cbn. auto.
      * intros [H|(-> & q & m & [<-|IQ] & EQ & EO & M)]; [auto| |].
        -- left. right. split; [reflexivity|]. split; [congruence|]. exists (patch_fig p). cbn. auto.
        -- right. split; [reflexivity|]. exists q, m. auto.
    + assert (E1 : add_patch P W s p = s) by (unfold add_patch; rewrite EP; reflexivity). rewrite E1.
      destruct (IH s I) as (I2 & O2 & H2); [intros q m IQ EQ; apply F with q; [right; exact IQ|exact EQ]|].
      split; [exact I2|]. split; [exact O2|]. intros fixed o cut l b. rewrite H2. unfold patch_metal. split.
      * intros [H|(-> & q & m & IQ & R)]; [auto|]. right. split; [reflexivity|]. exists q, m. cbn. auto.
      * intros [H|(-> & q & m & [<-|IQ] & EQ & R)]; [auto|congruence|]. right. split; [reflexivity|]. exists q, m. auto.
Qed.
(* the pins are made again *)
Lemma entries_finish ns o g : NoDup (own ns) -> In g ns -> gn_own g = o -> gn_pins g = [] ->
  Permutation (flat_map (rq_entries P) (upd P o (init_pins P mkpins) ns)) (flat_map (rq_entries P) ns ++ rq_entries P (init_pins P mkpins g)).
Proof.
  intros ND I E EP. induction ns as [|m r IH]; [destruct I|]. cbn in ND. inversion ND as [|x l NI ND']; subst. cbn [flat_map upd].
  destruct I as [<-|I].
  - rewrite own_eqb_refl. cbn [flat_map]. assert (X : rq_entries P m = []) by (unfold rq_entries; rewrite EP; reflexivity). rewrite X. cbn [app]. apply Permutation_app_comm.
  - assert (N : gn_own m <> gn_own g) by (intros E; apply NI; rewrite E; apply in_map; exact I).
    pose proof N as N'. apply own_eqb_neq in N'. rewrite N'. cbn [flat_map]. rewrite <- app_assoc. apply Permutation_app_head. apply IH; auto.
Qed.
Lemma finish_spec D s n : inv (n :: D) s -> ~ In n D -> In (GNet n) (own (gs_nets s)) ->
  let s' := finish P mkpins s n in inv D s' /\ own (gs_nets s') = own (gs_nets s) /\ forall fixed o cut l b, hl (gs_nets s') fixed o cut l b <-> hl (gs_nets s) fixed o cut l b.
Proof.
  intros (ND & NP & PI & RQ) NI IO. destruct (get_some (GNet n) (gs_nets s) IO) as (g & EG). apply get_spec in EG as [IG OG]; [|exact ND].
  assert (PG : gn_pins g = []) by (apply (NP g n IG); [left; reflexivity|exact OG]).
  assert (OU : own (upd P (GNet n) (init_pins P mkpins) (gs_nets s)) = own (gs_nets s)) by (apply own_upd; reflexivity).
  assert (GF : get P (GNet n) (upd P (GNet n) (init_pins P mkpins) (gs_nets s)) = Some (init_pins P mkpins g)).
  { apply get_spec; [rewrite OU; exact ND|]. split; [apply in_upd; [exact ND|right; eauto]|exact OG]. }
  cbv zeta. unfold finish. rewrite GF. split; [|split; [exact OU|]].
  - split; [cbn [GiModel.gs_nets]; rewrite OU; exact ND|]. split; [|split].
    + intros h m IH ID EH. cbn [GiModel.gs_nets] in IH. apply in_upd in IH as [[IH NH]|(h0 & IH & EH0 & ->)]; [apply (NP h m IH); [right; exact ID|exact EH]| |exact ND].
      exfalso. apply NI. change (GiModel.gn_own P (init_pins P mkpins h0)) with (gn_own h0) in EH. rewrite EH0 in EH. injection EH as ->. exact ID.
    + intros h IH NH. cbn [GiModel.gs_nets] in IH. apply in_upd in IH as [[IH NE]|(h0 & IH & EH0 & ->)]; [|reflexivity|exact ND].
      apply PI; [exact IH|]. intros m [<-|IM]; [exact NE|apply NH; exact IM].
    + cbn [GiModel.gs_nets GiModel.gs_rq]. unfold rq_add. eapply Permutation_trans; [apply Permutation_app_tail; exact RQ|]. apply Permutation_sym. apply entries_finish with (g := g); assumption.
  - intros fixed o cut l b. cbn [GiModel.gs_nets]. unfold hl, GiProofs.hl. split.
    + intros (h & IH & EH & H). apply in_upd in IH as [[IH NH]|(h0 & IH & EH0 & ->)]; [eauto| |exact ND]. exists h0. split; [exact IH|]. split; [exact EH|]. destruct fixed, cut; exact H.
    + intros (h & IH & EH & H). destruct (own_dec (gn_own h) (GNet n)) as [EO|NO].
      * exists (init_pins P mkpins h). split; [apply in_upd; [exact ND|right; eauto]|]. split; [exact EH|]. destruct fixed, cut; exact H.
      * exists h. split; [apply in_upd; auto|auto].
Qed.
Lemma finishes_spec fn : forall D s, inv (fn ++ D) s -> NoDup fn -> (forall n, In n fn -> ~ In n D /\ In (GNet n) (own (gs_nets s))) ->
  let s' := fold_left (finish P mkpins) fn s in inv D s' /\ own (gs_nets s') = own (gs_nets s) /\ forall fixed o cut l b, hl (gs_nets s') fixed o cut l b <-> hl (gs_nets s) fixed o cut l b.
Proof.
  induction fn as [|n fn IH]; intros D s I ND F; [cbn; split; [exact I|split; [reflexivity|tauto]]|]. cbn [fold_left]. inversion ND as [|x l NI ND']; subst.
  destruct (finish_spec (fn ++ D) s n I) as (I1 & O1 & H1).
  { rewrite in_app_iff. intros [J|J]; [exact (NI J)|exact (proj1 (F n (or_introl eq_refl)) J)]. }
  { apply F. left. reflexivity. }
  destruct (IH D (finish P mkpins s n) I1 ND') as (I2 & O2 & H2).
  { intros m IM. cbv zeta in O1. rewrite O1. apply F. right. exact IM. }
  cbv zeta in *. split; [exact I2|]. split; [congruence|]. intros. rewrite H2. apply H1.
Qed.
Lemma inv_ext D D' s : (forall n, In n D <-> In n D') -> inv D s -> inv D' s.
Proof.
  intros E (ND & NP & PI & RQ). split; [exact ND|]. split; [intros g n IG IN; apply NP; [exact IG|apply E; exact IN]|]. split; [|exact RQ].
  intros g IG NG. apply PI; [exact IG|]. intros n IN. apply NG, E. exact IN.
Qed.
Definition touched (W : list wnet) (modified : list Z) (pw : list patch) (n : Z) : Prop := In n modified \/ exists p, In p pw /\ patch_net W p = Some n.
Lemma update_spec W modified pw s : inv [] s -> (forall N, In N W -> In (GNet (wn_net N)) (own (gs_nets s))) ->
  (forall n, In n modified -> exists N, In N W /\ wn_net N = n) ->
  exists s', update P mkpins W modified pw s = Some s' /\ inv [] s' /\ own (gs_nets s') = own (gs_nets s) /\
  forall fixed o cut l b, hl (gs_nets s') fixed o cut l b <->
    if fixed then hl (gs_nets s) true o cut l b
    else ((forall n, touched W modified pw n -> o <> GNet n) /\ hl (gs_nets s) false o cut l b \/
          (exists n, touched W modified pw n /\ o = GNet n) /\ (clip_metal W o cut l b \/ patch_metal W pw o cut l b)).
Proof.
  intros I OW MW. unfold update. set (fn := nodup Z.eq_dec _).
  assert (TF : forall n, In n fn <-> touched W modified pw n).
  { intros n. unfold fn, touched. rewrite nodup_In, in_app_iff, in_flat_map. split; (intros [H|(p & IP & H)]; [auto|right; exists p; split; [exact IP|]]).
    - destruct (patch_net W p); [destruct H as [<-|[]]; reflexivity|destruct H].
    - rewrite H. left. reflexivity. }
  assert (NF : NoDup fn) by apply NoDup_nodup.
  assert (PN : forall p n, patch_net W p = Some n -> exists N, In N W /\ wn_net N = n).
  { intros [[[k l] o] b] n E. unfold patch_net in E. destruct (nth_error W k) as [N|] eqn:EN; [|discriminate E]. injection E as <-. exists N. split; [eapply nth_error_In; eauto|reflexivity]. }
  assert (FW : forall n, In n fn -> exists N, In N W /\ wn_net N = n). { intros n IN. apply TF in IN as [IN|(p & _ & E)]; eauto. }
  destruct (reinits_spec W fn [] s I) as (s1 & E1 & I1 & O1 & H1).
  { intros n IN. destruct (FW n IN) as (N & IW & EN). split; [rewrite <- EN; apply OW; exact IW|eauto]. }
  rewrite E1. rewrite app_nil_r in I1. apply (inv_ext _ fn) in I1; [|intros n; rewrite <- in_rev; tauto].
  destruct (patches_spec W fn pw s1 I1) as (I2 & O2 & H2).
  { intros p n IP EP. split; [apply TF; right; eauto|]. rewrite O1. destruct (PN p n EP) as (N & IW & EN). rewrite <- EN. apply OW. exact IW. }
  destruct (finishes_spec fn [] (fold_left (add_patch P W) pw s1)) as (I3 & O3 & H3).
  { rewrite app_nil_r. exact I2. }
  { exact NF. }
  { intros n IN. split; [intros []|]. rewrite O2, O1. destruct (FW n IN) as (N & IW & EN). rewrite <- EN. apply OW. exact IW. }
  eexists. split; [reflexivity|]. split; [exact I3|]. split; [congruence|].
  intros fixed o cut l b. rewrite H3, H2, H1. destruct fixed.
  - split; [intros [H|[E _]]; [exact H|discriminate E]|auto].
  - split.
    + intros [[[NE H]|[(n & IN & ->) M]]|(_ & M)].
      * left. split; [intros n T; apply NE, TF; exact T|exact H].
      * right. split; [exists n; split; [apply TF; exact IN|reflexivity]|auto].
      * right. split; [|auto]. destruct M as (p & n & IP & EP & -> & _). exists n. split; [right; eauto|reflexivity].
    + intros [[NE H]|[(n & T & ->) [M|M]]].
      * left. left. split; [intros n IN; apply NE, TF; exact IN|exact H].
      * left. right. split; [exists n; split; [apply TF; exact T|reflexivity]|exact M].
      * right. auto.
Qed.
End P.
