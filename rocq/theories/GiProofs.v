(* Proofs about the set-up and update of the checker. *)
From Verif Require Import Base GeomModel GeomSpec GeomProofs FmModel FmSpec FmProofs FmProofs2 GiModel GiSpec.
From Coq Require Import List Permutation.
Open Scope list_scope.

Lemma own_eqb_spec a b : own_eqb a b = true <-> a = b.
Proof. unfold own_eqb. destruct (own_dec a b); split; congruence. Qed.
Lemma own_eqb_neq a b : own_eqb a b = false <-> a <> b.
Proof. unfold own_eqb. destruct (own_dec a b); split; congruence. Qed.
Lemma own_eqb_refl a : own_eqb a a = true. Proof. apply own_eqb_spec; reflexivity. Qed.
Lemma owner_of_spec x o : owner_of x = Some o <-> belongs x o.
Proof.
  split.
  - destruct x as [t [n|] ty|i t [n|] ty|b|i b|[n|]]; cbn; try destruct ty; intros E; try discriminate E; injection E as <-; constructor.
  - intros H. destruct H; reflexivity.
Qed.
Lemma keeps_spec tg x : keeps tg x = true <-> looked_at tg x.
Proof.
  unfold keeps, looked_at. destruct tg as [[i|t]|]; [| |tauto].
  - destruct x as [t n ty|j t n ty|b|j b|n]; try (split; [discriminate|intros [(? & ? & ? & E)|(? & E)]; discriminate E]).
    + rewrite Z.eqb_eq. split; [intros ->; left; eauto|intros [(? & ? & ? & E)|(? & E)]; [injection E; auto|discriminate E]].
    + rewrite Z.eqb_eq. split; [intros ->; right; eauto|intros [(? & ? & ? & E)|(? & E)]; [discriminate E|injection E; auto]].
  - destruct x as [s n ty|j s n ty|b|j b|n]; try (split; [discriminate|intros (? & ? & E); discriminate E]).
    rewrite Z.eqb_eq. split; [intros ->; eauto|intros (? & ? & E); injection E; auto].
Qed.
Lemma patch_box_is o r b : image (padd o) (bleft r) (bbottom r) (bright r) (btop r) b <-> b = box_transform r (mkXf (px o) (py o) R0).
Proof.
  assert (I : image (padd o) (bleft r) (bbottom r) (bright r) (btop r) (box_transform r (mkXf (px o) (py o) R0))).
  { eapply image_ext; [|apply image_box_transform]. intros p. reflexivity. }
  split; [intros H; eapply image_unique; eauto|intros ->; exact I].
Qed.
Lemma fig_rects_spec f cut l b : In (cut, l, b) (fig_rects f) <-> fig_metal f cut l b.
Proof.
  destruct f as [l' p q w be ee|v|l' o r]; cbn [fig_rects fig_metal].
  - rewrite wire_box_is. split; [intros [E|[]]; injection E; intros; subst; auto|intros (-> & -> & ->); left; reflexivity].
  - rewrite !in_app_iff, !in_map_iff. split.
    + intros [(r & E & I)|[(r & E & I)|(r & E & I)]]; injection E as E1 E2 E3; exists r; rewrite patch_box_is; subst; auto 10.
    + intros (r & H & E). rewrite patch_box_is in E. destruct H as [(I & -> & ->)|[(I & -> & ->)|(I & -> & ->)]].
      * left. exists r. subst b. auto.
      * right. right. exists r. subst b. auto.
      * right. left. exists r. subst b. auto.
  - rewrite patch_box_is. split; [intros [E|[]]; injection E; intros; subst; auto|intros (-> & -> & ->); left; reflexivity].
Qed.

Section P.
Variable P : Type.
Variable mkpins : list (Z * box) -> list (Z * box) -> list (Z * box) -> list (Z * box) -> list P.
Variable isCut : Z -> bool.
Notation gnet := (gnet P). Notation gn_own := (gn_own P). Notation gn_pins := (gn_pins P). Notation upd := (upd P). Notation ensure := (ensure P).
Notation part := (part P). Notation add_rect := (add_rect P).

Definition own (ns : list gnet) : list gowner := map gn_own ns.
Definition hl (ns : list gnet) (fixed : bool) (o : gowner) (cut : bool) (l : Z) (b : box) : Prop :=
  exists n, In n ns /\ gn_own n = o /\ In (l, b) (part fixed cut n).

Lemma own_upd o f ns : (forall n, gn_own (f n) = gn_own n) -> own (upd o f ns) = own ns.
Proof. intros H. induction ns as [|n r IH]; [reflexivity|]. cbn. destruct (own_eqb _ _); cbn; [rewrite H; reflexivity|]. unfold own in IH. rewrite IH. reflexivity. Qed.
Lemma in_upd o f ns n : NoDup (own ns) -> (In n (upd o f ns) <-> In n ns /\ gn_own n <> o \/ exists m, In m ns /\ gn_own m = o /\ n = f m).
Proof.
  induction ns as [|m r IH]; cbn; intros ND; [split; [intros []|intros [[[] _]|(? & [] & _)]]|]. inversion ND as [|x l NI ND']; subst.
  destruct (own_eqb (gn_own m) o) eqn:E.
  - apply own_eqb_spec in E. cbn. split.
    + intros [<-|I]; [right; eauto|]. left. split; [auto|]. intros E2. apply NI. rewrite E, <- E2. apply in_map. exact I.
    + intros [[[<-|I] N]|(m' & [<-|I] & E2 & ->)]; [congruence|auto|auto|]. exfalso. apply NI. rewrite E, <- E2. apply in_map. exact I.
  - apply own_eqb_neq in E. cbn. rewrite (IH ND'). split.
    + intros [<-|[[I N]|(m' & I & E2 & ->)]]; [left; auto|left; auto|right; eauto].
    + intros [[[<-|I] N]|(m' & [<-|I] & E2 & ->)]; [auto|auto|congruence|right; right; eauto].
Qed.
Lemma in_own o ns : In o (own ns) <-> exists n, In n ns /\ gn_own n = o.
Proof. unfold own. rewrite in_map_iff. split; intros (n & A & B); eauto. Qed.
Lemma has_spec o ns : has P o ns = true <-> In o (own ns).
Proof. unfold has. rewrite existsb_exists, in_own. split; intros (n & A & B); exists n; (split; [exact A|apply own_eqb_spec; exact B]). Qed.
Lemma ensure_own o ns : NoDup (own ns) -> NoDup (own (ensure o ns)) /\ forall o', In o' (own (ensure o ns)) <-> In o' (own ns) \/ o' = o.
Proof.
  intros ND. unfold ensure, GiModel.ensure. destruct (has P o ns) eqn:E.
  - apply has_spec in E. split; [exact ND|]. intros o'. split; [auto|intros [H| ->]; auto].
  - assert (NI : ~ In o (own ns)) by (rewrite <- has_spec; congruence). unfold own in *. rewrite map_app. cbn. split.
    + apply (Permutation_NoDup (l := o :: map gn_own ns)); [apply Permutation_cons_append|constructor; auto].
    + intros o'. rewrite in_app_iff. cbn. intuition auto.
Qed.
Lemma ensure_hl o ns fixed o' cut l b : hl (ensure o ns) fixed o' cut l b <-> hl ns fixed o' cut l b.
Proof.
  unfold hl, ensure, GiModel.ensure. destruct (has P o ns); [tauto|]. split.
  - intros (n & I & E & H). apply in_app_or in I as [I|[<-|[]]]; [eauto|]. exfalso. destruct fixed, cut; exact H.
  - intros (n & I & E & H). exists n. rewrite in_app_iff. auto.
Qed.
Definition nopins (ns : list gnet) : Prop := forall n, In n ns -> gn_pins n = [].
Lemma ensure_nopins o ns : nopins ns -> nopins (ensure o ns).
Proof. intros H n. unfold ensure, GiModel.ensure. destruct (has P o ns); [apply H|]. intros I. apply in_app_or in I as [I|[<-|[]]]; [auto|reflexivity]. Qed.

Lemma add_rect_own fx ct l b n : gn_own (add_rect fx ct l b n) = gn_own n. Proof. reflexivity. Qed.
Lemma add_rect_part fx ct l0 b0 n fixed cut l b :
  In (l, b) (part fixed cut (add_rect fx ct l0 b0 n)) <-> In (l, b) (part fixed cut n) \/ fixed = fx /\ cut = ct /\ l = l0 /\ b = b0.
Proof.
  assert (X : forall ls : list (Z * box), In (l, b) (ls ++ [(l0, b0)]) <-> In (l, b) ls \/ l = l0 /\ b = b0).
  { intros ls. rewrite in_app_iff. cbn. split; [intros [H|[E|[]]]; [auto|injection E; auto]|intros [H|[-> ->]]; auto]. }
  destruct fx, ct, fixed, cut; cbn; rewrite ?X; intuition (auto; discriminate).
Qed.
Lemma upd_add_hl fx ct l0 b0 o ns fixed o' cut l b : NoDup (own ns) -> In o (own ns) ->
  hl (upd o (add_rect fx ct l0 b0) ns) fixed o' cut l b <-> hl ns fixed o' cut l b \/ o' = o /\ fixed = fx /\ cut = ct /\ l = l0 /\ b = b0.
Proof.
  intros ND IO. unfold hl. split.
  - intros (n & I & E & H). apply in_upd in I as [[I N]|(m & I & EM & ->)]; [left; eauto| |exact ND].
    apply add_rect_part in H as [H|H]; [left; exists m; rewrite add_rect_own in E; auto|right; rewrite add_rect_own in E; split; [congruence|exact H]].
  - intros [(n & I & E & H)|(-> & H)].
    + destruct (own_dec (gn_own n) o) as [EO|NO].
      * exists (add_rect fx ct l0 b0 n). split; [apply in_upd; eauto|split; [exact E|apply add_rect_part; auto]].
      * exists n. split; [apply in_upd; auto|auto].
    + apply in_own in IO as (m & I & E). exists (add_rect fx ct l0 b0 m). split; [apply in_upd; eauto|split; [exact E|apply add_rect_part; auto]].
Qed.
Lemma upd_nopins o f ns : (forall n, gn_pins (f n) = gn_pins n) -> nopins ns -> nopins (upd o f ns).
Proof. intros F. induction ns as [|m r IH]; intros H; [exact H|]. cbn. destruct (own_eqb _ _).
  - intros n [<-|I]; [rewrite F; apply H; left; reflexivity|apply H; right; exact I].
  - intros n [<-|I]; [apply H; left; reflexivity|]. apply IH; [|exact I]. intros k K. apply H. right. exact K. Qed.
(* what every step keeps *)
Definition good (ns : list gnet) : Prop := NoDup (own ns) /\ nopins ns.

(* ---- objects of the design ---- *)
Lemma init_objs_none fixed tg es : fold_left (fun (o : option (list gnet)) e => match o with None => None | Some ns => if keeps tg (snd e) then init_obj P isCut fixed ns e else Some ns end) es None = None.
Proof. induction es; [reflexivity|exact IHes]. Qed.
Lemma init_objs_spec fx tg es : forall ns ns', good ns -> init_objs P isCut fx tg es ns = Some ns' ->
  good ns' /\ (forall o, In o (own ns) -> In o (own ns')) /\
  forall fixed o cut l b, hl ns' fixed o cut l b <-> hl ns fixed o cut l b \/ fixed = fx /\ db_metal isCut tg es o cut l b.
Proof.
  induction es as [|[[l0 b0] x] es IH]; intros ns ns' G H.
  - unfold init_objs in H. cbn in H. injection H as <-. split; [exact G|split; [auto|]]. intros. split; [auto|]. intros [?|(_ & x & [] & _)]; auto.
  - unfold init_objs in H. cbn [fold_left snd] in H. destruct (keeps tg x) eqn:K.
    + cbn [init_obj] in H. destruct (owner_of x) as [o0|] eqn:EO; [|rewrite init_objs_none in H; discriminate H].
      destruct G as [ND NP]. destruct (ensure_own o0 ns ND) as [ND1 IN1].
      assert (IO : In o0 (own (ensure o0 ns))) by (apply IN1; auto).
      assert (G1 : good (upd o0 (add_rect fx (isCut l0) l0 b0) (ensure o0 ns))).
      { split; [rewrite own_upd; [exact ND1|reflexivity]|]. apply upd_nopins; [reflexivity|apply ensure_nopins; exact NP]. }
      destruct (IH _ _ G1 H) as (G2 & ON & HL). split; [exact G2|]. split.
      * intros o I. apply ON. rewrite own_upd by reflexivity. apply IN1. auto.
      * intros fixed o cut l b. rewrite HL, upd_add_hl by auto. rewrite ensure_hl. apply owner_of_spec in EO. apply keeps_spec in K. split.
        -- intros [[A|(-> & -> & -> & -> & ->)]|(-> & y & I & R)]; [auto| |].
           ++ right. split; [reflexivity|]. exists x. split; [left; reflexivity|auto].
           ++ right. split; [reflexivity|]. exists y. split; [right; exact I|exact R].
        -- intros [A|(-> & y & [E|I] & LA & BE & CE)]; [auto| |].
           ++ injection E as -> -> ->. left. right. assert (o = o0) by (apply owner_of_spec in EO, BE; congruence). auto.
           ++ right. split; [reflexivity|]. exists y. auto.
    + destruct (IH _ _ G H) as (G2 & ON & HL). split; [exact G2|]. split; [exact ON|]. intros fixed o cut l b. rewrite HL. split.
      * intros [A|(-> & y & I & R)]; [auto|]. right. split; [reflexivity|]. exists y. split; [right; exact I|exact R].
      * intros [A|(-> & y & [E|I] & LA & R)]; [auto| |].
        -- injection E as -> -> ->. apply keeps_spec in LA. congruence.
        -- right. split; [reflexivity|]. exists y. auto.
Qed.
Lemma init_objs_some fx tg es : forall ns, init_objs P isCut fx tg es ns <> None <-> forall l b x, In (l, b, x) es -> looked_at tg x -> x <> XShape None.
Proof.
  induction es as [|[[l0 b0] x] es IH]; intros ns; [split; [intros _ l b x []|discriminate]|].
  unfold init_objs. cbn [fold_left snd]. destruct (keeps tg x) eqn:K.
  - cbn [init_obj]. destruct (owner_of x) as [o|] eqn:EO.
    + unfold init_objs in IH. rewrite IH. split; intros H l b y.
      * intros [E|I] LA; [injection E as -> -> ->; intros ->; discriminate EO|eauto].
      * intros I LA. eapply H; [right; exact I|exact LA].
    + rewrite init_objs_none. split; [congruence|]. intros H. exfalso. apply (H l0 b0 x); [left; reflexivity|apply keeps_spec; exact K|].
      destruct x as [t [n|] ty|i t [n|] ty|b|i b|[n|]]; cbn in EO; try discriminate EO. reflexivity.
  - unfold init_objs in IH. rewrite IH. split; intros H l b y.
    + intros [E|I] LA; [injection E as -> -> ->; apply keeps_spec in LA; congruence|eauto].
    + intros I LA. eapply H; [right; exact I|exact LA].
Qed.

(* ---- figures of the clip ---- *)
Lemma rects_spec o rs : forall ns, NoDup (own ns) -> In o (own ns) ->
  let ns' := fold_left (fun ns r => upd o (add_rect false (fst (fst r)) (snd (fst r)) (snd r)) ns) rs ns in
  own ns' = own ns /\ forall fixed o' cut l b, hl ns' fixed o' cut l b <-> hl ns fixed o' cut l b \/ fixed = false /\ o' = o /\ In (cut, l, b) rs.
Proof.
  induction rs as [|[[ct l0] b0] rs IH]; intros ns ND IO; [cbn; split; [reflexivity|intros; tauto]|]. cbn [fold_left fst snd].
  assert (OU : own (upd o (add_rect false ct l0 b0) ns) = own ns) by (apply own_upd; reflexivity).
  destruct (IH (upd o (add_rect false ct l0 b0) ns)) as [A B]; [rewrite OU; exact ND|rewrite OU; exact IO|]. cbv zeta in A, B. cbv zeta. rewrite A, OU. split; [reflexivity|].
  intros fixed o' cut l b. rewrite B, upd_add_hl by assumption. cbn [In]. split.
  - intros [[H|(-> & -> & -> & -> & ->)]|(-> & -> & I)]; auto.
  - intros [H|(-> & -> & [E|I])]; [auto| |auto]. injection E as -> -> ->. auto 10.
Qed.
Lemma fig_own o f : forall ns, own (init_fig P o ns f) = own ns.
Proof. unfold init_fig. induction (fig_rects f) as [|r rs IH]; intros ns; [reflexivity|]. cbn [fold_left]. rewrite IH. apply own_upd. reflexivity. Qed.
Lemma fig_pins o f : forall ns, map (fun n => (gn_own n, gn_pins n)) (init_fig P o ns f) = map (fun n => (gn_own n, gn_pins n)) ns.
Proof.
  unfold init_fig. induction (fig_rects f) as [|r rs IH]; intros ns; [reflexivity|]. cbn [fold_left]. rewrite IH. clear.
  induction ns as [|n ns IH]; [reflexivity|]. cbn. destruct (own_eqb _ _); cbn; [reflexivity|rewrite IH; reflexivity].
Qed.
Lemma figs_spec o fs : forall ns, NoDup (own ns) -> In o (own ns) ->
  let ns' := fold_left (init_fig P o) fs ns in
  own ns' = own ns /\ map (fun n => (gn_own n, gn_pins n)) ns' = map (fun n => (gn_own n, gn_pins n)) ns /\
  forall fixed o' cut l b, hl ns' fixed o' cut l b <-> hl ns fixed o' cut l b \/ fixed = false /\ o' = o /\ exists f, In f fs /\ fig_metal f cut l b.
Proof.
  induction fs as [|f fs IH]; intros ns ND IO.
  - cbn. split; [reflexivity|split; [reflexivity|]]. intros. split; [auto|]. intros [H|(_ & _ & f & [] & _)]; auto.
  - cbn [fold_left]. destruct (IH (init_fig P o ns f)) as (A & C & B); [rewrite fig_own; exact ND|rewrite fig_own; exact IO|]. cbv zeta in A, B, C. cbv zeta.
    rewrite A, C, fig_own, fig_pins. split; [reflexivity|split; [reflexivity|]]. intros fixed o' cut l b. rewrite B.
    unfold init_fig at 1. rewrite (proj2 (rects_spec o (fig_rects f) ns ND IO)). split.
    + intros [[H|(-> & -> & I)]|(-> & -> & g & I & M)]; [auto| |].
      * right. split; [auto|split; [auto|]]. exists f. split; [left; reflexivity|]. apply fig_rects_spec. exact I.
      * right. split; [auto|split; [auto|]]. exists g. split; [right; exact I|exact M].
    + intros [H|(-> & -> & g & [<-|I] & M)]; [auto| |].
      * left. right. split; [auto|split; [auto|]]. apply fig_rects_spec. exact M.
      * right. split; [auto|split; [auto|]]. exists g. auto.
Qed.
Lemma nopins_map ns ns' : map (fun n => (gn_own n, gn_pins n)) ns = map (fun n => (gn_own n, gn_pins n)) ns' -> nopins ns' -> nopins ns.
Proof. intros E H n I. apply (in_map (fun n => (gn_own n, gn_pins n))) in I. rewrite E in I. apply in_map_iff in I as (m & EQ & I). injection EQ as _ <-. auto. Qed.
Lemma worker_spec W : forall ns, good ns ->
  let ns' := fold_left (init_wnet P) W ns in
  good ns' /\ (forall o, In o (own ns') <-> In o (own ns) \/ exists N, In N W /\ o = GNet (wn_net N)) /\
  forall fixed o cut l b, hl ns' fixed o cut l b <-> hl ns fixed o cut l b \/ fixed = false /\ clip_metal W o cut l b.
Proof.
  induction W as [|N W IH]; intros ns G.
  - cbn. split; [exact G|]. split; [intros o; split; [auto|intros [H|(N & [] & _)]; auto]|]. intros. split; [auto|]. intros [H|(_ & N & f & [] & _)]; auto.
  - cbn [fold_left]. destruct G as [ND NP]. destruct (ensure_own (GNet (wn_net N)) ns ND) as [ND1 IN1].
    destruct (figs_spec (GNet (wn_net N)) (wn_ext N ++ wn_route N) (ensure (GNet (wn_net N)) ns) ND1) as (A & C & B); [apply IN1; auto|]. cbv zeta in A, B, C.
    assert (G1 : good (init_wnet P ns N)). { split; [unfold init_wnet; rewrite A; exact ND1|]. eapply nopins_map; [exact C|apply ensure_nopins; exact NP]. }
    destruct (IH _ G1) as (G2 & ON & HL). cbv zeta. split; [exact G2|]. split.
    + intros o. rewrite ON. unfold init_wnet at 1. rewrite A, IN1. split.
      * intros [[H| ->]|(M & I & ->)]; [auto|right; exists N; cbn; auto|right; exists M; cbn; auto].
      * intros [H|(M & [<-|I] & ->)]; [auto|auto|right; eauto].
    + intros fixed o cut l b. rewrite HL. unfold init_wnet at 1. rewrite B, ensure_hl. unfold clip_metal. split.
      * intros [[H|(-> & -> & f & I & M)]|(-> & M & f & I & R)]; [auto| |].
        -- right. split; [auto|]. exists N, f. cbn. auto.
        -- right. split; [auto|]. exists M, f. cbn. auto.
      * intros [H|(-> & M & f & [<-|I] & EO & IF & R)]; [auto| |].
        -- left. right. split; [auto|split; [exact EO|]]. exists f. auto.
        -- right. split; [auto|]. exists M, f. auto.
Qed.

(* ---- set-up ---- *)
Lemma start_good : good [new_net P GVss; new_net P GVdd].
Proof. split; [cbn; repeat constructor; cbn; intuition discriminate|]. intros n [<-|[<-|[]]]; reflexivity. Qed.
Lemma start_hl fixed o cut l b : ~ hl [new_net P GVss; new_net P GVdd] fixed o cut l b.
Proof. intros (n & [<-|[<-|[]]] & _ & H); destruct fixed, cut; exact H. Qed.
Lemma number_snd A (l : list A) k : map snd (number k l) = l.
Proof. revert k. induction l as [|x l IH]; intros k; [reflexivity|]. cbn. rewrite IH. reflexivity. Qed.
Lemma rq_entries_pairs n : map (fun e : rqentry P => (fst (fst e), snd e)) (rq_entries P n) = map (fun p => (gn_own n, p)) (gn_pins n).
Proof. unfold rq_entries. rewrite map_map. cbn. rewrite <- (number_snd _ (gn_pins n) 0) at 2. rewrite map_map. reflexivity. Qed.
Lemma map_flat_map_pairs ns : map (fun e : rqentry P => (fst (fst e), snd e)) (flat_map (rq_entries P) ns) = flat_map (fun n => map (fun p => (gn_own n, p)) (gn_pins n)) ns.
Proof. induction ns as [|n ns IH]; [reflexivity|]. cbn [flat_map]. rewrite map_app, IH, rq_entries_pairs. reflexivity. Qed.
Lemma init_pins_hl ns fixed o cut l b : hl (map (init_pins P mkpins) ns) fixed o cut l b <-> hl ns fixed o cut l b.
Proof.
  unfold hl. split.
  - intros (n & I & E & H). apply in_map_iff in I as (m & <- & I). exists m. split; [exact I|split; [exact E|destruct fixed, cut; exact H]].
  - intros (n & I & E & H). exists (init_pins P mkpins n). split; [apply in_map; exact I|split; [exact E|destruct fixed, cut; exact H]].
Qed.
End P.
