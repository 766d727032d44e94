(* C142: fixed metal of the design and the index of it. *)
From Verif Require Import Base GeomModel GeomSpec GeomProofs FmModel FmSpec FmProofs FmProofs2.
From Coq Require Import String.
From Coq Require Import List.
Open Scope list_scope.

Lemma metal_normalised lay lib cs ps ss bs nl l b o : layers_in lay ss nl -> metal lay lib cs ps ss bs l b o -> normalised b.
Proof.
  intros [_ LI] H. destruct H as [i c m j P port n x1 y1 x2 y2 NC M NP IP RO L (v & _ & N & _)|i c m j its n x1 y1 x2 y2 NC M NP RO L (v & _ & N & _)|j P n x1 y1 x2 y2 NP IR L [N _]|k N j p q w be ee NN NS WB|k N j NN NS|k N j v f NN NV HF [NO _]|j B n x1 y1 x2 y2 NB DL L IR [N _]]; auto.
  - unfold wire_box in WB. destruct (_ =? _); exact (proj1 WB).
  - destruct (LI N (nth_error_In _ _ NN)) as [A _]. exact (proj2 (A _ (nth_error_In _ _ NS))).
Qed.

(* a query of the fixed shapes on a layer finds exactly the rectangles of metal of the LEF and DEF files, placed on
   the die, that touch the queried box, each with the pin, obstruction, wire, via or blockage it belongs to *)
Theorem C142_index_exact : forall lay nl lib cs ps ss bs D ix q l b o,
  origin_ok lib cs -> layers_in lay ss nl -> read_design lay lib cs ps ss bs = Some D -> init nl D = Some ix -> normalised q ->
  (In (b, o) (query ix q l) <-> metal lay lib cs ps ss bs l b o /\ exists p, in_box p b /\ in_box p q).
Proof.
  intros lay nl lib cs ps ss bs D ix q l b o OZ LI RD IN NQ.
  assert (EX : ix = entries D) by (unfold init in IN; destruct (forallb _ _); [injection IN as <-; reflexivity|discriminate IN]). subst ix.
  unfold query. rewrite in_map_iff. split.
  - intros ([[l' b'] o'] & E & H). cbn in E. injection E as -> ->. apply filter_In in H as [H F]. cbn [fst snd] in F. apply andb_true_iff in F as [F1 F2]. apply Z.eqb_eq in F1. subst l'.
    apply (entries_metal lay lib cs ps ss bs D RD OZ) in H. split; [exact H|]. apply overlaps_inc_spec; auto. eapply metal_normalised; eauto.
  - intros [H T]. exists (l, b, o). split; [reflexivity|]. apply filter_In. split; [apply (entries_metal lay lib cs ps ss bs D RD OZ); exact H|].
    cbn [fst snd]. rewrite Z.eqb_refl. apply overlaps_inc_spec; auto. eapply metal_normalised; eauto.
Qed.
Print Assumptions C142_index_exact.

(* the index can always be built *)
Theorem C142_index_built : forall lay nl lib cs ps ss bs D,
  origin_ok lib cs -> layers_in lay ss nl -> read_design lay lib cs ps ss bs = Some D -> init nl D <> None.
Proof.
  intros lay nl lib cs ps ss bs D OZ [LI SI] RD. unfold init. destruct (forallb _ _) eqn:F; [discriminate|]. exfalso.
  assert (X : forallb (fun e => (0 <=? fst (fst e)) && (fst (fst e) <? nl)) (entries D) = true); [|congruence].
  apply forallb_forall. intros [[l b] o] H. cbn [fst snd]. apply (entries_metal lay lib cs ps ss bs D RD OZ) in H.
  assert (0 <= l < nl); [|apply andb_true_iff; rewrite Z.leb_le, Z.ltb_lt; lia].
  destruct H as [i c m j P port n x1 y1 x2 y2 NC M NP IP RO L PL|i c m j its n x1 y1 x2 y2 NC M NP RO L PL|j P n x1 y1 x2 y2 NP IR L IM|k N j p q w be ee NN NS WB|k N j NN NS|k N j v f NN NV HF IM|j B n x1 y1 x2 y2 NB DL L IR IM]; eauto;
    destruct (SI N (nth_error_In _ _ NN)) as [A V].
  - exact (A _ (nth_error_In _ _ NS)).
  - exact (proj1 (A _ (nth_error_In _ _ NS))).
  - destruct (V v (nth_error_In _ _ NV)) as (V1 & V2 & V3). destruct HF as [[_ ->]|[[_ ->]|[_ ->]]]; assumption.
Qed.
Print Assumptions C142_index_built.

(* files are refused exactly if a USE is unknown, a component's macro is missing, two components have one name, or a
   DEF pin has several ports or a shape on an unknown layer *)
Lemma use_spec u : use_ok u = true <-> known_use u.
Proof.
  unfold use_ok, known_use. destruct u as [s|]; [|split; auto]. rewrite !orb_true_iff, !String.eqb_eq. split.
  - intros H. right. exists s. split; [reflexivity|]. cbn. intuition auto.
  - intros [H|(s' & E & H)]; [discriminate H|]. injection E as <-. cbn in H. intuition auto.
Qed.
Theorem C142_refuses : forall lay lib cs ps ss bs, read_design lay lib cs ps ss bs <> None <-> readable lay lib cs ps.
Proof.
  intros lay lib cs ps ss bs. unfold readable.
  assert (A : omap (read_macro lay) lib <> None <-> (forall m P, In m lib -> In P (lm_pins m) -> known_use (lp_use P))).
  { rewrite omap_none. split.
    - intros H m P IM IP. specialize (H m IM). unfold read_macro in H. destruct (forallb _ _) eqn:F; [|congruence]. rewrite forallb_forall in F. apply use_spec. auto.
    - intros H m IM. unfold read_macro. rewrite (proj2 (forallb_forall _ (lm_pins m))); [discriminate|]. intros P IP. apply use_spec. eauto. }
  assert (B : forall P, read_dpin lay P <> None <-> known_use (dp_use P) /\ dp_port P = false /\ (forall n r, In (n, r) (dp_rects P) -> lay n <> None) /\ (forall n r, In (n, r) (dp_polys P) -> lay n <> None)).
  { intros P. unfold read_dpin. rewrite <- use_spec. destruct (use_ok (dp_use P)); cbn [negb orb]; [|split; [congruence|intros [H _]; discriminate H]].
    destruct (dp_port P); [split; [congruence|intros (_ & H & _); discriminate H]|].
    match goal with |- context [omap ?f1 (dp_rects P)] => match goal with |- context [omap ?f2 (dp_polys P)] =>
      pose proof (omap_none f1 (dp_rects P)) as O1; pose proof (omap_none f2 (dp_polys P)) as O2; destruct (omap f1 (dp_rects P)) eqn:E1; destruct (omap f2 (dp_polys P)) eqn:E2 end end.
    - split; [|discriminate]. intros _. split; [reflexivity|split; [reflexivity|split; intros n r I N]].
      + apply (proj1 O1 ltac:(discriminate) _ I). cbn. rewrite N. reflexivity.
      + apply (proj1 O2 ltac:(discriminate) _ I). cbn. rewrite N. reflexivity.
    - split; [congruence|]. intros (_ & _ & _ & H). apply O2. intros [n r] I. specialize (H n r I). cbn. destruct (lay n); congruence.
    - split; [congruence|]. intros (_ & _ & H & _). apply O1. intros [n [[[x1 y1] x2] y2]] I. specialize (H n _ I). cbn. destruct (lay n); congruence.
    - split; [congruence|]. intros (_ & _ & H & _). apply O1. intros [n [[[x1 y1] x2] y2]] I. specialize (H n _ I). cbn. destruct (lay n); congruence. }
  assert (C : omap (read_dpin lay) ps <> None <-> forall P, In P ps -> known_use (dp_use P) /\ dp_port P = false /\ (forall n r, In (n, r) (dp_rects P) -> lay n <> None) /\ (forall n r, In (n, r) (dp_polys P) -> lay n <> None)).
  { rewrite omap_none. split; intros H P I; apply B; auto. }
  rewrite <- A, <- C. unfold read_design. destruct (omap (read_macro lay) lib) as [rl|] eqn:EL; [|split; [congruence|intros [H _]; congruence]].
  assert (F : forall n, find_block rl n <> None <-> exists m, In m lib /\ lm_name m = n).
  { intros n. split.
    - intros H. destruct (find_block rl n) as [b|] eqn:E; [|congruence]. apply (find_block_spec lay lib rl n b EL) in E as (m & (l1 & l2 & -> & N & _) & _). exists m. split; [apply in_elt|exact N].
    - intros (m & I & N) E. apply find_block_none with (1 := E) (b := match read_macro lay m with Some b => b | None => mkRB "" (mkBox (mkPt 0 0) (mkPt 0 0)) [] [] end).
      + pose proof (proj1 (omap_none (read_macro lay) lib) ltac:(congruence) m I) as X. destruct (read_macro lay m) as [b|] eqn:R; [|congruence]. apply (omap_in _ _ _ _ EL). eauto.
      + pose proof (proj1 (omap_none (read_macro lay) lib) ltac:(congruence) m I) as X. destruct (read_macro lay m) as [b|] eqn:R; [|congruence]. rewrite (rb_name_read lay m b R). exact N. }
  pose proof (read_comps_none rl cs []) as RC. destruct (read_comps rl [] cs) as [il|].
  - destruct (proj1 RC ltac:(discriminate)) as (R1 & R2 & _). destruct (omap (read_dpin lay) ps).
    + split; [|discriminate]. intros _. split; [discriminate|]. split; [intros c I; apply F; auto|]. split; [exact R2|discriminate].
    + split; [congruence|]. intros (_ & _ & _ & H). congruence.
  - split; [congruence|]. intros (_ & H1 & H2 & _). exfalso. apply (proj2 RC); [|reflexivity]. split; [intros c I; apply F; auto|]. split; [exact H2|]. intros c _ [].
Qed.
Print Assumptions C142_refuses.

(* ---- a design: a cell with a pin and an obstruction, placed twice ---- *)
Definition fm_lay (n : string) : option Z := if (n =? "M1")%string then Some 2 else if (n =? "M2")%string then Some 4 else None.
Definition fm_cell (ox : Z) : lmacro :=
  mkLM "INV" ox 0 40 20 [mkLP "A" (Some "SIGNAL"%string) [[LLayer "OVL"; LRect 0 0 1 1; LLayer "M1"; LRect 5 5 15 10; LPoly [mkPt 20 0; mkPt 30 0; mkPt 30 10; mkPt 20 10]]]]
       [[LLayer "M1"; LRect 0 15 40 20; LMinSpc 3; LLayer "M2"; LRect 0 0 5 5]].
Definition fm_comps : list dcomp := [mkDC "u1" "INV" 100 200 R0; mkDC "u2" "INV" 300 400 MYR90].
Definition fm_pins : list dpin := [mkDP None false 50 60 R90 [("M2"%string, ((-5), 0, 5, 20))] []].
Definition fm_snets : list snet := [mkSN [SSeg 2 (mkPt 0 0) (mkPt 100 0) 10 0 5] [mkSV (mkPt 70 0) 2 4 3 [mkBox (mkPt (-5) (-5)) (mkPt 5 5)] [mkBox (mkPt (-6) (-4)) (mkPt 6 4)] [mkBox (mkPt (-2) (-2)) (mkPt 2 2)]]].
Definition fm_blks : list dblk := [mkDB (Some "M2"%string) true false [(0, 0, 9, 9)] []; mkDB (Some "M2"%string) false false [(90, 90, 80, 80)] []; mkDB None false true [(0, 0, 9, 9)] []].
Definition fm_read (ox : Z) : option fdesign := read_design fm_lay [fm_cell ox] fm_comps fm_pins fm_snets fm_blks.
Definition fm_ix (ox : Z) : list (Z * box * owner) := match fm_read ox with Some D => entries D | None => [] end.
Lemma fm_layers : layers_in fm_lay fm_snets 5.
Proof.
  split.
  - intros n l. unfold fm_lay. destruct (_ =? _)%string; [intros E; injection E as <-; lia|]. destruct (_ =? _)%string; intros E; [injection E as <-; lia|discriminate E].
  - intros N [<-|[]]. split; [intros s [<-|[]]; cbn; lia|intros v [<-|[]]; cbn; lia].
Qed.
Example C142_ex :
  (exists D, fm_read 10 = Some D /\ init 5 D = Some (fm_ix 10)) /\ origin_ok [fm_cell 10] fm_comps /\ layers_in fm_lay fm_snets 5 /\
  query (fm_ix 10) (box_set 0 0 1000 1000) 2 =
    [(box_set 115 205 125 210, OInstTerm 0 0); (box_set 110 215 150 220, OInstBlk 0 0);
     (box_set 310 415 315 425, OInstTerm 1 0); (box_set 300 390 305 430, OInstBlk 1 0);
     (box_set 0 (-5) 105 5, OShape 0 0); (box_set 65 (-5) 75 5, OVia 0 0)] /\
  query (fm_ix 10) (box_set 20 0 100 100) 4 =
    [(box_set 30 55 50 65, OTerm 0); (box_set 64 (-4) 76 4, OVia 0 0); (box_set 80 80 90 90, OBlk 0)].
Proof.
  split; [eexists; split; reflexivity|]. split.
  - intros c m _ ([|x l1] & l2 & E & _); cbn [app] in E; [injection E as <- _; cbn; lia|destruct l1; discriminate E].
  - split; [apply fm_layers|]. split; reflexivity.
Qed.

(* REFUTED: all metal of the files is in the index.  A polygon of a pin is read but left out of the index. *)
Theorem C142_polygons_refuted : exists lay lib cs D ix c m P port pts l n q,
  origin_ok lib cs /\ layers_in lay [] 5 /\ read_design lay lib cs [] [] [] = Some D /\ init 5 D = Some ix /\
  In c cs /\ macro_of lib (dc_macro c) m /\ In P (lm_pins m) /\ In port (lp_ports P) /\ port = [LLayer n; LPoly pts] /\ lay n = Some l /\
  dc_ori c = R0 /\ solid q /\ (forall p, In p pts -> in_box (padd (mkPt (dc_x c) (dc_y c)) p) q) /\ query ix q l = [].
Proof.
  set (pts := [mkPt 20 0; mkPt 30 0; mkPt 30 10; mkPt 20 10]).
  set (m := mkLM "INV" 0 0 40 20 [mkLP "A" None [[LLayer "M1"; LPoly pts]]] []). set (c := mkDC "u1" "INV" 100 200 R0).
  exists fm_lay, [m], [c].
  eexists _, _, c, m, (mkLP "A" None [[LLayer "M1"; LPoly pts]]), [LLayer "M1"; LPoly pts], pts, 2, "M1"%string, (box_set 110 190 140 220).
  split; [|split; [|split; [reflexivity|split; [reflexivity|split; [left; reflexivity|split; [|split; [left; reflexivity|split; [left; reflexivity|split; [reflexivity|split; [reflexivity|split; [reflexivity|split; [|split; [|reflexivity]]]]]]]]]]]]].
  - intros c' m' _ ([|x l1] & l2 & E & _); cbn [app] in E; [injection E as <- _; cbn; lia|destruct l1; discriminate E].
  - split; [exact (proj1 fm_layers)|intros N []].
  - exists [], []. split; [reflexivity|split; [reflexivity|intros m' []]].
  - unfold solid. cbn. lia.
  - intros p I. unfold in_box. cbn in I. destruct I as [<-|[<-|[<-|[<-|[]]]]]; cbn; lia.
Qed.
Print Assumptions C142_polygons_refuted.

(* REFUTED: metal is where the files place it when a macro's ORIGIN is beyond its SIZE. *)
Theorem C142_origin_refuted : exists lay lib cs D ix l b o q,
  layers_in lay [] 5 /\ read_design lay lib cs [] [] [] = Some D /\ init 5 D = Some ix /\
  (forall m, In m lib -> 0 < lm_sx m < lm_ox m /\ lm_oy m = 0 /\ 0 < lm_sy m) /\
  metal lay lib cs [] [] [] l b o /\ normalised q /\ (exists p, in_box p b /\ in_box p q) /\ ~ In (b, o) (query ix q l).
Proof.
  set (m := fm_cell 50). set (c := mkDC "u1" "INV" 100 200 R0).
  exists fm_lay, [m], [c]. eexists _, _, 2, (box_set 155 205 165 210), (OInstTerm 0 0), (box_set 0 0 1000 1000).
  split; [split; [exact (proj1 fm_layers)|intros N []]|]. split; [reflexivity|]. split; [reflexivity|].
  split; [intros m' [<-|[]]; cbn; lia|]. split.
  - eapply (metal_pin _ _ _ _ _ _ 2 _ 0 c m 0) with (n := "M1"%string) (x1 := 5) (y1 := 5) (x2 := 15) (y2 := 10).
    + reflexivity.
    + exists [], []. split; [reflexivity|split; [reflexivity|intros m' []]].
    + reflexivity.
    + left. reflexivity.
    + exists [LLayer "OVL"; LRect 0 0 1 1], [], [LPoly [mkPt 20 0; mkPt 30 0; mkPt 30 10; mkPt 20 10]]. split; [reflexivity|intros m' []].
    + reflexivity.
    + exists (mkPt 150 200). split.
      * intros [x y]. unfold in_box, padd. cbn -[Z.add Z.sub Z.opp Z.min Z.max Z.le]. split.
        -- intros H. exists (mkPt (x - 150) (y - 200)). cbn -[Z.add Z.sub Z.opp Z.min Z.max Z.le]. split; [lia|f_equal; lia].
        -- intros ([a b] & H & E). cbn -[Z.add Z.sub Z.opp Z.min Z.max Z.le] in *. pose proof (f_equal px E) as E1; pose proof (f_equal py E) as E2; cbn [px py] in E1, E2; lia.
      * split; [unfold normalised; cbn; lia|]. intros [x y]. unfold in_box, padd, between. cbn -[Z.add Z.sub Z.opp Z.min Z.max Z.le]. split.
        -- intros H. exists (mkPt (x - 150) (y - 200)). cbn -[Z.add Z.sub Z.opp Z.min Z.max Z.le]. split; [lia|]. split; [lia|f_equal; lia].
        -- intros ([a b] & H1 & H2 & E). cbn -[Z.add Z.sub Z.opp Z.min Z.max Z.le] in *. pose proof (f_equal px E) as E1; pose proof (f_equal py E) as E2; cbn [px py] in E1, E2; lia.
  - split; [unfold normalised; cbn; lia|]. split; [exists (mkPt 160 207); unfold in_box; cbn; lia|].
    vm_compute. intros H. repeat (destruct H as [H|H]; [discriminate H|]). destruct H.
Qed.
Print Assumptions C142_origin_refuted.

(* REFUTED: every routing blockage of the DEF is in the index.  One with an attribute (SPACING, DESIGNRULEWIDTH,
   EXCEPTPGNET, a component, ...) is skipped. *)
Theorem C142_blockage_attributes_refuted : exists lay bs D ix B l n r q,
  layers_in lay [] 5 /\ read_design lay [] [] [] [] bs = Some D /\ init 5 D = Some ix /\
  bs = [B] /\ db_layer B = Some n /\ lay n = Some l /\ db_place B = false /\ db_rects B = [r] /\ r = (0, 0, 9, 9) /\ q = box_set 0 0 9 9 /\ query ix q l = [].
Proof.
  exists fm_lay, [mkDB (Some "M2"%string) true false [(0, 0, 9, 9)] []]. eexists _, _, _, 4, _, _, _.
  split; [split; [exact (proj1 fm_layers)|intros N []]|]. repeat (split; [reflexivity|]). reflexivity.
Qed.
Print Assumptions C142_blockage_attributes_refuted.
