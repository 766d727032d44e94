(* Property C143: the checker of a clip works on exactly the current metal. *)
From Verif Require Import Base GeomModel GeomSpec FmModel FmSpec GiModel GiSpec GiProofs GiProofs2 GiProofs3.
From Coq Require Import List Permutation.
Open Scope list_scope.

(* set-up, for a clip and for pin access: exactly the metal of the design around, and the clip's own *)
Theorem C143_setup (P : Type) (mkpins : list (Z * box) -> list (Z * box) -> list (Z * box) -> list (Z * box) -> list P) isCut ignore tg fixed routed W s :
  gc_init P mkpins isCut ignore tg fixed routed W = Some s ->
  sound P mkpins s /\
  (forall o cut l b, held P s true o cut l b <-> ignore = false /\ db_metal isCut tg fixed o cut l b) /\
  (forall o cut l b, held P s false o cut l b <->
     match W with Some W => clip_metal W o cut l b | None => ignore = false /\ db_metal isCut tg routed o cut l b end).
Proof.
  intros E. destruct (gc_init_spec P mkpins isCut _ _ _ _ _ _ E) as (I & T & F & _). split; [apply (inv_sound P mkpins); exact I|]. split; [exact T|exact F].
Qed.
Print Assumptions C143_setup.

(* it exits iff a wire without a net is looked at *)
Theorem C143_setup_refuses (P : Type) (mkpins : list (Z * box) -> list (Z * box) -> list (Z * box) -> list (Z * box) -> list P) isCut ignore tg fixed routed W :
  gc_init P mkpins isCut ignore tg fixed routed W <> None <->
  (ignore = false -> forall l b x, In (l, b, x) (fixed ++ match W with None => routed | Some _ => [] end) -> looked_at tg x -> x <> XShape None).
Proof. apply gc_init_some. Qed.
Print Assumptions C143_setup_refuses.

(* after any history of reroutes and checks the checker has exactly the metal of the design and of the clip as it is
   now, as if set up again; and each net has the route it was given last, with patches only for the special node *)
Theorem C143_history (P : Type) (mkpins : list (Z * box) -> list (Z * box) -> list (Z * box) -> list (Z * box) -> list P) isCut gf14 tg fixed routed W s ss :
  gc_init P mkpins isCut false tg fixed routed (Some W) = Some s ->
  Forall (step_ok gf14 (length W)) ss ->
  exists c, crun P mkpins gf14 (mkCS P W s []) ss = Some c /\
    current P mkpins isCut tg fixed (cs_W P c) (cs_gc P c) /\
    (exists s', gc_init P mkpins isCut false tg fixed routed (Some (cs_W P c)) = Some s' /\
       forall fx o cut l b, held P (cs_gc P c) fx o cut l b <-> held P s' fx o cut l b) /\
    length (cs_W P c) = length W /\
    forall j N, nth_error W j = Some N -> exists N' ps, nth_error (cs_W P c) j = Some N' /\ wn_net N' = wn_net N /\ wn_ext N' = wn_ext N /\
      wn_route N' = last_route j ss (wn_route N) ++ ps /\ Forall isPatch ps /\ (gf14 = false -> ps = []).
Proof.
  intros E SO. destruct (gc_init_spec P mkpins isCut _ _ _ _ _ _ E) as (I & T & F & O).
  assert (A : allright P mkpins isCut gf14 tg fixed (mkCS P W s [])).
  { split; [|split; [reflexivity|intros o cut l b (p & n & [] & _)]]. split; [exact I|]. cbn [cs_W cs_gc]. split; [intros N IN; apply (O W N eq_refl IN)|]. split.
    - intros. rewrite T. tauto.
    - intros o cut l b _. apply F. }
  destruct (run_spec P mkpins isCut gf14 tg fixed ss _ A SO) as (c & EC & AC & L). exists c. split; [exact EC|].
  pose proof (allright_current P mkpins isCut gf14 tg fixed c AC) as CU. split; [exact CU|]. split.
  - assert (X : gc_init P mkpins isCut false tg fixed routed (Some (cs_W P c)) <> None).
    { apply gc_init_some. apply (gc_init_some P mkpins isCut false tg fixed routed (Some W)). rewrite E. discriminate. }
    destruct (gc_init P mkpins isCut false tg fixed routed (Some (cs_W P c))) as [s'|] eqn:E'; [|exfalso; apply X; reflexivity].
    exists s'. split; [reflexivity|]. destruct (C143_setup P mkpins isCut _ _ _ _ _ _ E') as (_ & T' & F'). destruct CU as (_ & T2 & F2).
    intros fx o cut l b. destruct fx; [rewrite T2, T'; tauto|rewrite F2, F'; reflexivity].
  - split; [exact L|]. apply (run_becomes P mkpins gf14 ss (mkCS P W s []) c (fun _ => eq_refl) EC).
Qed.
Print Assumptions C143_history.

(* the special node: patches found by the check at the begin are in the checker but not in the clip *)
Definition ex_pins (a b c d : list (Z * box)) : list (Z * box) := a ++ b ++ c ++ d.
Definition ex_box (a b c d : Z) : box := mkBox (mkPt a b) (mkPt c d).
Definition ex_cut (l : Z) : bool := l =? 3.
Theorem C143_recheck_patches_refuted :
  exists W s found c, gc_init _ ex_pins ex_cut false None [] [] (Some W) = Some s /\
    crun _ ex_pins true (mkCS _ W s []) [SRecheck found] = Some c /\ cs_W _ c = W /\
    ~ current _ ex_pins ex_cut None [] (cs_W _ c) (cs_gc _ c).
Proof.
  exists [mkWN 7 [] [WSeg 10 (mkPt 0 0) (mkPt 100 0) 20 10 10]].
  eexists _, [(0%nat, 10, mkPt 50 0, ex_box (-10) (-30) 10 30)], _. split; [vm_compute; reflexivity|]. split; [vm_compute; reflexivity|]. split; [reflexivity|].
  intros (_ & _ & F). destruct (proj1 (F (GNet 7) false 10 (ex_box 40 (-30) 60 30))) as (N & f & [<-|[]] & _ & [<-|[]] & M).
  - eexists. split; [right; right; left; reflexivity|]. split; [reflexivity|]. right. left. reflexivity.
  - apply fig_rects_spec in M as [M|[]]. discriminate M.
Qed.
Print Assumptions C143_recheck_patches_refuted.

(* a cell pin of net 7, a floating supply pin and an obstruction around; two nets in the clip, net 7 rerouted through
   layers 2, 3 and 4, net 8 moved, net 7 rerouted again *)
Definition ex_via (x y : Z) : wfig := WVia (mkSV (mkPt x y) 2 4 3 [ex_box (-5) (-5) 5 5] [ex_box (-6) (-4) 6 4] [ex_box (-3) (-3) 3 3]).
Definition ex_fixed : list (Z * box * gobj) :=
  [(2, ex_box 0 0 10 10, XInstTerm 1 1 (Some 7) TOther); (2, ex_box 500 0 510 90, XInstTerm 1 2 None TPower); (4, ex_box 30 30 60 60, XBlk 5); (3, ex_box 1 1 4 4, XShape (Some 9))].
Definition ex_W : list wnet := [mkWN 7 [WSeg 2 (mkPt (-50) 5) (mkPt 0 5) 10 0 0] [WSeg 2 (mkPt 0 5) (mkPt 90 5) 10 0 0]; mkWN 8 [] [WSeg 4 (mkPt 5 100) (mkPt 5 200) 10 5 5]].
Definition ex_steps : list cstep :=
  [SRecheck []; SReroute 0 [ex_via 0 5; WSeg 4 (mkPt 0 5) (mkPt 90 5) 10 0 0] []; SCheck; SReroute 1 [WSeg 4 (mkPt 5 150) (mkPt 5 250) 10 5 5] []; SReroute 0 [WSeg 2 (mkPt 0 5) (mkPt 0 50) 10 0 0] []; SLast []].
Example C143_ex :
  exists s c, gc_init _ ex_pins ex_cut false None ex_fixed [] (Some ex_W) = Some s /\ Forall (step_ok false (length ex_W)) ex_steps /\
    crun _ ex_pins false (mkCS _ ex_W s []) ex_steps = Some c /\
    map (fun N => length (wn_route N)) (cs_W _ c) = [1%nat; 1%nat] /\ length (gs_nets _ (cs_gc _ c)) = 6%nat /\ length (gs_rq _ (cs_gc _ c)) = 7%nat /\
    held _ (cs_gc _ c) false (GNet 8) false 4 (ex_box 0 145 10 255) /\ ~ held _ (cs_gc _ c) false (GNet 7) true 3 (ex_box (-3) 2 3 8).
Proof.
  eexists _, _. split; [vm_compute; reflexivity|]. split; [repeat constructor|]. split; [vm_compute; reflexivity|]. split; [reflexivity|]. split; [reflexivity|]. split; [reflexivity|]. split.
  - eexists. split; [do 5 right; left; reflexivity|]. split; [reflexivity|]. left. reflexivity.
  - intros (n & I & _ & H). cbn in I. decompose [or] I; subst; cbn in H; decompose [or] H; try discriminate; auto.
Qed.
