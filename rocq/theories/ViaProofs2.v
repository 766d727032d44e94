(* The loop over the cut layers. *)
From Verif Require Import Base GeomModel GcModel TwModel TwProofs ViaModel ViaSpec ViaProofs.
From Coq Require Import Sorted.

Lemma zrange_in a b x : In x (zrange a b) <-> a <= x < b.
Proof.
  unfold zrange. rewrite in_map_iff. split; [intros (k & <- & H); apply in_seq in H; lia|]. intros H. exists (Z.to_nat (x - a)). split; [lia|]. apply in_seq. lia.
Qed.
Lemma zrange_nodup a b : NoDup (zrange a b).
Proof. unfold zrange. generalize (seq_NoDup (Z.to_nat (b - a)) 0). generalize (seq 0 (Z.to_nat (b - a))). induction l as [|x r IH]; cbn; intros N; [constructor|]. inversion N; subst. constructor; [|auto]. intros H. apply in_map_iff in H as (y & E & Hy). assert (x = y) by lia. subst y. contradiction. Qed.

Section Loop.
Variable dir : Z -> ldir.
Variable is_cut : Z -> bool.
Variable lname : Z -> String.string.
Variable brl : Z.
Variable via_gen : bool.
Variable vs : list vdef.
Notation step := (init_layer dir is_cut lname brl via_gen vs).
Notation best l := (ranked dir vs l 1).

Definition made (l : Z) (v : vdef) : option vdef := if via_gen && (l >=? brl) then gen_via dir lname l v else None.
(* what a layer contributes *)
Definition bad (l : Z) : Prop := is_cut l = true /\ (forallb all_shapes (layer_vias vs l) = false \/ (best l = [] /\ brl <= l)).
Definition dflt (l : Z) : option vdef :=
  if is_cut l then match best l with v :: _ => match made l v with Some g => Some g | None => Some v end | [] => None end else None.
Definition gens (l : Z) : list vdef :=
  if is_cut l then match best l with v :: _ => match made l v with Some g => [g] | None => [] end | [] => [] end else [].

Lemma step_cases t l :
  (bad l /\ step (Some t) l = None) \/
  (~ bad l /\ step (Some t) l = Some (mkVT (t_vias t ++ gens l) (if match dflt l with Some _ => true | None => false end then upd (t_default t) l (dflt l) else t_default t))).
Proof.
  unfold step, init_layer, bad, dflt, gens. fold (made l). destruct (is_cut l); cbn [negb].
  - destruct (forallb all_shapes (layer_vias vs l)); cbn [negb]; [|left; auto].
    destruct (best l) as [|v r] eqn:B.
    + destruct (l >=? brl) eqn:G; [left; split; [split; [reflexivity|right; split; [reflexivity|lia]]|reflexivity]|]. right. split; [intros [_ [H|[_ H]]]; [discriminate H|lia]|]. rewrite app_nil_r. destruct t; reflexivity.
    + right. split; [intros [_ [H|[H _]]]; discriminate H|]. unfold made. destruct (if via_gen && (l >=? brl) then gen_via dir lname l v else None) as [g|]; rewrite ?app_nil_r; reflexivity.
  - right. split; [intros [H _]; discriminate H|]. rewrite app_nil_r. destruct t; reflexivity.
Qed.
Lemma none_fold ls : fold_left step ls None = None.
Proof. induction ls; cbn; auto. Qed.
Lemma loop ls : forall t, NoDup ls ->
  ((exists l, In l ls /\ bad l) /\ fold_left step ls (Some t) = None) \/
  ((forall l, In l ls -> ~ bad l) /\ exists t', fold_left step ls (Some t) = Some t' /\ t_vias t' = t_vias t ++ flat_map gens ls /\
    (forall l, In l ls -> t_default t l = None -> t_default t' l = dflt l) /\ (forall l, ~ In l ls -> t_default t' l = t_default t l)).
Proof.
  induction ls as [|l ls IH]; intros t N; cbn [fold_left flat_map].
  - right. split; [intros ? []|]. exists t. rewrite app_nil_r. repeat split; try reflexivity. intros ? [].
  - inversion N as [|? ? Nl N']; subst. destruct (step_cases t l) as [[B E]|[B E]]; rewrite E.
    + left. split; [exists l; split; [now left|exact B]|apply none_fold].
    + set (t1 := mkVT _ _). destruct (IH t1 N') as [[[k [Hk Bk]] F]|[Ok (t' & F & V & D1 & D2)]].
      * left. split; [exists k; split; [now right|exact Bk]|exact F].
      * right. split; [intros k [<-|Hk]; auto|]. exists t'. split; [exact F|]. split; [rewrite V; cbn [t1 t_vias]; rewrite app_assoc; reflexivity|].
        assert (U : forall k, k <> l -> t_default t1 k = t_default t k). { intros k Hk. cbn [t1 t_default]. destruct (match dflt l with Some _ => true | None => false end); [|reflexivity]. unfold upd. destruct (Z.eqb_spec k l); [contradiction|reflexivity]. }
        split.
        -- intros k [<-|Hk] H0.
           ++ rewrite (D2 l Nl). cbn [t1 t_default]. destruct (dflt l) eqn:Dl; [unfold upd; rewrite Z.eqb_refl; reflexivity|exact H0].
           ++ apply D1; [exact Hk|]. rewrite U; [exact H0|]. intros ->. contradiction.
        -- intros k Hk. rewrite D2; [|intros H; apply Hk; now right]. apply U. intros ->. apply Hk. now left.
Qed.
End Loop.

Section Final.
Variable dir : Z -> ldir.
Variable is_cut : Z -> bool.
Variable lname : Z -> String.string.
Variables bottom top : Z.
Variable brl : Z.
Variable via_gen : bool.
Variable vs : list vdef.
Notation init := (init_default_vias dir is_cut lname bottom top brl via_gen).
Notation bad := (bad dir is_cut brl vs).
Notation gens := (gens dir is_cut lname brl via_gen vs).
Notation dflt := (dflt dir is_cut lname brl via_gen vs).
Lemma init_some t : init vs = Some t -> (forall v, In v vs -> has_cut v = true) /\ (forall l, bottom <= l <= top -> ~ bad l) /\
  t_vias t = vs ++ flat_map gens (layer_range bottom top) /\ (forall l, bottom <= l <= top -> t_default t l = dflt l) /\ (forall l, ~ bottom <= l <= top -> t_default t l = None).
Proof.
  unfold init_default_vias. destruct (forallb has_cut vs) eqn:E; [|discriminate]. intros H.
  destruct (loop dir is_cut lname brl via_gen vs (layer_range bottom top) (mkVT vs (fun _ => None))) as [[_ F]|[Ok (t' & F & V & D1 & D2)]]; [apply zrange_nodup|congruence|].
  rewrite H in F. injection F as <-. assert (R : forall l, In l (layer_range bottom top) <-> bottom <= l <= top) by (intros l; unfold layer_range; rewrite zrange_in; lia).
  split; [intros v Hv; rewrite forallb_forall in E; auto|]. split; [intros l Hl; apply Ok, R, Hl|]. split; [exact V|]. split; [intros l Hl; apply D1; [apply R, Hl|reflexivity]|].
  intros l Hl. rewrite D2; [reflexivity|]. intros H0. apply Hl, R, H0.
Qed.
Lemma init_none : init vs = None <-> (exists v, In v vs /\ has_cut v = false) \/ exists l, bottom <= l <= top /\ bad l.
Proof.
  unfold init_default_vias. assert (R : forall l, In l (layer_range bottom top) <-> bottom <= l <= top) by (intros l; unfold layer_range; rewrite zrange_in; lia).
  destruct (forallb has_cut vs) eqn:E.
  - destruct (loop dir is_cut lname brl via_gen vs (layer_range bottom top) (mkVT vs (fun _ => None))) as [[[l [Hl Bl]] F]|[Ok (t' & F & _)]]; [apply zrange_nodup| |].
    + split; [intros _; right; exists l; split; [apply R, Hl|exact Bl]|intros _; exact F].
    + rewrite F. split; [discriminate|]. intros [(v & Hv & H)|(l & Hl & H)]; [rewrite forallb_forall in E; rewrite (E v Hv) in H; discriminate H|]. exfalso. apply (Ok l); [apply R, Hl|exact H].
  - split; [intros _; left|reflexivity]. clear R. induction vs as [|v r IH]; cbn in E; [discriminate E|]. destruct (has_cut v) eqn:C; [|exists v; split; [now left|exact C]]. destruct (IH E) as (w & Hw & K). exists w. split; [now right|exact K].
Qed.
End Final.
