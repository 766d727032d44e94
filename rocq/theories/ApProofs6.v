(* Access points lie on the pin, each once: for every input, without assumptions on tracks and vias. *)
From Verif Require Import Base GeomModel GridModel ApModel ApSpec ApProofs ApProofs2 ApProofs3 ApProofs4 ApProofs5.

Definition placed (E : aenv) (a : ap) : Prop :=
  0 <= ap_layer a < e_nlayers E /\ e_routing E (ap_layer a) = true /\
  exists r, In r (e_rects E (ap_layer a)) /\ inside r (ap_pt a) /\
    e_minwidth E (ap_layer a) <= bright r - bleft r /\ e_minwidth E (ap_layer a) <= btop r - bbottom r.

Lemma gen_points_placed E lt ut st st' : gen_points E lt ut st = Some st' -> ext (placed E) (fun _ _ => False) st st'.
Proof.
  intros F. unfold gen_points in F.
  eapply ext_weaken; [|apply (ofold_ext _ (placed E) (fun _ _ _ => False) _ ) with (2 := F)]; [intros pp zz []|].
  intros l s s' I. apply in_rev in I. apply in_map_iff in I. destruct I as (k & <- & I). apply in_seq in I.
  set (l := Z.of_nat k). assert (LR : 0 <= l < e_nlayers E) by lia. clearbody l.
  unfold gen_layer. destruct (e_routing E l) eqn:RT; cbn [negb].
  2: { intros Q; injection Q as <-. apply ext_refl. }
  destruct (_ && _); [intros Q; injection Q as <-; apply ext_refl|].
  intros F1. eapply ext_weaken; [|apply (ofold_ext _ (placed E) (fun _ _ _ => False) _ ) with (2 := F1)]; [intros pp zz []|].
  intros r s1 s2 IR. unfold gen_rect.
  destruct (Z.ltb_spec (Z.min (bright r - bleft r) (btop r - bbottom r)) (e_minwidth E l)) as [W|W]; [intros Q; injection Q as <-; apply ext_refl|].
  destruct (second_layer E l) as [l2|]; [|discriminate]. intros Q; injection Q as <-.
  eapply ext_weaken; [|apply gen_aps_ext]; [intros pp zz []|].
  intros p IN _ _. unfold placed. change (ap_layer (new_ap _ _ _ _ _ _ _)) with l. change (ap_pt (new_ap _ _ _ _ _ _ _)) with p.
  split; auto. split; auto. exists r. split; auto. split; auto. lia.
Qed.

Lemma rounds_placed E rs : forall aps s res, (forall a, In a aps -> placed E a /\ In (key a) s) -> NoDup (map key aps) ->
  pin_rounds E rs aps s = Some res -> (forall a, In a res -> placed E a) /\ NoDup (map key res).
Proof.
  induction rs as [|[lt ut] rs IH]; intros aps s res P N; cbn [pin_rounds].
  - intros Q; injection Q as <-. split; auto. intros a I. apply P; auto.
  - unfold pin_round. destruct (gen_points E lt ut ([], s)) as [[tmp s']|] eqn:G; [|discriminate].
    apply gen_points_placed in G. destruct G as (new & A & B & C & D & _). cbn [fst snd app] in *. subst tmp.
    set (aps' := aps ++ filter (keep E) (map (check_ap E) new)).
    assert (P' : forall a, In a aps' -> placed E a /\ In (key a) s').
    { intros a I. apply in_app_iff in I. destruct I as [I|I].
      - destruct (P a I). split; auto. apply D. auto.
      - apply filter_In in I. destruct I as [I _]. apply in_map_iff in I. destruct I as (g & <- & I). destruct (B g I) as [X _].
        split; [exact X|]. rewrite check_key. apply D. right. apply in_map. auto. }
    assert (N' : NoDup (map key aps')).
    { unfold aps'. rewrite map_app. apply NoDup_app2; auto; [apply NoDup_filter_map; auto|].
      intros q I J. apply in_map_iff in I. destruct I as (a & <- & I). apply in_map_iff in J. destruct J as (b & Q & J).
      apply filter_In in J. destruct J as [J _]. apply in_map_iff in J. destruct J as (g & <- & J). rewrite check_key in Q.
      apply (B g J). rewrite Q. apply P. auto. }
    destruct (enough E _).
    + intros Q; injection Q as <-. split; auto. intros a I. apply P'; auto.
    + apply IH; auto.
Qed.

Lemma prep_placed E aps : prep_pin E = Some aps -> (forall a, In a aps -> placed E a) /\ NoDup (map key aps).
Proof. apply rounds_placed; [intros a [] | constructor]. Qed.
