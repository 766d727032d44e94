(* Proofs about the costs of vias near wide pins. *)
From Verif Require Import Base Stl GeomModel GeomSpec GeomProofs GridModel GridSpec GridProofs GridProofs2 CostModel CostSpec CostProofs CostProofs2 CostProofs4 SetupModel MciSpec.

Lemma hit_iff S c l b upper v pt : good_mcon c -> 0 <= se_pitch S l -> good_box v ->
  let d := mincut_dist S c l in
  (mincut_applies S c b upper && box_contains_pt (box_set (bleft b - d - bright v + 1) (bbottom b - d - btop v + 1) (bright b + d + (0 - bleft v) - 1) (btop b + d + (0 - bbottom v) - 1)) pt true
     && mincut_hit S c l b (moved v pt) = true) <-> charges S l b (moved v pt) upper c.
Proof.
  intros (G1 & G2) P (V1 & V2). cbv zeta. unfold mincut_applies, mincut_hit, mincut_dist, charges, rule_for, meet, beyond_corner, apart, box_contains_pt, box_set, box_width, box_length, box2boxDxNew, box2boxDyNew, moved.
  destruct b as [[l0 bo] [r t]], v as [[vl vb] [vr vt]], pt as [x y]. unfold bleft, bright, bbottom, btop in *. cbn [ll ur px py] in *.
  assert (U : match mc_above c with None => true | Some a => Bool.eqb a upper end = true <-> match mc_above c with Some a => a = upper | None => True end).
  { destruct (mc_above c) as [a|]; [|tauto]. rewrite Bool.eqb_true_iff. tauto. }
  destruct (mc_len c) as [[len dist]|].
  - split.
    + intros H. rewrite !andb_true_iff in H. destruct H as ((((HL & HW) & HA) & HC) & HH). apply U in HA. split; [repeat split; [lia|lia|lia|exact HA]|].
      destruct HH as ((H1 & H2) & H3). exists (Z.max l0 (vl + x) - Z.min r (vr + x)), (Z.max bo (vb + y) - Z.min t (vt + y)). lia.
    + intros ((W1 & W2 & W3 & W4) & gx & gy & (X1 & X2) & (Y1 & Y2) & Z1). rewrite !andb_true_iff. repeat split; try (apply U; exact W4); zcases; lia.
  - split.
    + intros H. rewrite !andb_true_iff in H. destruct H as ((((HL & HW) & HA) & HC) & HH). apply U in HA. revert HC. zcases; intros; (split; [repeat split; [lia|lia|exact HA]|lia]).
    + intros ((W1 & W2 & W3 & W4) & M). rewrite !andb_true_iff. repeat split; try (apply U; exact W4); zcases; lia.
Qed.
Lemma mod_mincut_net S E g type b z upper q : grid_sorted g -> xy_valid g q -> kind_ok type -> ce_svia E q = None ->
  (forall v, via_of E (getLayerNum g z) upper = Some v -> good_box (cv_cutbb v)) -> 0 <= se_pitch S (getLayerNum g z) -> Forall good_mcon (se_mincut S (getLayerNum g z)) ->
  exists n, mincut_hits S E g b z upper q n /\ forall a, net (mod_mincut S E g type b z upper) q a = at_counter a (via_counter type) (kind_sign type * n).
Proof.
  intros Hs Hv K SV GV P FM. unfold mod_mincut, mincut_hits. fold (via_of E (getLayerNum g z) upper). set (l := getLayerNum g z) in *. destruct (via_of E l upper) as [v|] eqn:EV.
  2:{ exists 0. split; [reflexivity|]. intros a. cbn [net]. unfold at_counter. destruct (attr_eq_dec _ _); lia. }
  specialize (GV v eq_refl). set (pt := getPoint g q).
  destruct (midx_eq_dec q (via_pt (mkMI (mx q) (my q) z) upper)) as [Eq|Nq].
  - assert (TT : via_touches q z upper) by (apply (via_pt_eq (mkMI (mx q) (my q) z) q z upper eq_refl eq_refl eq_refl); exact Eq).
    assert (X : exists n, tally (charges S l b (moved (cv_cutbb v) pt) upper) (se_mincut S l) n /\
       forall a, net (flat_map (fun c => if mincut_applies S c b upper then flat_map (fun p =>
          if mincut_hit S c l b (at_pt (match ce_svia E (via_pt p upper) with Some s => cv_cutbb s | None => cv_cutbb v end) (getPoint g p)) then mk_via type (via_pt p upper) else [])
          (window g (box_set (bleft b - mincut_dist S c l - bright (cv_cutbb v) + 1) (bbottom b - mincut_dist S c l - btop (cv_cutbb v) + 1) (bright b + mincut_dist S c l + (0 - bleft (cv_cutbb v)) - 1) (btop b + mincut_dist S c l + (0 - bbottom (cv_cutbb v)) - 1)) z) else []) (se_mincut S l)) q a =
        at_counter a (via_counter type) (kind_sign type * n)).
    { clear EV. induction (se_mincut S l) as [|c cs IH].
      - exists 0. split; [constructor|]. intros a. cbn. unfold at_counter. destruct (attr_eq_dec _ _); lia.
      - inversion_clear FM as [|? ? Gc F']. destruct (IH F') as (n & T & N). clear IH. pose proof (hit_iff S c l b upper (cv_cutbb v) pt Gc P GV) as HI. cbv zeta in HI.
        set (w := box_set _ _ _ _) in *.
        assert (NC : forall a, net (if mincut_applies S c b upper then flat_map (fun p => if mincut_hit S c l b (at_pt (match ce_svia E (via_pt p upper) with Some s => cv_cutbb s | None => cv_cutbb v end) (getPoint g p)) then mk_via type (via_pt p upper) else []) (window g w z) else []) q a =
                     if mincut_applies S c b upper && box_contains_pt w pt true && mincut_hit S c l b (moved (cv_cutbb v) pt) then at_counter a (via_counter type) (kind_sign type) else 0).
        { intros a. destruct (mincut_applies S c b upper); [|reflexivity]. cbn [andb]. rewrite window_net; [|assumption|assumption|].
          - fold pt. destruct (box_contains_pt w pt true); [|reflexivity]. cbn [andb]. rewrite <- Eq, SV. change (getPoint g (mkMI (mx q) (my q) z)) with pt. rewrite at_moved by (apply good_norm; exact GV).
            destruct (mincut_hit S c l b (moved (cv_cutbb v) pt)); [|reflexivity]. rewrite mk_via_net by assumption. destruct (midx_eq_dec q q); [reflexivity|congruence].
          - intros p Hp Hne. match goal with |- net (if ?x then _ else _) _ _ = _ => destruct x end; [|reflexivity]. rewrite mk_via_net by assumption. destruct (midx_eq_dec q (via_pt p upper)) as [C|_]; [|reflexivity].
            exfalso. unfold via_pt in C. destruct Hne as [M|M]; apply M; rewrite C; destruct upper; reflexivity. }
        destruct (mincut_applies S c b upper && box_contains_pt w pt true && mincut_hit S c l b (moved (cv_cutbb v) pt)) eqn:EB.
        + exists (n + 1). split; [apply tally_yes; [apply HI; reflexivity|exact T]|]. intros a. cbn [flat_map]. rewrite net_app, N. fold w. rewrite NC. unfold at_counter. destruct (attr_eq_dec _ _); lia.
        + exists n. split; [apply tally_no; [intros C; apply HI in C; discriminate C|exact T]|]. intros a. cbn [flat_map]. rewrite net_app, N. fold w. rewrite NC. lia. }
    destruct X as (n & T & N). exists n. split; [left; split; assumption|exact N].
  - assert (TT : ~ via_touches q z upper) by (intros C; apply Nq, (via_pt_eq (mkMI (mx q) (my q) z) q z upper eq_refl eq_refl eq_refl), C).
    exists 0. split; [right; split; [exact TT|reflexivity]|]. intros a. replace (at_counter a (via_counter type) (kind_sign type * 0)) with 0 by (unfold at_counter; destruct (attr_eq_dec _ _); lia).
    clear FM. induction (se_mincut S l) as [|c cs IH]; [reflexivity|]. cbn [flat_map]. rewrite net_app, IH, Z.add_0_r. destruct (mincut_applies S c b upper); [|reflexivity].
    rewrite window_net; [|assumption|assumption|].
    + destruct (box_contains_pt _ _ _); [|reflexivity]. destruct (mincut_hit _ _ _ _ _); [|reflexivity]. rewrite mk_via_net by assumption. destruct (midx_eq_dec _ _); [contradiction|reflexivity].
    + intros p Hp Hne. match goal with |- net (if ?x then _ else _) _ _ = _ => destruct x end; [|reflexivity]. rewrite mk_via_net by assumption. destruct (midx_eq_dec q (via_pt p upper)) as [C|_]; [|reflexivity].
      exfalso. unfold via_pt in C. destruct Hne as [M|M]; apply M; rewrite C; destruct upper; reflexivity.
Qed.
Lemma mod_mincut_in S E g type b z upper : good_stack E g -> grid_sorted g -> 0 <= z < nz g -> ops_in g (mod_mincut S E g type b z upper).
Proof.
  intros GS Hs Hz. unfold mod_mincut. destruct (via_of E _ upper) as [v|] eqn:EV; [|constructor]. apply ops_in_flat. intros c _. destruct (mincut_applies S c b upper); [|constructor].
  apply ops_in_flat. intros p Hp. pose proof (via_pt_valid E g _ z upper p v GS Hs Hz Hp EV) as V. apply ops_in_if, mk_via_in, V.
Qed.
