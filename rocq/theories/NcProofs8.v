(* Proofs about the costs while one net is routed: costs of the wires of the net outside the clip. *)
From Coq Require Import Permutation.
From Verif Require Import Base Stl GeomModel GeomSpec GeomProofs GridModel GridSpec GridProofs GridProofs2 CostModel CostSpec CostProofs CostProofs2 CostProofs3 CostProofs4 SetupModel SetupSpec SetupProofs SetupProofs2 SetupProofs3 SetupProofs4 SetupProofs5 SetupProofs6 NcModel NcSpec NcProofs NcProofs2 NcProofs3 NcProofs4 NcProofs5 NcProofs6 NcProofs7.

Lemma wire_near_fun E g b z blk q n m : wire_near E g b z blk q n -> wire_near E g b z blk q m -> n = m.
Proof. unfold wire_near. destruct (ce_spc E _); [|congruence]. intros [[Z1 A]|[Z1 A]] [[Z2 A']|[Z2 A']]; try congruence. eapply one_fun; eassumption. Qed.
Lemma wire_eol_fun E g b z q n m : wire_eol E g b z q n -> wire_eol E g b z q m -> n = m.
Proof. unfold wire_eol. intros [[Z1 A]|[Z1 A]] [[Z2 A']|[Z2 A']]; try congruence. eapply tally_fun; eassumption. Qed.
Lemma fig_wire_fun E g q f n m : fig_wire E g q f n -> fig_wire E g q f m -> n = m.
Proof.
  destruct f; cbn [fig_wire].
  - intros (a & e & A & B & ->) (a' & e' & A' & B' & ->). rewrite (wire_near_fun _ _ _ _ _ _ _ _ A A'). f_equal. destruct (Bool.eqb _ _); [eapply wire_eol_fun; eassumption|congruence].
  - intros (a & e & A & B & ->) (a' & e' & A' & B' & ->). rewrite (wire_near_fun _ _ _ _ _ _ _ _ A A'), (wire_eol_fun _ _ _ _ _ _ _ B B'). reflexivity.
  - intros (a & e & c & f & A & B & C & D & ->) (a' & e' & c' & f' & A' & B' & C' & D' & ->).
    rewrite (wire_near_fun _ _ _ _ _ _ _ _ A A'), (wire_eol_fun _ _ _ _ _ _ _ B B'), (wire_near_fun _ _ _ _ _ _ _ _ C C'), (wire_eol_fun _ _ _ _ _ _ _ D D'). reflexivity.
Qed.
Lemma vo_mincuts S E g t l : via_ops (flat_map (mincut_ops S E g t) l).
Proof. apply vo_flat. intros f. destruct f; cbn [mincut_ops]; try apply vo_nil. repeat apply vo_app; apply vo_mincut. Qed.
Section Ext.
  Variables (S : senv) (E : cenv) (g : gg).
  Hypothesis GT : good_tech E.
  Hypothesis SV : svia_good E.
  Hypothesis ST : good_stack E g.
  Hypothesis GS : grid_sorted g.
  Variable q : midx.
  Hypothesis V : valid g q.
  Lemma ext_net h t l k : same_shape g h -> drc_type t -> Forall (good_fig E g) l -> Forall (fig_wide E g) l -> sums (fig_wire E g q) l k ->
    net (flat_map (mod_path E h t) l) q ADrcX = kind_sign t * k.
  Proof.
    intros SH T. revert k. induction l as [|f l IH]; intros k GF FW HS; inversion HS as [|? ? n m R1 R2]; subst; [cbn; lia|].
    inversion GF as [|? ? G1 G2]; inversion FW as [|? ? W1 W2]; subst. cbn [flat_map]. rewrite net_app, (IH m G2 W2 R2).
    assert (FH : mod_path E h t f = mod_path E g t f).
    { pose proof (same_shape_sym _ _ SH) as SH'. destruct f; cbn [mod_path]; rewrite ?(layer_shape h g _ SH'), ?(planar_shape E h g _ _ _ _ SH'), ?(eol_shape E h g _ _ _ _ SH'), ?(mod_via_shape E h g _ _ _ _ _ _ SH'); try reflexivity.
      assert (HC : flat_map (fun cf => mod_cut E h t (at_pt cf pt) (mz bi) false ++ mod_inter E h t (at_pt cf pt) (mz bi) true ++ mod_inter E h t (at_pt cf pt) (mz bi) false) (cv_cuts v) =
                   flat_map (fun cf => mod_cut E g t (at_pt cf pt) (mz bi) false ++ mod_inter E g t (at_pt cf pt) (mz bi) true ++ mod_inter E g t (at_pt cf pt) (mz bi) false) (cv_cuts v)); [|cbv zeta; rewrite HC; reflexivity].
      apply flat_eq. intros c. unfold mod_cut, mod_inter. rewrite ?(layer_shape h g _ SH').
      f_equal; [|f_equal].
      - destruct (ce_cut E _) as [|c0 cs]; [reflexivity|]. destruct (ce_via E _); [|reflexivity]. rewrite (window_shape h g _ _ SH'). apply flat_eq. intros p. rewrite (point_shape h g p SH'). reflexivity.
      - destruct (ce_via E _); [|reflexivity]. destruct (match ce_inter E _ _ with Some c => Some c | None => _ end); [|reflexivity]. rewrite (window_shape h g _ _ SH'). apply flat_eq. intros p. rewrite (point_shape h g p SH'). reflexivity.
      - destruct (ce_via E _); [|reflexivity]. destruct (match ce_inter E _ _ with Some c => Some c | None => _ end); [|reflexivity]. rewrite (window_shape h g _ _ SH'). apply flat_eq. intros p. rewrite (point_shape h g p SH'). reflexivity. }
    rewrite FH. destruct (fig_net E g t f q GT SV GS (xyv g q V) ltac:(unfold kind_ok; destruct T; lia) G1) as (w & v & A & B & _).
    rewrite A. rewrite (fig_wire_fun E g q f n w R1 (B W1)). unfold at_counter, wire_counter, via_counter.
    replace (t <=? 1) with true by (symmetry; apply Z.leb_le; destruct T; lia). destruct (attr_eq_dec ADrcX ADrcX); [|congruence]. destruct (attr_eq_dec ADrcX ADrcU); [discriminate|]. lia.
  Qed.
  Lemma ext_through follow h N add h2 k : same_shape g h -> net_ok E g N -> Forall (fig_wide E g) (dn_ext N) -> sums (fig_wire E g q) (dn_ext N) k ->
    (if (add : bool) then read h q ADrcX + k <= 255 else k <= read h q ADrcX) ->
    (if (add : bool) then net_end S E follow h N else net_begin S E follow h N) = Some h2 ->
    same_shape g h2 /\ read h2 q ADrcX = if add then read h q ADrcX + k else read h q ADrcX - k.
  Proof.
    intros SH NO FW HS B H.
    assert (EX : exists ops, net_ops2 S E h N add = Some ops) by (destruct add; unfold net_end, net_begin in H; destruct (net_ops2 S E h N _); eauto; discriminate). destruct EX as [ops HO].
    assert (X : exists h1 h3, h2 = grun h3 ops /\ same_shape g h1 /\ same_shape g h3 /\ gbits h3 = gbits h1 /\ read h1 q ADrcX = read h q ADrcX /\ Forall (op_safe g) ops /\ same_shape g h2).
    { assert (MISS : forall hh, same_shape g hh -> read (grun hh (net_ops1 S E g N add)) q ADrcX = read hh q ADrcX).
      { intros hh SS. apply miss_run; [apply (valid_shape g hh q SS), V|apply ops1_safe|]. apply off_hit, ops1_off; discriminate. }
      destruct add.
      - destruct (end_run S E follow g h N ops SH ST GS NO HO) as (h1 & h2' & B1 & B2 & B3 & B4 & (h3 & B5 & B6 & B7) & SF & OF). rewrite H in B1. injection B1 as <-. exists h1, h3.
        split; [exact B5|]. split; [exact B3|]. split; [exact B6|]. split; [exact B7|]. split; [|auto]. rewrite B2. apply MISS, SH.
      - destruct (begin_run S E follow g h N ops SH ST GS NO HO) as (h1 & h2' & B1 & B2 & B3 & B4 & (h3 & B5 & B6 & B7) & SF & OF). rewrite H in B1. injection B1 as <-. exists h1, h3.
        split; [exact B5|]. split; [exact B3|]. split; [exact B6|]. split; [exact B7|]. split; [|auto]. rewrite B2. rewrite MISS by (eapply same_shape_trans; [exact SH|apply reset_shape]).
        apply read_same; [apply reset_shape|reflexivity]. }
    destruct X as (h1 & h3 & E2 & S1 & S3 & BT & RD & SF & S2). split; [exact S2|]. subst h2.
    unfold net_ops2 in HO. destruct (item_ops h add (net_items S E N)) as [its|] eqn:EI; [|discriminate]. injection HO as <-.
    assert (R3 : read h3 q ADrcX = read h q ADrcX).
    { rewrite <- RD. apply read_same; [|exact BT]. eapply same_shape_trans; [apply same_shape_sym, S1|exact S3]. }
    set (t := if add then 1 else 0) in *. assert (TT : drc_type t) by (unfold t, drc_type; destruct add; auto). assert (KT : kind_ok t) by (unfold kind_ok; destruct TT; lia).
    destruct (items_ok g h add SH _ its (net_items_ok S E g N NO) EI) as [FL _].
    set (M := flat_map (mincut_ops S E h _) _) in *. assert (OM : off ADrcX M) by (apply off_via; [auto|apply vo_mincuts]).
    assert (OI : off ADrcX its) by (apply off_flags; auto; discriminate).
    assert (NET : net (M ++ its ++ flat_map (mod_path E h t) (dn_ext N)) q ADrcX = kind_sign t * k).
    { rewrite !net_app, (off_net q ADrcX M OM), (off_net q ADrcX its OI). rewrite (ext_net h t (dn_ext N) k SH TT (proj2 NO) FW HS). lia. }
    assert (ON : only (kind_sign t) q ADrcX (M ++ its ++ flat_map (mod_path E h t) (dn_ext N))).
    { apply only_app; [apply only_off, OM|]. apply only_app; [apply only_off, OI|]. apply only_flat. intros f _. apply sg_only, sg_path, KT. }
    assert (V3 : valid h3 q) by (apply (valid_shape g h3 q S3), V).
    assert (SF3 : Forall (op_safe h3) (M ++ its ++ flat_map (mod_path E h t) (dn_ext N))) by (eapply Forall_impl; [|exact SF]; intros o; apply op_safe_shape, S3).
    destruct add; cbn [t] in *; unfold t in *.
    - rewrite (adds_run q ADrcX eq_refl _ h3 V3 SF3 ON); rewrite NET, R3; change (kind_sign 1) with 1; lia.
    - rewrite (subs_run q ADrcX eq_refl _ h3 V3 SF3 ON); rewrite NET, R3; change (kind_sign 0) with (-1); lia.
  Qed.
End Ext.
