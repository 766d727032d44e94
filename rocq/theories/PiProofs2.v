From Verif Require Import Base GeomModel PiModel PiSpec PiProofs.
From Coq Require Import Permutation Sorted.

(* every pin has points: the points come pin after pin *)
Lemma reorder_all i pat : (forall p, In p (signal_pins i) -> pp_aps p <> []) -> length pat = length (signal_pins i) ->
  exists f, (forall p, In p (signal_pins i) -> pin2ap (search_pins i) pat (pp_id p) = Some (f p) /\ In (pp_id p, f p) (combine (map pp_id (search_pins i)) pat)) /\
  reorder i (search_pins i) pat = map (fun p => (pp_id p, f p, point_of p (f p))) (signal_pins i).
Proof.
  intros A L. assert (P : Permutation (search_pins i) (signal_pins i)).
  { rewrite search_perm. replace (filter has_aps (signal_pins i)) with (signal_pins i); [reflexivity|]. clear -A. induction (signal_pins i) as [|p ps IH]; [reflexivity|]. cbn [filter]. unfold has_aps at 1. destruct (pp_aps p) eqn:E; [elim (A p (or_introl eq_refl) E)|]. f_equal. apply IH. intros q Q. apply A. right. exact Q. }
  set (f := fun p => match pin2ap (search_pins i) pat (pp_id p) with Some k => k | None => 0 end). exists f.
  assert (F : forall p, In p (signal_pins i) -> pin2ap (search_pins i) pat (pp_id p) = Some (f p) /\ In (pp_id p, f p) (combine (map pp_id (search_pins i)) pat)).
  { intros p I. unfold f, pin2ap. destruct (find_assoc (map pp_id (search_pins i)) pat (pp_id p)) as (k & K1 & K2).
    - apply in_map. apply (Permutation_in _ (Permutation_sym P)), I.
    - rewrite map_length, (Permutation_length P). exact L.
    - rewrite K1. split; [reflexivity|exact K2]. }
  split; [exact F|]. unfold reorder. clear -F. induction (signal_pins i) as [|p ps IH]; [reflexivity|]. cbn [flat_map map]. rewrite (proj1 (F p (or_introl eq_refl))). cbn [app]. f_equal. apply IH. intros q Q. apply F. right. exact Q.
Qed.
(* some pin without: too few *)
Lemma reorder_short i pat p : NoDup (map pp_id (signal_pins i)) -> In p (signal_pins i) -> pp_aps p = [] -> (length (reorder i (search_pins i) pat) < length (signal_pins i))%nat.
Proof.
  intros ND I E. unfold reorder. rewrite reorder_len.
  assert (N : pin2ap (search_pins i) pat (pp_id p) = None).
  { apply find_none_assoc. intros H. apply in_map_iff in H as (q & Q1 & Q2). apply (Permutation_in _ (search_perm i)) in Q2. apply filter_In in Q2 as [Q2 Q3].
    assert (q = p). { clear -ND I Q1 Q2. induction (signal_pins i) as [|r rs IH]; [contradiction|]. cbn [map] in ND. inversion ND as [|? ? N1 N2]; subst. destruct I as [->|I], Q2 as [->|Q2]; [reflexivity| | |apply IH; assumption]; elim N1; [rewrite <- Q1|rewrite Q1]; apply in_map; assumption. }
    subst q. unfold has_aps in Q3. rewrite E in Q3. discriminate. }
  set (g := fun p0 => match pin2ap (search_pins i) pat (pp_id p0) with Some _ => true | None => false end).
  assert (G : g p = false) by (unfold g; rewrite N; reflexivity). clearbody g. clear -I G. induction (signal_pins i) as [|q qs IH]; [contradiction|]. cbn [filter length]. destruct I as [->|I].
  - rewrite G. assert (length (filter g qs) <= length qs)%nat by (clear; induction qs as [|r rs IH]; cbn [filter length]; [lia|]; destruct (g r); cbn [length]; lia). lia.
  - specialize (IH I). destruct (g q); cbn [length]; lia.
Qed.
