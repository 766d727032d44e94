(* The guide file that is written can be read again. *)
From Verif Require Import Base GeomModel GeomSpec GCellModel GCellSpec GCellProofs GfModel GfSpec GfProofs GfProps GwModel GwSpec GwProofs.
From Coq Require Import String Ascii.
From Coq Require Import List.
Open Scope list_scope.

Section C156.
Variable die : box.
Variables xg yg : gpat.
Variable layname : Z -> string.
Variable netnum laynum : string -> option Z.
Variables brl trl val : Z.
(* the guides of each net as rectangles of cells *)
Definition net_ok (n : string * list (Z * box)) : Prop :=
  word (fst n) /\ fst n <> "("%string /\ fst n <> ")"%string /\
  forall r, In r (snd n) -> cells_ok xg yg (snd r) /\ word (layname (fst r)).
Definition with_guides (nets : list (string * list (Z * box))) : list (string * list guide) :=
  map (fun n => (fst n, map (guide_of die xg yg) (snd n))) nets.
Definition written nets := write_guides die xg yg layname (with_guides nets).
(* what is expected to be read for rectangle [r] of net [n] *)
Definition read_as (nr : string * (Z * box)) (g : rguide) : Prop :=
  rg_net g = netnum (fst nr) /\ rg_layer g = fst (snd nr) /\ rg_box g = area_of die xg yg (snd (snd nr)).
Definition all_rects (nets : list (string * list (Z * box))) : list (string * (Z * box)) :=
  flat_map (fun n => map (fun r => (fst n, r)) (snd n)) nets.

Definition entry_of (r : Z * box) : gentry :=
  let a := area_of die xg yg (snd r) in mkGE (bleft a) (bbottom a) (bright a) (btop a) (layname (fst r)).
Definition file_of (nets : list (string * list (Z * box))) : list (string * list gentry) := map (fun n => (fst n, map entry_of (snd n))) nets.
Lemma area_die b : grid_good die xg yg -> cells_ok xg yg b -> let a := area_of die xg yg b in
  bleft die <= bleft a < bright a /\ bright a <= bright die /\ bbottom die <= bbottom a < btop a /\ btop a <= btop die.
Proof.
  intros [Gx Gy] (C1 & C2 & C3 & C4). cbn zeta. unfold area_of, bleft, bright, bbottom, btop in *. cbn [ll ur px py].
  pose proof (edges_die xg _ _ (px (ll b)) (px (ur b)) Gx ltac:(lia) ltac:(lia)). pose proof (edges_die yg _ _ (py (ll b)) (py (ur b)) Gy ltac:(lia) ltac:(lia)). lia.
Qed.
Lemma entry_fits r : grid_good die xg yg -> cells_ok xg yg (snd r) -> word (layname (fst r)) -> entry_ok (entry_of r).
Proof.
  intros G C W. pose proof (area_die _ G C) as A. cbn zeta in A. destruct G as [(_ & _ & X1 & _ & X2) (_ & _ & Y1 & _ & Y2)].
  unfold entry_ok, entry_of, int32. cbn zeta. cbn [ge_x1 ge_y1 ge_x2 ge_y2 ge_layer]. repeat split; try lia. all: apply W.
Qed.
Lemma written_file nets : grid_good die xg yg -> Forall net_ok nets -> guide_file (file_of nets) (written nets).
Proof.
  intros G F. induction F as [|[n rs] nets (W & N1 & N2 & R) F IH]; [constructor|]. unfold written, with_guides, write_guides. cbn [map flat_map file_of fst snd].
  refine (file_net _ _ (n :: "("%string :: map (write_guide die xg yg layname) (map (guide_of die xg yg) rs) ++ [")"%string]) _ _ IH).
  apply net_lines_i; [apply (line_one ""); [exact I|exact W]|exact N1|exact N2|]. cbn [fst snd] in R. clear - G R.
  induction rs as [|[l b] rs IH]; [constructor|]. cbn [map]. constructor; [|apply IH; intros r Hr; apply R; right; exact Hr].
  destruct (R (l, b) (or_introl eq_refl)) as [C Wl]. cbn [fst snd] in *. rewrite (write_is die xg yg layname l b G C). apply text_line, Wl.
Qed.
Lemma entries_of nets : entries (file_of nets) = map (fun x => (fst x, entry_of (snd x))) (all_rects nets).
Proof.
  induction nets as [|[n rs] nets IH]; [reflexivity|]. unfold entries, all_rects in *. cbn [file_of map flat_map fst snd]. unfold file_of in IH. rewrite IH, map_app. f_equal. rewrite !map_map. reflexivity.
Qed.

(* C156 *)
(* The guide file that is written is read again: every net gets the same rectangles of cells on the same layers, in the same order. *)
Theorem C156_written_guides_are_read nets : grid_good die xg yg -> Forall net_ok nets ->
  (forall n, In n nets -> netnum (fst n) <> None) ->
  (forall n r, In n nets -> In r (snd n) -> laynum (layname (fst r)) = Some (fst r) /\ (brl <= fst r \/ fst r = val) /\ fst r <= trl) ->
  exists out, read_guides netnum laynum brl trl val (written nets) = Some out /\ Forall2 read_as (all_rects nets) out.
Proof.
  intros G F Hn Hl. rewrite Forall_forall in F.
  assert (Hin : forall nr, In nr (all_rects nets) -> exists n, In n nets /\ fst n = fst nr /\ In (snd nr) (snd n)).
  { intros nr H. apply in_flat_map in H as (n & H1 & H2). apply in_map_iff in H2 as (r & <- & H2). exists n. auto. }
  destruct (C134_reads_the_file netnum laynum brl trl val (file_of nets) (written nets)) as (out & E & M).
  - apply written_file; [exact G|apply Forall_forall, F].
  - apply Forall_forall. intros ne H. apply in_map_iff in H as (n & <- & H). cbn [snd]. apply Forall_forall. intros e He. apply in_map_iff in He as (r & <- & Hr). destruct (F n H) as (_ & _ & _ & R). destruct (R r Hr). apply entry_fits; assumption.
  - intros n es H. apply in_map_iff in H as (x & Ex & H). injection Ex as <- _. apply Hn, H.
  - intros n es e H He. apply in_map_iff in H as (x & Ex & H). injection Ex as _ <-. apply in_map_iff in He as (r & <- & Hr). exists (fst r). unfold entry_of. cbn [ge_layer]. destruct (Hl x r H Hr) as (? & ?). split; assumption.
  - exists out. split; [exact E|]. rewrite entries_of in M. clear E. revert out M. induction (all_rects nets) as [|nr l IH]; intros out M; inversion M as [|? g ? o2 H1 H2]; subst; constructor; [|apply IH; [intros x Hx; apply Hin; right; exact Hx|exact H2]].
    destruct (Hin nr (or_introl eq_refl)) as (n & N1 & N2 & N3). destruct (Hl n _ N1 N3) as (L & _). destruct (F n N1) as (_ & _ & _ & R). destruct (R _ N3) as (C & _).
    pose proof (area_die _ G C) as A. cbn zeta in A. destruct H1 as (E1 & E2 & B). unfold entry_of in E2, B. cbn zeta in B. cbn [fst snd ge_layer ge_x1 ge_y1 ge_x2 ge_y2] in *.
    split; [exact E1|]. split; [congruence|]. destruct B as (B1 & B2 & B3 & B4). rewrite Z.min_l in B1, B3 by lia. rewrite Z.max_r in B2, B4 by lia.
    destruct (rg_box g) as [[a b] [c d]]. unfold bleft, bright, bbottom, btop in B1, B2, B3, B4. cbn [ll ur px py] in *. subst. unfold area_of. reflexivity.
Qed.
(* What is read covers the same cells: its lower left corner is in the first cell, and its upper right corner, one unit inside, in the
   last. *)
Theorem C156_same_cells b : grid_good die xg yg -> cells_ok xg yg b ->
  let a := area_of die xg yg b in
  gcell_idx xg yg (ll a) = ll b /\ gcell_idx xg yg (mkPt (bright a - 1) (btop a - 1)) = ur b.
Proof.
  intros [Gx Gy] (C1 & C2 & C3 & C4). cbn zeta. unfold area_of, gcell_idx, bright, btop in *. cbn [ll ur px py]. fold (bright die). fold (btop die). unfold bleft, bbottom in C1, C3.
  fold (bleft die) in *. fold (bbottom die) in *. unfold bleft at 2, bbottom at 2. 
  rewrite (idx_low xg _ _ _ Gx), (idx_low yg _ _ _ Gy), (idx_high xg _ _ _ Gx), (idx_high yg _ _ _ Gy) by lia. split; [destruct (ll b)|destruct (ur b)]; reflexivity.
Qed.
(* The areas written lie on the die. *)
Theorem C156_areas_on_die b : grid_good die xg yg -> cells_ok xg yg b -> let a := area_of die xg yg b in
  bleft die <= bleft a < bright a /\ bright a <= bright die /\ bbottom die <= bbottom a < btop a /\ btop a <= btop die.
Proof. exact (area_die b). Qed.
(* A guide between two layers is written with a layer name that no layer has; a file with such a guide cannot be read.  (The guides made from
   the guide file never change the layer.) *)
Theorem C156_guide_between_layers_not_read pre post g : gd_bl g <> gd_el g -> word (layname (gd_bl g)) -> laynum (layname (gd_bl g) ++ ".5")%string = None ->
  read_guides netnum laynum brl trl val (pre ++ write_guide die xg yg layname g :: post) = None.
Proof.
  intros N W L. rewrite read_run, run_app. cbn [run fold_left].
  assert (E : forall st, read_line netnum laynum brl trl val st (write_guide die xg yg layname g) = None).
  { intros st. unfold write_guide. destruct (Z.eqb_spec (gd_bl g) (gd_el g)); [contradiction|]. cbn [negb].
    match goal with |- context [guide_text ?a ?b ?c ?d ?e] => assert (We : word e); [|pose proof (text_line a b c d e We) as T] end.
    { destruct W as [W1 W2]. split; [destruct (layname (gd_bl g)); discriminate|]. clear - W2. induction (layname (gd_bl g)) as [|c r IH]; cbn; [repeat split; unfold blank_char; cbn; intuition discriminate|]. destruct W2 as [A B]. split; [exact A|apply IH, B]. }
    inversion T as [e a b c d s' A B C D Ln]; subst. destruct (special _ _ Ln) as [S1 S2]. destruct st as [net gs]. unfold read_line.
    match goal with |- (if ?c1 then _ else _) = None => destruct c1; [specialize (S1 eq_refl); discriminate S1|] end.
    match goal with |- (if ?c1 then _ else _) = None => destruct c1; [specialize (S2 eq_refl); discriminate S2|] end.
    rewrite (words_line _ _ Ln). cbn [ge_layer]. rewrite L. reflexivity. }
  destruct (run netnum laynum brl trl val pre (Some ((None, []) : gstate))); [rewrite E|]; fold (run netnum laynum brl trl val post None); rewrite run_none; reflexivity.
Qed.
End C156.
Print Assumptions C156_guide_between_layers_not_read.
Print Assumptions C156_written_guides_are_read.
Print Assumptions C156_same_cells.
Print Assumptions C156_areas_on_die.

(* a die of three by two cells, two nets *)
Definition gw_die := mkBox (mkPt 100 0) (mkPt 13000 8000).
Definition gw_x := mkGP 0 4200 3.
Definition gw_y := mkGP 0 4200 2.
Definition gw_lay (l : Z) : string := if l =? 2 then "metal1" else "metal2".
Definition gw_nets : list (string * list (Z * box)) := [("clk"%string, [(2, mkBox (mkPt 0 1) (mkPt 2 1)); (4, mkBox (mkPt 2 0) (mkPt 2 1))]); ("n[3]"%string, [])].
Example C156_applies :
  grid_good gw_die gw_x gw_y /\ Forall (net_ok gw_x gw_y gw_lay) gw_nets /\ (forall n, In n gw_nets -> gf_net (fst n) <> None) /\
  (forall n r, In n gw_nets -> In r (snd n) -> gf_lay (gw_lay (fst r)) = Some (fst r) /\ (2 <= fst r \/ fst r = 2) /\ fst r <= 100) /\
  written gw_die gw_x gw_y gw_lay gw_nets = ["clk"; "("; "100 4200 13000 8000 metal1"; "8400 0 13000 8000 metal2"; ")"; "n[3]"; "("; ")"]%string /\
  gf_lay (gw_lay 2 ++ ".5")%string = None /\
  write_guide gw_die gw_x gw_y gw_lay (mkGd (mkPt 150 10) (mkPt 5000 10) 2 4) = "100 0 4200 4200 metal1.5"%string.
Proof.
  split; [unfold grid_good, axis_good; cbn; lia|]. split; [|split; [|split; [|split; [|split]]]].
  - assert (W : forall l, word (gw_lay l)) by (intros l; unfold gw_lay; destruct (l =? 2); by_word).
    constructor; [|constructor; [|constructor]]; (split; [by_word|split; [discriminate|split; [discriminate|]]]); cbn [snd].
    + intros r [<-|[<-|[]]]; (split; [unfold cells_ok; cbn; lia|apply W]).
    + intros r [].
  - intros n [<-|[<-|[]]]; discriminate.
  - intros n r [<-|[<-|[]]]; cbn [snd]; intros Hr; cbn in Hr; [destruct Hr as [<-|[<-|[]]]|destruct Hr]; cbn; (split; [reflexivity|lia]).
  - vm_compute. reflexivity.
  - reflexivity.
  - vm_compute. reflexivity.
Qed.
