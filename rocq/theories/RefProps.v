(* The reference DEF. *)
From Verif Require Import Base GeomModel GfModel GfSpec GfProofs RefModel RefSpec.
From Coq Require Import String Ascii DecimalString Decimal DecimalZ DecimalPos DecimalFacts.
From Coq Require Import List.
Open Scope list_scope.

Lemma print_numeral z : numeral (print_int z) z.
Proof.
  exists (Z.to_int z). split; [|apply DecimalZ.of_to]. unfold print_int. apply NilZero.isi.
  - destruct z as [|p|p]; cbn; try discriminate. intros H. injection H as H. apply (DecimalPos.Unsigned.to_uint_nonnil p H).
  - destruct z as [|p|p]; cbn; try discriminate. intros H. injection H as H. apply (DecimalPos.Unsigned.to_uint_nonnil p H).
Qed.
Lemma uint_chars d : all_chars (fun c => ~ blank_char c) (NilEmpty.string_of_uint d).
Proof. induction d; cbn; (split; [unfold blank_char; cbn; intuition discriminate|assumption]) || exact I. Qed.
Lemma uint_chars0 d : all_chars (fun c => ~ blank_char c) (NilZero.string_of_uint d).
Proof. destruct d; [cbn; split; [unfold blank_char; cbn; intuition discriminate|exact I]|..]; apply uint_chars. Qed.
Lemma print_word z : word (print_int z).
Proof.
  split.
  - intros H. destruct (print_numeral z) as (i & E & _). rewrite H in E. discriminate E.
  - unfold print_int. destruct (Z.to_int z) as [d|d]; cbn [NilZero.string_of_int]; [apply uint_chars0|]. cbn [all_chars]. split; [unfold blank_char; cbn; intuition discriminate|apply uint_chars0].
Qed.
Lemma app_s a b c : ((a ++ b) ++ c = a ++ (b ++ c))%string.
Proof. induction a; cbn; congruence. Qed.
(* words with one blank between them *)
Lemma sp_more w ws l : word w -> line_of ws (String " " l) -> line_of (w :: ws) (w ++ String " " l).
Proof. intros W L. apply (line_more "" w ws); [exact I|exact W|exact L|eexists; eexists; split; [reflexivity|left; reflexivity]]. Qed.
Lemma sp_lead ws l : line_of ws l -> line_of ws (String " " l).
Proof.
  assert (B : blank_char " ") by (left; reflexivity).
  intros H. destruct H as [pre w Bp W|pre w ws l Bp W L S].
  - apply (line_one (String " " pre) w); [split; assumption|exact W].
  - apply (line_more (String " " pre) w ws l); [split; assumption|exact W|exact L|exact S].
Qed.
Lemma sp_one w : word w -> line_of [w] w.
Proof. intros W. apply (line_one "" w); [exact I|exact W]. Qed.
Ltac lit_word := split; [discriminate|cbn; repeat split; unfold blank_char; cbn; intuition discriminate].
Lemma rect_ok lay b : word lay -> def_rect lay b (rect_line lay b).
Proof.
  intros W. exists (print_int (bleft b)), (print_int (bbottom b)), (print_int (bright b)), (print_int (btop b)). do 4 (split; [apply print_numeral|]).
  unfold rect_line.
  assert (P : forall z, word (print_int z)) by apply print_word.
  change (line_of ["+"%string; "RECT"%string; lay; "("%string; print_int (bleft b); print_int (bbottom b); ")"%string; "("%string; print_int (bright b); print_int (btop b); ")"%string]
    (String " " (String " " ("+" ++ String " " ("RECT" ++ String " " (lay ++ String " " ("(" ++ String " " (print_int (bleft b) ++ String " " (print_int (bbottom b) ++ String " " (")" ++ String " " ("(" ++ String " " (print_int (bright b) ++ String " " (print_int (btop b) ++ String " " ")"))))))))))))%string).
  do 2 apply sp_lead. repeat (apply sp_more; [first [apply P|exact W|lit_word]|apply sp_lead]). apply sp_one. lit_word.
Qed.
Lemma via_ok v : names_ok v -> def_via v (via_text v).
Proof.
  intros (W0 & W1 & W2 & W3). unfold via_text. constructor; [|apply rect_ok, W1|apply rect_ok, W2|apply rect_ok, W3|].
  - change ("- " ++ mv_name v)%string with ("-" ++ String " " (mv_name v))%string. apply sp_more; [lit_word|]. apply sp_lead, sp_one, W0.
  - do 2 apply sp_lead. apply sp_one. lit_word.
Qed.
Lemma head_ok n : int32 n -> section_line "VIAS" n ("VIAS " ++ print_int n ++ " ;").
Proof.
  intros R. split; [exact R|]. exists (print_int n). split; [apply print_numeral|]. change ("VIAS " ++ print_int n ++ " ;")%string with ("VIAS" ++ String " " (print_int n ++ String " " ";"))%string.
  apply sp_more; [lit_word|]. apply sp_lead. apply sp_more; [apply print_word|]. apply sp_lead, sp_one. lit_word.
Qed.
Lemma heads_section w n s : section_line w n s -> heads w s = Some n.
Proof. intros (R & t & T & L). unfold heads, head_int. rewrite (line_tokens _ _ L), (numeral_stoi _ _ T R), String.eqb_refl. reflexivity. Qed.
(* the words of a line begin with its first word *)
Lemma tokens_starts s w l : tokens s = w :: l -> starts_with w s.
Proof.
  assert (Q : forall s, (forall w l, toks s = (w, l) -> exists r, s = (w ++ r)%string /\ (r = EmptyString \/ exists c r', r = String c r' /\ blank_char c)) /\ (forall w l, tokens s = w :: l -> starts_with w s)).
  { clear. induction s as [|c s [IH1 IH2]]; [split|].
    - intros w l H. injection H as <- <-. exists EmptyString. auto.
    - intros w l H. discriminate H.
    - assert (T : forall w l, toks (String c s) = (w, l) -> exists r, String c s = (w ++ r)%string /\ (r = EmptyString \/ exists c' r', r = String c' r' /\ blank_char c')).
      { intros w l H. cbn [toks] in H. destruct (toks s) as [w' l'] eqn:E. destruct (is_ws c) eqn:Ec; injection H as <- <-.
        - exists (String c s). split; [reflexivity|]. right. exists c, s. split; [reflexivity|apply is_ws_blank, Ec].
        - destruct (IH1 w' l' eq_refl) as (r & -> & Hr). exists r. split; [reflexivity|exact Hr]. }
      split; [exact T|]. intros w l H. destruct (is_ws c) eqn:Ec.
      + rewrite tokens_ws in H by exact Ec. destruct (IH2 w l H) as (pre & r & -> & Bp & Hr). exists (String c pre), r. split; [reflexivity|]. split; [split; [apply is_ws_blank, Ec|exact Bp]|exact Hr].
      + unfold tokens in H. destruct (toks (String c s)) as [w' l'] eqn:E. destruct (T w' l' eq_refl) as (r & Hs & Hr). destruct (String.eqb_spec w' "") as [->|N].
        * cbn [append] in Hs. subst r. destruct Hr as [Hr|(c' & r' & Hr & B)]; [discriminate Hr|]. injection Hr as <- <-. apply is_ws_blank in B. congruence.
        * injection H as <- <-. exists EmptyString, r. split; [exact Hs|]. split; [exact I|exact Hr]. }
  apply (Q s).
Qed.
Lemma heads_not w s : ~ starts_with w s -> heads w s = None.
Proof.
  intros N. unfold heads, head_int. destruct (tokens s) as [|a [|t l]] eqn:E; try reflexivity. destruct (stoi t); [|reflexivity]. destruct (String.eqb_spec a w) as [->|]; [exfalso; apply N, (tokens_starts s w (t :: l) E)|reflexivity].
Qed.
Lemma copy_lines hv made ls w : w = (if hv : bool then "VIAS" else "COMPONENTS")%string -> (forall s, In s ls -> ~ starts_with w s) -> flat_map (ref_line hv made) ls = ls.
Proof.
  intros -> H. induction ls as [|s ls IH]; [reflexivity|]. cbn [flat_map]. rewrite IH by (intros; apply H; right; assumption). unfold ref_line. specialize (H s (or_introl eq_refl)). destruct hv; cbn [negb]; rewrite heads_not by exact H; reflexivity.
Qed.
Lemma has_not ls : (forall s, In s ls -> ~ starts_with "VIAS" s) -> has_vias ls = false.
Proof. intros H. apply not_true_iff_false. intros E. apply existsb_exists in E as (s & Hs & E). rewrite heads_not in E by (apply H, Hs). discriminate E. Qed.
Lemma vias_ok made : Forall names_ok made -> exists ds, flat_map via_text made = concat ds /\ Forall2 def_via made ds.
Proof. intros F. exists (map via_text made). split; [apply flat_map_concat_map|]. induction F as [|v made H F IH]; cbn [map]; constructor; [apply via_ok, H|exact IH]. Qed.

(* C135 *)
(* A DEF with a VIAS section: the made vias are added at its beginning and counted; every other line is kept. *)
Theorem C135_adds_to_the_section made pre s post n : section_line "VIAS" n s -> int32 (n + Z.of_nat (length made)) ->
  (forall l, In l pre \/ In l post -> ~ starts_with "VIAS" l) -> Forall names_ok made ->
  exists h ds, ref_def made (pre ++ s :: post) = pre ++ EmptyString :: h :: concat ds ++ post /\
    section_line "VIAS" (n + Z.of_nat (length made)) h /\ Forall2 def_via made ds.
Proof.
  intros S R N F. destruct (vias_ok made F) as (ds & D & M). eexists. exists ds. split; [|split; [apply head_ok, R|exact M]]. unfold ref_def.
  assert (H : has_vias (pre ++ s :: post) = true). { unfold has_vias. rewrite existsb_app. cbn [existsb]. rewrite (heads_section _ _ _ S). apply orb_true_r. }
  rewrite H, flat_map_app. cbn [flat_map]. rewrite !(copy_lines true made _ "VIAS") by (auto || reflexivity). unfold ref_line. cbn [negb]. rewrite (heads_section _ _ _ S). unfold vias_head. cbn [app]. rewrite D. reflexivity.
Qed.
(* A DEF without one: a VIAS section with the made vias is put before the components; every line is kept. *)
Theorem C135_adds_a_section made pre s post n : section_line "COMPONENTS" n s -> int32 (Z.of_nat (length made)) ->
  (forall l, In l (pre ++ s :: post) -> ~ starts_with "VIAS" l) -> (forall l, In l pre \/ In l post -> ~ starts_with "COMPONENTS" l) -> Forall names_ok made ->
  exists h ds, ref_def made (pre ++ s :: post) = pre ++ EmptyString :: h :: concat ds ++ "END VIAS"%string :: EmptyString :: s :: post /\
    section_line "VIAS" (Z.of_nat (length made)) h /\ Forall2 def_via made ds.
Proof.
  intros S R N C F. destruct (vias_ok made F) as (ds & D & M). eexists. exists ds. split; [|split; [apply head_ok, R|exact M]]. unfold ref_def. rewrite (has_not _ N), flat_map_app. cbn [flat_map]. rewrite !(copy_lines false made _ "COMPONENTS") by (auto || reflexivity).
  unfold ref_line. cbn [negb]. rewrite (heads_section _ _ _ S). unfold vias_head. cbn [app]. rewrite D, <- app_assoc. reflexivity.
Qed.
(* Whatever the DEF, no line is lost but the opening line of a VIAS section. *)
Theorem C135_lines_kept made lines s : In s lines -> ~ starts_with "VIAS" s -> In s (ref_def made lines).
Proof.
  intros H N. unfold ref_def. apply in_flat_map. exists s. split; [exact H|]. unfold ref_line. rewrite (heads_not _ _ N). destruct (has_vias lines); cbn [negb]; [left; reflexivity|]. destruct (heads "COMPONENTS" s); [|left; reflexivity]. rewrite !in_app_iff. right. right. right. left. reflexivity.
Qed.
Print Assumptions C135_adds_to_the_section.
Print Assumptions C135_adds_a_section.
Print Assumptions C135_lines_kept.

Definition rf_via : mvia := mkMV "VIA12_FR" "M1" (mkBox (mkPt (-65) (-35)) (mkPt 65 35)) "V1" (mkBox (mkPt (-35) (-35)) (mkPt 35 35)) "M2" (mkBox (mkPt (-35) (-65)) (mkPt 35 65)).
Lemma no_start w s l : tokens s = l -> match l with a :: _ => String.eqb a w | [] => false end = false -> word w -> ~ starts_with w s.
Proof.
  intros T H W (pre & r & -> & Bp & Hr). rewrite tokens_blanks in T by exact Bp. rewrite tokens_word in T by (exact W || (destruct Hr as [->|(c & r' & -> & B)]; [left; reflexivity|right; eauto])). subst l. rewrite String.eqb_refl in H. discriminate H.
Qed.
Example C135_nonvacuous :
  section_line "VIAS" 1 "VIAS 1 ;" /\ names_ok rf_via /\
  (forall l, In l ["VERSION 5.8 ;"%string] \/ In l ["- v1 + RECT M1 ( 0 0 ) ( 10 10 ) ;"; "END VIAS"; "COMPONENTS 2 ;"]%string -> ~ starts_with "VIAS" l) /\
  ref_def [rf_via] ["VERSION 5.8 ;"; "VIAS 1 ;"; "- v1 + RECT M1 ( 0 0 ) ( 10 10 ) ;"; "END VIAS"; "COMPONENTS 2 ;"]%string =
  ["VERSION 5.8 ;"; ""; "VIAS 2 ;"; "- VIA12_FR"; "  + RECT M1 ( -65 -35 ) ( 65 35 )"; "  + RECT V1 ( -35 -35 ) ( 35 35 )"; "  + RECT M2 ( -35 -65 ) ( 35 65 )"; "  ;";
   "- v1 + RECT M1 ( 0 0 ) ( 10 10 ) ;"; "END VIAS"; "COMPONENTS 2 ;"]%string /\
  ref_def [rf_via] ["DESIGN d ;"; "COMPONENTS 2 ;"; "END COMPONENTS"]%string =
  ["DESIGN d ;"; ""; "VIAS 1 ;"; "- VIA12_FR"; "  + RECT M1 ( -65 -35 ) ( 65 35 )"; "  + RECT V1 ( -35 -35 ) ( 35 35 )"; "  + RECT M2 ( -35 -65 ) ( 35 65 )"; "  ;"; "END VIAS"; "";
   "COMPONENTS 2 ;"; "END COMPONENTS"]%string.
Proof.
  assert (V : word "VIAS") by lit_word.
  split; [|split; [|split; [|split]]].
  - change "VIAS 1 ;"%string with ("VIAS " ++ print_int 1 ++ " ;")%string. apply head_ok. unfold int32. lia.
  - repeat split; try discriminate; unfold blank_char; cbn; intuition discriminate.
  - intros l [[<-|[]]|[<-|[<-|[<-|[]]]]]; (eapply no_start; [vm_compute; reflexivity|reflexivity|exact V]).
  - vm_compute. reflexivity.
  - vm_compute. reflexivity.
Qed.
(* Text after the number of vias on the same line is lost. *)
Theorem C135_same_line_text_refuted : exists lines, In "VIAS 1 ; - v1 + RECT M1 ( 0 0 ) ( 10 10 ) ;"%string lines /\
  ref_def [] lines = ["DESIGN d ;"; ""; "VIAS 1 ;"; "END VIAS"; "COMPONENTS 0 ;"]%string.
Proof. exists ["DESIGN d ;"; "VIAS 1 ; - v1 + RECT M1 ( 0 0 ) ( 10 10 ) ;"; "END VIAS"; "COMPONENTS 0 ;"]%string. split; [right; left; reflexivity|vm_compute; reflexivity]. Qed.
(* If the number of components (or vias) is on the next line, the made vias are not written. *)
Theorem C135_vias_written_refuted : exists lines, In "COMPONENTS"%string lines /\ forall made, ref_def made lines = lines.
Proof. exists ["DESIGN d ;"; "COMPONENTS"; " 0 ;"; "END COMPONENTS"]%string. split; [right; left; reflexivity|]. intros made. vm_compute. reflexivity. Qed.
