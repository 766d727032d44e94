From Coq Require Import String.
From Verif Require Import Base DwModel DwSpec DwProofs SnModel SnProofs DpProofs DvModel DvSpec DvProofs DnModel DnSpec DnProofs DgModel DgSpec.
Local Open Scope string_scope.
Local Open Scope Z_scope.
Local Open Scope list_scope.

Section Types.
Variable type_of : string -> ptype.
Lemma def_words a b r : is_name a -> is_name b -> stops r -> words (W a :: W b :: r) = ([a; b], r).
Proof. intros A B S. apply (words_names [a; b] r); [|exact S]. intros s [<-|[<-|[]]]; assumption. Qed.
Lemma def_props_stop ps rest : stops (flat_map def_prop ps ++ W ";" :: rest).
Proof. destruct ps as [|p ps]; reflexivity. Qed.

(* --- groups --- *)
Lemma gopts_props ps : forall f g rest, (forall p, In p ps -> prop_wf p /\ declared type_of p) -> (length ps < f)%nat ->
  read_gopts type_of f g (flat_map def_prop ps ++ W ";" :: rest) = Some (mkGp (gp_name g) (gp_members g) (gp_region g) (gp_props g ++ ps), rest).
Proof.
  induction ps as [|[[a b] k] ps IH]; intros f g rest H L; (destruct f as [|f]; [cbn [length] in L; lia|]); cbn [flat_map].
  - cbn [app read_gopts]. rewrite eat_same. rewrite app_nil_r. destruct g; reflexivity.
  - rewrite <- app_assoc. destruct (H _ (or_introl eq_refl)) as ((A & B) & D). unfold declared in D. cbn [fst snd] in A, B, D.
    change (def_prop (a, b, k) ++ ?r) with (W "+" :: W "PROPERTY" :: W a :: W b :: r). cbn [read_gopts]. rewrite eat_other by discriminate. rewrite eat_same. unfold read_gopt. do 2 rewrite eat_other by discriminate. rewrite eat_same.
    rewrite def_words; [|exact A|exact B|apply def_props_stop]. cbn [pairs option_map]. unfold typed. cbn [map fst snd]. rewrite <- D. rewrite IH; [|intros p P; apply H; right; exact P|cbn [length] in L; lia]. cbn [gp_name gp_members gp_region gp_props]. rewrite <- app_assoc. reflexivity.
Qed.
Lemma gopts_region g s f r : gp_region g = None -> is_name s -> read_gopts type_of (S f) g (W "+" :: W "REGION" :: W s :: r) = read_gopts type_of f (mkGp (gp_name g) (gp_members g) (Some s) (gp_props g)) r.
Proof. intros R N. cbn [read_gopts]. rewrite eat_other by discriminate. rewrite eat_same. unfold read_gopt. rewrite eat_other by discriminate. rewrite eat_same. rewrite name_paren by exact N. rewrite word_name by exact N. reflexivity. Qed.
Lemma group_head n l t : is_name n -> (forall s, In s l -> is_name s) -> stops t -> read_group type_of (W "-" :: W n :: map W l ++ t) = read_gopts type_of (S (length t)) (mkGp n l None []) t.
Proof. intros N L S. unfold read_group. rewrite eat_same. rewrite word_name by exact N. rewrite words_names by assumption. reflexivity. Qed.
Lemma def_props_len ps : (length ps <= length (flat_map def_prop ps))%nat.
Proof. induction ps as [|p ps IH]; cbn [flat_map length]; [lia|]. rewrite app_length. cbn [def_prop length]. lia. Qed.
Lemma group_input g rest : group_wf g -> (forall p, In p (gp_props g) -> declared type_of p) -> read_group type_of (def_group g ++ rest) = Some (g, rest).
Proof.
  intros (N & L & R & P) D. destruct g as [n l t ps]. cbn [gp_name gp_members gp_region gp_props] in *. unfold def_group. cbn [gp_name gp_members gp_region gp_props]. repeat rewrite <- app_assoc. cbn [app].
  assert (H : forall p, In p ps -> prop_wf p /\ declared type_of p) by (intros p I; split; [apply P|apply D]; exact I). pose proof (def_props_len ps) as K.
  destruct t as [s|]; cbn [app].
  - rewrite group_head; [|exact N|exact L|reflexivity]. rewrite gopts_region; [|reflexivity|apply R; reflexivity]. rewrite gopts_props; [reflexivity|exact H|]. cbn [length]. rewrite app_length. lia.
  - rewrite group_head; [|exact N|exact L|apply def_props_stop]. rewrite gopts_props; [reflexivity|exact H|]. rewrite app_length. lia.
Qed.
Lemma group_read g rest : group_wf g -> gp_props g = [] -> read_group type_of (print_group g ++ rest) = Some (g, rest).
Proof.
  intros Wf P. transitivity (read_group type_of (def_group g ++ rest)).
  - unfold print_group, def_group. rewrite P. destruct (gp_region g); reflexivity.
  - apply group_input; [exact Wf|]. rewrite P. intros p [].
Qed.
Lemma group_broken g rest : group_wf g -> gp_props g <> [] -> read_group type_of (print_group g ++ rest) = None.
Proof.
  intros (N & L & R & P) E. destruct g as [n l t [|[[a b] k] ps]]; cbn [gp_name gp_members gp_region gp_props] in *; [contradiction|]. destruct (P (a, b, k) (or_introl eq_refl)) as (A & B). cbn [fst snd] in A, B.
  assert (C : forall f g', read_gopts type_of f g' (flat_map print_prop ((a, b, k) :: ps) ++ W ";" :: rest) = None).
  { intros [|f] g'; [reflexivity|]. cbn [flat_map]. rewrite <- app_assoc. change (print_prop (a, b, k) ++ ?r) with (W "+" :: W "PROPERTY" :: W a :: W b :: W (ptype_str k) :: r). cbn [read_gopts]. rewrite eat_other by discriminate. rewrite eat_same. unfold read_gopt. do 2 rewrite eat_other by discriminate. rewrite eat_same.
    rewrite prop_words; [reflexivity|exact A|exact B|apply props_stop]. }
  unfold print_group. cbn [gp_name gp_members gp_region gp_props]. repeat rewrite <- app_assoc. cbn [app]. destruct t as [s|]; cbn [opt app].
  - rewrite group_head; [|exact N|exact L|reflexivity]. rewrite gopts_region; [|reflexivity|apply R; reflexivity]. apply C.
  - rewrite group_head; [|exact N|exact L|apply (props_stop ((a, b, k) :: ps))]. apply C.
Qed.

(* --- pin properties --- *)
Lemma ppopts_props ps : forall f g rest, (forall p, In p ps -> prop_wf p /\ declared type_of p) -> (length ps < f)%nat ->
  read_ppopts type_of f g (flat_map def_prop ps ++ W ";" :: rest) = Some (mkPp (pp_inst g) (pp_pin g) (pp_props g ++ ps), rest).
Proof.
  induction ps as [|[[a b] k] ps IH]; intros f g rest H L; (destruct f as [|f]; [cbn [length] in L; lia|]); cbn [flat_map].
  - cbn [app read_ppopts]. rewrite eat_same. rewrite app_nil_r. destruct g; reflexivity.
  - rewrite <- app_assoc. destruct (H _ (or_introl eq_refl)) as ((A & B) & D). unfold declared in D. cbn [fst snd] in A, B, D.
    change (def_prop (a, b, k) ++ ?r) with (W "+" :: W "PROPERTY" :: W a :: W b :: r). cbn [read_ppopts]. rewrite eat_other by discriminate. do 2 rewrite eat_same.
    rewrite def_words; [|exact A|exact B|apply def_props_stop]. cbn [pairs option_map]. unfold typed. cbn [map fst snd]. rewrite <- D. rewrite IH; [|intros p P; apply H; right; exact P|cbn [length] in L; lia]. cbn [pp_inst pp_pin pp_props]. rewrite <- app_assoc. reflexivity.
Qed.
Lemma pprop_head i p t : (forall s, i = Some s -> is_name s /\ s <> "PIN" /\ s <> "pin") -> is_name p ->
  read_pprop type_of (W "-" :: W (match i with Some s => s | None => "PIN" end) :: W p :: t) = read_ppopts type_of (S (length t)) (mkPp i p []) t.
Proof.
  intros I P. unfold read_pprop. rewrite eat_same. destruct i as [s|].
  - destruct (I s eq_refl) as (N & N1 & N2). rewrite word_name by exact N. rewrite word_name by exact P. unfold set_name. rewrite (proj2 (String.eqb_neq s "PIN") N1), (proj2 (String.eqb_neq s "pin") N2). reflexivity.
  - rewrite word_name by (apply sign_name; reflexivity). rewrite word_name by exact P. reflexivity.
Qed.
Lemma pprop_input p rest : pprop_wf p -> (forall q, In q (pp_props p) -> declared type_of q) -> read_pprop type_of (def_pprop p ++ rest) = Some (p, rest).
Proof.
  intros (I & P & Q) D. destruct p as [i n ps]. cbn [pp_inst pp_pin pp_props] in *. unfold def_pprop. cbn [pp_inst pp_pin pp_props]. repeat rewrite <- app_assoc. cbn [app]. rewrite pprop_head by assumption.
  rewrite ppopts_props; [reflexivity|intros q E; split; [apply Q|apply D]; exact E|]. rewrite app_length. pose proof (def_props_len ps). lia.
Qed.
(* what is left behind the entry *)
Definition pp_stray (p : pprop) : list tok := match pp_props p with [] => [] | ps => flat_map print_prop ps ++ [W ";"] end.
Lemma pprop_read p rest : pprop_wf p -> read_pprop type_of (print_pprop p ++ rest) = Some (mkPp (pp_inst p) (pp_pin p) [], pp_stray p ++ rest).
Proof.
  intros (I & P & _). unfold print_pprop. rewrite <- app_assoc. cbn [app]. rewrite pprop_head by assumption. cbn [read_ppopts]. rewrite eat_same. reflexivity.
Qed.
End Types.

(* --- slots and fills --- *)
Lemma def_points_read l : forall f r, eat "(" r = None -> (length l < f)%nat -> read_pts f (flat_map def_point l ++ r) = Some (l, r).
Proof.
  induction l as [|[x y] l IH]; intros f r E L; (destruct f as [|f]; [cbn [length] in L; lia|]); cbn [flat_map read_pts].
  - cbn [app]. rewrite E. reflexivity.
  - rewrite <- app_assoc. change (def_point (x, y) ++ ?t) with (W "(" :: Nu x :: Nu y :: W ")" :: t). rewrite eat_same. change (pt (W "(" :: Nu x :: Nu y :: W ")" :: ?t)) with (Some (x, y, t)). cbv iota beta. rewrite IH; [reflexivity|exact E|cbn [length] in L; lia].
Qed.
Lemma def_points_len l : (length l <= length (flat_map def_point l))%nat.
Proof. induction l as [|p l IH]; cbn [flat_map length]; [lia|]. rewrite app_length. cbn [def_point length]. lia. Qed.
Definition def_geom (g : geom) : list tok := match g with GRect (a, b, c, d) => W "RECT" :: def_point (a, b) ++ def_point (c, d) | GPoly l => W "POLYGON" :: flat_map def_point l end.
Definition geom_wf (g : geom) : Prop := match g with GRect _ => True | GPoly l => (3 <= length l)%nat end.
Definition geoms (s : slot) : list geom := map GRect (sl_rects s) ++ map GPoly (sl_polys s).
Lemma flat_map_map {A B C} (f : A -> B) (g : B -> list C) l : flat_map g (map f l) = flat_map (fun x => g (f x)) l.
Proof. induction l as [|x l IH]; cbn [map flat_map]; [reflexivity|rewrite IH; reflexivity]. Qed.
Lemma def_geoms_list s : def_geoms s = flat_map def_geom (geoms s).
Proof. unfold def_geoms, geoms. rewrite flat_map_app. rewrite !flat_map_map. reflexivity. Qed.
Lemma geom_read g r : geom_wf g -> eat "(" r = None -> read_geom (def_geom g ++ r) = Some (g, r).
Proof.
  intros Wf E. destruct g as [[[[a b] c] d]|l].
  - reflexivity.
  - cbn [def_geom app]. unfold read_geom. rewrite eat_other by discriminate. rewrite eat_same. rewrite def_points_read; [|exact E|rewrite app_length; pose proof (def_points_len l); lia]. cbn [geom_wf] in Wf. destruct (Z.leb_spec 3 (Z.of_nat (length l))); [reflexivity|lia].
Qed.
Lemma geom_free g r : eat "(" (def_geom g ++ r) = None /\ eat ";" (def_geom g ++ r) = None.
Proof. destruct g as [[[[a b] c] d]|l]; split; reflexivity. Qed.
Lemma geoms_free l rest : eat "(" (flat_map def_geom l ++ W ";" :: rest) = None.
Proof. destruct l as [|g l]; [reflexivity|]. cbn [flat_map]. rewrite <- app_assoc. apply geom_free. Qed.
Lemma geoms_read l : forall f s rest, (forall g, In g l -> geom_wf g) -> (length l < f)%nat -> read_geoms f s (flat_map def_geom l ++ W ";" :: rest) = Some (fold_left (fun s g => add_geom g s) l s, rest).
Proof.
  induction l as [|g l IH]; intros f s rest H L; (destruct f as [|f]; [cbn [length] in L; lia|]); cbn [flat_map read_geoms fold_left].
  - cbn [app]. rewrite eat_same. reflexivity.
  - rewrite <- app_assoc. rewrite (proj2 (geom_free g _)). rewrite geom_read; [|apply H; left; reflexivity|apply geoms_free]. apply IH; [intros x X; apply H; right; exact X|cbn [length] in L; lia].
Qed.
Lemma add_rects rs : forall s, fold_left (fun s g => add_geom g s) (map GRect rs) s = mkSl (sl_layer s) (sl_rects s ++ rs) (sl_polys s).
Proof. induction rs as [|r rs IH]; intros s; cbn [map fold_left]; [rewrite app_nil_r; destruct s; reflexivity|]. rewrite IH. cbn [add_geom sl_layer sl_rects sl_polys]. rewrite <- app_assoc. reflexivity. Qed.
Lemma add_polys ps : forall s, fold_left (fun s g => add_geom g s) (map GPoly ps) s = mkSl (sl_layer s) (sl_rects s) (sl_polys s ++ ps).
Proof. induction ps as [|r ps IH]; intros s; cbn [map fold_left]; [rewrite app_nil_r; destruct s; reflexivity|]. rewrite IH. cbn [add_geom sl_layer sl_rects sl_polys]. rewrite <- app_assoc. reflexivity. Qed.
Lemma geoms_all s : fold_left (fun s g => add_geom g s) (geoms s) (mkSl (sl_layer s) [] []) = s.
Proof. unfold geoms. rewrite fold_left_app, add_rects, add_polys. destruct s; reflexivity. Qed.
Lemma geoms_len l : (length l <= length (flat_map def_geom l))%nat.
Proof. induction l as [|g l IH]; cbn [flat_map length]; [lia|]. rewrite app_length. assert (1 <= length (def_geom g))%nat by (destruct g as [[[[a b] c] d]|q]; cbn; lia). lia. Qed.
(* all shapes of a layer, the first one apart *)
Lemma slot_shapes s rest : slot_wf s -> exists g r, read_geom (def_geoms s ++ W ";" :: rest) = Some (g, r) /\ read_geoms (S (length r)) (add_geom g (mkSl (sl_layer s) [] [])) r = Some (s, rest).
Proof.
  intros (N & E & P). rewrite def_geoms_list. assert (G : forall g, In g (geoms s) -> geom_wf g). { intros g I. unfold geoms in I. apply in_app_or in I. destruct I as [I|I]; apply in_map_iff in I; destruct I as (x & <- & I); [exact Logic.I|apply P; exact I]. }
  pose proof (geoms_all s) as A. destruct (geoms s) as [|g l] eqn:X.
  - exfalso. unfold geoms in X. apply app_eq_nil in X. destruct X as (X1 & X2). apply map_eq_nil in X1, X2. destruct E; contradiction.
  - exists g, (flat_map def_geom l ++ W ";" :: rest). split.
    + cbn [flat_map]. rewrite <- app_assoc. apply geom_read; [apply G; left; reflexivity|apply geoms_free].
    + rewrite geoms_read; [cbn [fold_left] in A; rewrite A; reflexivity|intros x I; apply G; right; exact I|]. rewrite app_length. pose proof (geoms_len l). lia.
Qed.
Lemma slot_input s rest : slot_wf s -> read_slot (def_slot s ++ rest) = Some (s, rest).
Proof.
  intros Wf. destruct (slot_shapes s rest Wf) as (g & r & G & R). unfold def_slot. repeat rewrite <- app_assoc. cbn [app]. unfold read_slot. do 2 rewrite eat_same. rewrite word_name by exact (proj1 Wf). rewrite G. exact R.
Qed.
Lemma fopts_read m o r : eat "+" r = None -> read_fopts (S (length (def_opts m o ++ r))) 0 false (def_opts m o ++ r) = Some (m, o, r).
Proof.
  intros E. unfold def_opts. destruct (Z.eqb_spec m 0) as [->|M]; destruct o; cbn [app length read_fopts].
  - rewrite eat_same. rewrite eat_other by discriminate. rewrite eat_same. rewrite E. reflexivity.
  - rewrite E. reflexivity.
  - do 2 rewrite eat_same. cbn [num]. rewrite eat_same. rewrite eat_other by discriminate. rewrite eat_same. rewrite E. reflexivity.
  - do 2 rewrite eat_same. cbn [num]. rewrite E. reflexivity.
Qed.
Lemma fill_input f rest : fill_wf f -> read_fill (def_fill f ++ rest) = Some (f, rest).
Proof.
  intros Wf. destruct f as [m o s|n m o l]; cbn [def_fill]; repeat rewrite <- app_assoc; cbn [app]; unfold read_fill; rewrite eat_same.
  - rewrite eat_same. rewrite word_name by exact (proj1 Wf). rewrite fopts_read. 2: { rewrite def_geoms_list. destruct (geoms s) as [|[[[[a b] c] d]|q] t]; reflexivity. }
    destruct (slot_shapes s rest Wf) as (g & r & G & R). rewrite G, R. reflexivity.
  - rewrite eat_other by discriminate. rewrite eat_same. destruct Wf as (N & E). rewrite word_name by exact N. rewrite fopts_read by (destruct l as [|[x y] l]; reflexivity). rewrite def_points_read; [|reflexivity|rewrite app_length; pose proof (def_points_len l); lia]. destruct l; [contradiction|]. rewrite eat_same. reflexivity.
Qed.
(* as printed *)
Lemma bare_broken l r : eat "(" (bare_points l ++ W ";" :: r) = None. Proof. destruct l as [|[x y] l]; reflexivity. Qed.
Lemma geoms_broken rs ps rest : read_geom (print_geoms rs ps ++ rest) = None.
Proof.
  unfold print_geoms. repeat rewrite <- app_assoc. destruct rs as [|[[[a b] c] d] rs]; [|reflexivity]. cbn [flat_map app]. destruct ps as [|l ps]; [reflexivity|]. cbn [flat_map app]. repeat rewrite <- app_assoc. cbn [app].
  unfold read_geom. rewrite eat_other by discriminate. rewrite eat_same. cbn [read_pts]. rewrite bare_broken. reflexivity.
Qed.
Lemma slot_broken s rest : read_slot (print_slot s ++ rest) = None.
Proof. unfold print_slot, read_slot. repeat rewrite <- app_assoc. cbn [app]. do 2 rewrite eat_same. destruct (word _) as [[n r]|] eqn:E; [|reflexivity]. cbn [word] in E. destruct (sign _); [discriminate|]. injection E as <- <-. rewrite geoms_broken. reflexivity. Qed.
Lemma fill_opts_same m o : fill_opts m o = def_opts m o. Proof. reflexivity. Qed.
Lemma fill_broken f rest : read_fill (print_fill f ++ rest) = None.
Proof.
  destruct f as [m o s|n m o l]; cbn [print_fill]; repeat rewrite <- app_assoc; cbn [app]; unfold read_fill; rewrite eat_same; rewrite fill_opts_same.
  - rewrite eat_same. destruct (word _) as [[n r]|] eqn:E; [|reflexivity]. cbn [word] in E. destruct (sign _); [discriminate|]. injection E as <- <-. rewrite fopts_read.
    + rewrite geoms_broken. reflexivity.
    + unfold print_geoms. destruct (sl_rects s) as [|[[[a b] c] d] rs]; [|reflexivity]. destruct (sl_polys s); reflexivity.
  - rewrite eat_other by discriminate. rewrite eat_same. destruct (word _) as [[k r]|] eqn:E; [|reflexivity]. cbn [word] in E. destruct (sign _); [discriminate|]. injection E as <- <-. rewrite fopts_read by (destruct l as [|[x y] l]; reflexivity). cbn [read_pts]. rewrite bare_broken. reflexivity.
Qed.

(* --- a section as a DEF file gives it, with its end behind the last object --- *)
Lemma sec_text {A} key (pr : A -> list tok) rd n l rest : (forall x, exists r, pr x = W "-" :: r) -> (forall x, In x l -> forall r, rd (pr x ++ r) = Some (x, r)) ->
  read_sec key rd ([W key; Nu n; W ";"] ++ flat_map pr l ++ W "END" :: W key :: rest) = Some (n, l, rest).
Proof.
  intros D H. unfold read_sec. cbn [app]. rewrite eat_same. cbn [num]. rewrite eat_same. pose proof (flat_len pr rd D l) as L.
  assert (F : exists f, S (length (flat_map pr l ++ W "END" :: W key :: rest)) = (length l + S f)%nat). { exists (length (flat_map pr l ++ W "END" :: W key :: rest) - length l)%nat. rewrite app_length in *. lia. }
  destruct F as (f & ->). rewrite counted_step; [|exact D|exact H]. cbn [read_counted]. rewrite eat_other by discriminate. do 2 rewrite eat_same. rewrite app_nil_r. reflexivity.
Qed.
