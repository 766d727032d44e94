(* Proofs about the reading of LEF 5.8 cut spacing rules. *)
From Verif Require Import Base CspModel CspSpec.
From Coq Require Import List String.
Open Scope list_scope.

Section P.
Variable T : Type.
Variable dbu int_of : T -> Z.
Variable cls : word T -> option Z.
Notation word := (word T).
Notation setting := (setting T).
Notation KW k := (@K T k).
Notation layer_go := (layer_go T dbu cls). Notation adj_go := (adj_go T dbu int_of cls). Notation cuts_go := (cuts_go T dbu int_of cls). Notation rule_read := (rule_read T dbu int_of cls).
Notation mkSt := (mkSt T). Notation verdict := (verdict T).

Definition plain_head (h : head_rule T) : head_rule T := mkH T (h_space T h) false false (h_center T h) (h_net T h).
Definition plain_layer (r : layer_rule T) : layer_rule T := mkLR T (plain_head (lr_head T r)) (lr_layer T r) (lr_second T r).
Definition plain_cuts (r : cuts_rule T) : cuts_rule T :=
  mkCR T (plain_head (c_head T r)) (c_num T r) (c_exact T r) (c_two T r) (c_within1 T r) (c_within T r) (c_pg T r) (c_all T r) (c_encl T r) (c_class T r) (c_prl T r) (c_mask T r).
Definition layer_kept (r : layer_rule T) : bool := match lr_second T r with LClass _ _ (KAny _) | LClass _ _ (KAbove _ _ None) => false | _ => true end.
Definition cuts_kept (r : cuts_rule T) : bool :=
  match c_within1 T r, c_class T r, c_prl T r with None, Some (_, false), None => negb (c_mask T r) | _, _, _ => false end.
Definition effect (r : rule T) : list (list setting) :=
  match r with
  | RLayer _ r => if layer_kept r then layer_mean T dbu cls (plain_layer r) else []
  | RCuts _ r => if cuts_kept r then cuts_mean T dbu int_of cls (plain_cuts r) else []
  | ROther _ _ => []
  end.
Definition out (l : list (list setting)) : outcome T := match l with c :: _ => Added T c | [] => Skipped T end.

(* ---- splitting a property into rules ---- *)
Definition inner (w : word) : bool := negb (isk T SPACING w) && negb (isk T SEMI w).
Lemma collect_inner : forall (ws : list word) ss, forallb inner ws = true -> fold_left (collect T) ws ss = ss ++ ws.
Proof.
  induction ws as [|w ws IH]; intros ss H; cbn [fold_left]; [rewrite app_nil_r; reflexivity|]. cbn [forallb] in H. apply andb_prop in H as [Hw H].
  unfold collect at 2. unfold inner in Hw. destruct (isk T SPACING w) eqn:E; [discriminate Hw|]. rewrite (IH _ H), <- app_assoc. reflexivity.
Qed.
Lemma go_inner : forall (ws : list word) ss rest, forallb inner ws = true -> cut_spacing_go T dbu int_of cls (ws ++ rest) ss = cut_spacing_go T dbu int_of cls rest (ss ++ ws).
Proof.
  induction ws as [|w ws IH]; intros ss rest H; cbn [app]; [rewrite app_nil_r; reflexivity|]. cbn [forallb] in H. apply andb_prop in H as [Hw H].
  cbn [cut_spacing_go]. unfold inner in Hw. unfold collect. destruct (isk T SPACING w) eqn:E; [discriminate Hw|]. destruct (isk T SEMI w) eqn:E2; [discriminate Hw|].
  rewrite (IH _ _ H), <- app_assoc. reflexivity.
Qed.
Definition join (o : outcome T) (l : option (list (list setting))) : option (list (list setting)) :=
  match o, l with Hangs _, _ => None | _, None => None | Added _ c, Some l => Some (c :: l) | Skipped _, Some l => Some l end.
Lemma go_rule : forall (ws : list word) ss rest, forallb inner ws = true ->
  cut_spacing_go T dbu int_of cls (([KW SPACING] ++ ws ++ [KW SEMI]) ++ rest) ss = join (rule_read ([KW SPACING] ++ ws ++ [KW SEMI])) (cut_spacing_go T dbu int_of cls rest ([KW SPACING] ++ ws ++ [KW SEMI])).
Proof.
  intros ws ss rest H. rewrite <- !app_assoc. cbn [app]. cbn [cut_spacing_go]. unfold collect at 1. cbn [isk]. replace (isk T SEMI (KW SPACING)) with false by reflexivity.
  replace (isk T SPACING (KW SPACING)) with true by reflexivity. cbv iota. rewrite (go_inner ws _ _ H). cbn [app cut_spacing_go]. replace (isk T SEMI (KW SEMI)) with true by reflexivity.
  unfold collect. replace (isk T SPACING (KW SEMI)) with false by reflexivity. cbv iota. reflexivity.
Qed.
Lemma rule_words : forall (ws : list word), forallb inner ws = true ->
  rule_read ([KW SPACING] ++ ws ++ [KW SEMI]) =
  match fold_left (keyword T) ws HNone with HLayer => layer_read T dbu cls ([KW SPACING] ++ ws ++ [KW SEMI]) | HCuts => cuts_read T dbu int_of cls ([KW SPACING] ++ ws ++ [KW SEMI]) | _ => Skipped T end.
Proof.
  intros ws H. unfold CspModel.rule_read. cbn [app fold_left]. rewrite !fold_left_app. replace (collect T [] (KW SPACING)) with [KW SPACING] by reflexivity. rewrite (collect_inner ws _ H).
  cbn [fold_left]. unfold collect. replace (isk T SPACING (KW SEMI)) with false by reflexivity. cbv iota. replace (keyword T HNone (KW SPACING)) with HNone by reflexivity.
  rewrite <- app_assoc. cbn [app]. destruct (fold_left (keyword T) ws HNone); reflexivity.
Qed.

(* ---- the head ---- *)
Definition head_rest (h : head_rule T) : list word := tl (head_words T h).
Lemma head_split : forall h, head_words T h = KW SPACING :: head_rest h. Proof. reflexivity. Qed.
Definition head_turns (h : head_rule T) : nat := List.length (head_words T h) - 1.
Lemma cuts_head : forall h n rest, cuts_go (head_turns h + n) (mkSt (head_words T h ++ rest) false false []) = cuts_go n (mkSt rest false false (head_mean T dbu (plain_head h))).
Proof. intros [s a b c [| | |]] n rest; destruct a, b, c; reflexivity. Qed.
Lemma layer_head : forall h n rest, layer_go (head_turns h + n) (mkSt (head_words T h ++ rest) false false []) = layer_go n (mkSt rest false false (head_mean T dbu (plain_head h))).
Proof. intros [s a b c [| | |]] n rest; destruct a, b, c; reflexivity. Qed.
Lemma head_length : forall h, List.length (head_words T h) = S (head_turns h). Proof. intros [s a b c [| | |]]; destruct a, b, c; reflexivity. Qed.
Lemma head_inner : forall h, forallb inner (head_rest h) = true. Proof. intros [s a b c [| | |]]; destruct a, b, c; reflexivity. Qed.

(* ---- LAYER ---- *)
Definition second_words (s : second_rule T) : list word :=
  match s with LAny _ => [] | LStack _ => [KW STACK] | LOrth _ x => [KW ORTHOGONALSPACING; Num T x] | LClass _ c k => [KW CUTCLASS; Other T c] ++ class_words T k end.
Lemma second_inner : forall s, forallb inner (second_words s) = true.
Proof. intros [| |x|c [|[p|]|[| | |]|x|w [l|]|w [e|]| |]]; reflexivity. Qed.
Definition lbody (r : layer_rule T) : list word := head_rest (lr_head T r) ++ [KW LAYER; Other T (lr_layer T r)] ++ second_words (lr_second T r).
Lemma lbody_words : forall r, layer_words T r = [KW SPACING] ++ lbody r ++ [KW SEMI].
Proof. intros r. unfold layer_words, lbody. rewrite head_split, <- !app_assoc. reflexivity. Qed.
Lemma lbody_inner : forall r, forallb inner (lbody r) = true.
Proof. intros r. unfold lbody. rewrite !forallb_app, head_inner, second_inner. reflexivity. Qed.
Lemma lbody_keyword : forall r, fold_left (keyword T) (lbody r) HNone = HLayer.
Proof.
  intros r. unfold lbody. rewrite fold_left_app. cbn [app]. cbn [fold_left]. set (h := fold_left _ (head_rest _) _). replace (keyword T h (KW LAYER)) with HLayer by (destruct h; reflexivity).
  destruct (lr_second T r) as [| |x|c [|[p|]|[| | |]|x|w [l|]|w [e|]| |]]; reflexivity.
Qed.
Lemma go_layer : forall l c r h m, layer_go (S m) (mkSt ([KW LAYER; Other T l; KW CUTCLASS; Other T c] ++ r) false false h) =
  layer_go m (of_class T dbu (class_name T cls (mkSt (Other T c :: r) false false (h ++ [SecondLayer T (Other T l)])))).
Proof. reflexivity. Qed.
Lemma class_known : forall c r h k, class_name T cls (mkSt (Other T c :: r) false k h) =
  match cls (Other T c) with Some i => mkSt r false k ((h ++ [ClassName T (Other T c)]) ++ [ClassIdx T i]) | None => mkSt r false true (h ++ [ClassName T (Other T c)]) end.
Proof. intros. unfold class_name, rd. cbn [s_bad s_ws at_ws]. destruct (cls (Other T c)); reflexivity. Qed.
Lemma layer_tail : forall l s h m,
  verdict (layer_go (S m) (mkSt (([KW LAYER; Other T l] ++ second_words s) ++ [KW SEMI]) false false h)) =
  match s with
  | LAny _ => Added T (h ++ [SecondLayer T (Other T l)])
  | LStack _ => Added T ((h ++ [SecondLayer T (Other T l)]) ++ [Stack T])
  | LOrth _ x => Added T ((h ++ [SecondLayer T (Other T l)]) ++ [Orthogonal T (dbu x)])
  | LClass _ c (KAny _) | LClass _ c (KAbove _ _ None) => Skipped T
  | LClass _ c k => match cls (Other T c) with Some i => Added T ((h ++ [SecondLayer T (Other T l)]) ++ class_mean T c i ++ class_rule_mean T dbu k) | None => Skipped T end
  end.
Proof.
  intros l s h m.
  destruct s as [| |x|c k]; [destruct m as [|[|m]]; reflexivity..|].
  replace (([KW LAYER; Other T l] ++ second_words (LClass T c k)) ++ [KW SEMI]) with ([KW LAYER; Other T l; KW CUTCLASS; Other T c] ++ (class_words T k ++ [KW SEMI])) by (cbn [second_words app]; reflexivity).
  rewrite go_layer, class_known. generalize (h ++ [SecondLayer T (Other T l)]). clear h. intros h.
  destruct (cls (Other T c)) as [i|].
  - destruct k as [|[p|]|[| | |]|x|w [e|]|w [e|]| |]; cbn [class_words class_rule_mean opt app concave_words concave_mean]; unfold class_mean; rewrite <- ?app_assoc; cbn [app]; destruct m as [|[|m]]; lazy -[List.app]; rewrite <- ?app_assoc; reflexivity.
  - destruct k as [|[p|]|[| | |]|x|w [e|]|w [e|]| |]; destruct m as [|[|m]]; reflexivity.
Qed.
Lemma layer_read_words : forall r, rule_read (layer_words T r) = out (effect (RLayer T r)).
Proof.
  intros r. rewrite lbody_words, (rule_words _ (lbody_inner r)), lbody_keyword, <- lbody_words. unfold layer_read, st0, layer_words. fold (second_words (lr_second T r)).
  rewrite app_length, head_length. replace (S (head_turns (lr_head T r)) + List.length ([KW LAYER; Other T (lr_layer T r)] ++ second_words (lr_second T r) ++ [KW SEMI]))%nat
    with (head_turns (lr_head T r) + (1 + List.length ([KW LAYER; Other T (lr_layer T r)] ++ second_words (lr_second T r) ++ [KW SEMI])))%nat by lia.
  rewrite layer_head. rewrite (app_assoc [KW LAYER; _] (second_words _)). cbn [Nat.add]. rewrite layer_tail.
  unfold effect, layer_kept, layer_mean, plain_layer. cbn [lr_head lr_layer lr_second]. destruct (lr_second T r) as [| |x|c [|[p|]|[| | |]|x|w [e|]|w [e|]| |]]; cbn [out]; try reflexivity; destruct (cls (Other T c)); reflexivity.
Qed.

(* ---- ADJACENTCUTS ---- *)
Definition turns {A} (o : option A) : nat := match o with Some _ => 1 | None => 0 end.
Definition two_words (o : option (T * option T * bool)) : list word :=
  opt o (fun t => [KW TWOCUTS; Num T (fst (fst t))] ++ opt (snd (fst t)) (fun x => [KW TWOCUTSSPACING; Num T x]) ++ flag (snd t) [KW SAMECUT]).
Definition two_mean (o : option (T * option T * bool)) : list setting :=
  opt o (fun t => [TwoCuts T (int_of (fst (fst t)))] ++ opt (snd (fst t)) (fun x => [TwoCutsSpacing T (dbu x)]) ++ flag (snd t) [SameCut T]).
Lemma adj_exact : forall (o : option T) m rest k h, adj_go (turns o + m) (mkSt (opt o (fun x => [KW EXACTALIGNED; Num T x]) ++ rest) false k h) = adj_go m (mkSt rest false k (h ++ opt o (fun x => [ExactAligned T (int_of x)]))).
Proof. intros [x|] m rest k h; cbn [opt turns]; [reflexivity|]. rewrite app_nil_r. reflexivity. Qed.
Lemma adj_two : forall o m rest k h, adj_go (turns o + m) (mkSt (two_words o ++ KW WITHIN :: rest) false k h) = adj_go m (mkSt (KW WITHIN :: rest) false k (h ++ two_mean o)).
Proof.
  intros [[[n s] b]|] m rest k h; unfold two_words, two_mean; cbn [opt turns fst snd flag]; [|rewrite app_nil_r; reflexivity].
  destruct s as [s|], b; cbn [opt flag app]; rewrite ?(app_comm_cons [_] _ (TwoCuts T _)).
  - replace (h ++ [TwoCuts T (int_of n); TwoCutsSpacing T (dbu s); SameCut T]) with (((h ++ [TwoCuts T (int_of n)]) ++ [TwoCutsSpacing T (dbu s)]) ++ [SameCut T]) by (rewrite <- !app_assoc; reflexivity). reflexivity.
  - replace (h ++ [TwoCuts T (int_of n); TwoCutsSpacing T (dbu s)]) with ((h ++ [TwoCuts T (int_of n)]) ++ [TwoCutsSpacing T (dbu s)]) by (rewrite <- !app_assoc; reflexivity). reflexivity.
  - replace (h ++ [TwoCuts T (int_of n); SameCut T]) with ((h ++ [TwoCuts T (int_of n)]) ++ [SameCut T]) by (rewrite <- !app_assoc; reflexivity). reflexivity.
  - reflexivity.
Qed.
Definition some {A} (o : option A) : bool := match o with Some _ => true | None => false end.
(* [x]: the distance that is kept *)
Lemma adj_within : forall (o : option T) w m rest k h, adj_go (turns o + S m) (mkSt (KW WITHIN :: opt o (fun x => [Num T x]) ++ Num T w :: rest) false k h) =
  adj_go m (mkSt rest false (k || some o) (h ++ [CutWithin T (dbu (match o with Some x => x | None => w end))])).
Proof. intros [x|] w m rest k h; destruct k; reflexivity. Qed.
Lemma adj_pg : forall b m rest k h, adj_go ((if b : bool then 1 else 0) + m) (mkSt (flag b [KW EXCEPTSAMEPGNET] ++ rest) false k h) = adj_go m (mkSt rest false k (h ++ flag b [ExceptSamePGNet T])).
Proof. intros [|] m rest k h; cbn [flag]; [reflexivity|]. rewrite app_nil_r. reflexivity. Qed.
Lemma adj_all : forall (o : option T) m rest k h, adj_go (turns o + m) (mkSt (opt o (fun x => [KW EXCEPTALLWITHIN; Num T x]) ++ rest) false k h) = adj_go m (mkSt rest false k (h ++ opt o (fun x => [ExceptAllWithin T (dbu x)]))).
Proof. intros [x|] m rest k h; cbn [opt turns]; [reflexivity|]. rewrite app_nil_r. reflexivity. Qed.
Lemma adj_encl : forall (o : option (option bool * T)) m rest k h, adj_go (turns o + m) (mkSt (opt o (fun e => [KW ENCLOSURE] ++ side_words T (fst e) ++ [Num T (snd e)]) ++ rest) false k h) =
  adj_go m (mkSt rest false k (h ++ opt o (fun e => side_mean T (fst e) ++ [Enclosure T (dbu (snd e))]))).
Proof.
  intros [[[[|]|] e]|] m rest k h; cbn [opt turns fst snd side_words side_mean app].
  - replace (h ++ [Above T; Enclosure T (dbu e)]) with ((h ++ [Above T]) ++ [Enclosure T (dbu e)]) by (rewrite <- app_assoc; reflexivity). reflexivity.
  - replace (h ++ [Below T; Enclosure T (dbu e)]) with ((h ++ [Below T]) ++ [Enclosure T (dbu e)]) by (rewrite <- app_assoc; reflexivity). reflexivity.
  - reflexivity.
  - rewrite app_nil_r. reflexivity.
Qed.
Definition tail_words (c : option (string * bool)) (p : option bool) (b : bool) : list word :=
  opt c (fun c => [KW CUTCLASS; Other T (fst c)] ++ flag (snd c) [KW TO; KW ALL]) ++ opt p (fun b => [KW (if b then NOPRL else SIDEPARALLELOVERLAP)]) ++ flag b [KW SAMEMASK].
Definition verdict' (o : option (st T)) : outcome T := match o with Some s => verdict s | None => Hangs T end.
Lemma adj_class : forall c r k h m, adj_go (S m) (mkSt (KW CUTCLASS :: Other T c :: r) false k h) =
  adj_go m (let s := class_name T cls (mkSt (Other T c :: r) false k h) in
    let pos := s_ws T s in rd T s (fun w1 s => rd T s (fun w2 s => if isk T TO w1 && isk T ALL w2 then put T (ToAll T) s else seek T pos s) (id T)) (id T)).
Proof. reflexivity. Qed.
Lemma adj_tail : forall c p b k h m, verdict' (adj_go (turns c + (turns p + ((if b : bool then 1 else 0) + S m))) (mkSt (tail_words c p b ++ [KW SEMI]) false k h)) =
  match c, p, b with
  | Some (c, false), None, false => match cls (Other T c) with Some i => if k then Skipped T else Added T (h ++ class_mean T c i) | None => Skipped T end
  | _, _, _ => Skipped T
  end.
Proof.
  intros [[c a]|] p b k h m; unfold tail_words; cbn [opt fst snd].
  - rewrite <- !app_assoc. cbn [app Nat.add turns]. rewrite adj_class, class_known. cbv zeta. unfold class_mean. destruct (cls (Other T c)) as [i|].
    + destruct a, p as [[|]|], b, k; try (destruct m; reflexivity). destruct m; cbn [flag opt app]; lazy -[List.app]; rewrite <- app_assoc; reflexivity.
    + destruct a, p as [[|]|], b, k; destruct m; reflexivity.
  - destruct p as [[|]|], b, k; destruct m; reflexivity.
Qed.
Definition cafter (r : cuts_rule T) : list word :=
  opt (c_exact T r) (fun x => [KW EXACTALIGNED; Num T x]) ++ two_words (c_two T r) ++ [KW WITHIN] ++ opt (c_within1 T r) (fun x => [Num T x]) ++ [Num T (c_within T r)] ++
  flag (c_pg T r) [KW EXCEPTSAMEPGNET] ++ opt (c_all T r) (fun x => [KW EXCEPTALLWITHIN; Num T x]) ++ opt (c_encl T r) (fun e => [KW ENCLOSURE] ++ side_words T (fst e) ++ [Num T (snd e)]) ++
  tail_words (c_class T r) (c_prl T r) (c_mask T r).
Definition cbody (r : cuts_rule T) : list word := head_rest (c_head T r) ++ [KW ADJACENTCUTS; Num T (c_num T r)] ++ cafter r.
Lemma cuts_words_after : forall r, cuts_words T r = head_words T (c_head T r) ++ [KW ADJACENTCUTS; Num T (c_num T r)] ++ cafter r ++ [KW SEMI].
Proof. intros r. unfold cuts_words, cafter, tail_words, two_words. rewrite <- !app_assoc. reflexivity. Qed.
Lemma cbody_words : forall r, cuts_words T r = [KW SPACING] ++ cbody r ++ [KW SEMI].
Proof. intros r. rewrite cuts_words_after. unfold cbody. rewrite head_split, <- !app_assoc. reflexivity. Qed.
Definition quiet (w : word) : bool := match w with K _ (SPACING | SEMI | LAYER | MAXXY | PARALLELOVERLAP | PARALLELWITHIN | SAMEMETALSHAREDEDGE | AREA) => false | _ => true end.
Lemma cafter_quiet : forall r, forallb quiet (cafter r) = true.
Proof.
  intros r. unfold cafter, tail_words, two_words. rewrite !forallb_app. repeat (apply andb_true_intro; split); try reflexivity.
  - destruct (c_exact T r); reflexivity.
  - destruct (c_two T r) as [[[n [s|]] [|]]|]; reflexivity.
  - destruct (c_within1 T r); reflexivity.
  - destruct (c_pg T r); reflexivity.
  - destruct (c_all T r); reflexivity.
  - destruct (c_encl T r) as [[[[|]|] e]|]; reflexivity.
  - destruct (c_class T r) as [[c [|]]|]; reflexivity.
  - destruct (c_prl T r) as [[|]|]; reflexivity.
  - destruct (c_mask T r); reflexivity.
Qed.
Lemma quiet_inner : forall ws, forallb quiet ws = true -> forallb inner ws = true.
Proof. intros ws H. rewrite forallb_forall in *. intros w Hw. specialize (H w Hw). destruct w as [[]|x|x]; cbn in H; try discriminate H; reflexivity. Qed.
Lemma quiet_keyword : forall ws, forallb quiet ws = true -> fold_left (keyword T) ws HCuts = HCuts.
Proof.
  induction ws as [|w ws IH]; intros H; [reflexivity|]. cbn [forallb] in H. apply andb_prop in H as [Hw H]. cbn [fold_left].
  replace (keyword T HCuts w) with HCuts; [exact (IH H)|]. destruct w as [[]|x|x]; cbn in Hw; try discriminate Hw; reflexivity.
Qed.
Lemma cbody_inner : forall r, forallb inner (cbody r) = true.
Proof. intros r. unfold cbody. rewrite !forallb_app, head_inner, (quiet_inner _ (cafter_quiet r)). reflexivity. Qed.
Lemma cbody_keyword : forall r, fold_left (keyword T) (cbody r) HNone = HCuts.
Proof.
  intros r. unfold cbody. rewrite fold_left_app. cbn [app]. cbn [fold_left]. set (h := fold_left _ (head_rest _) _). replace (keyword T (keyword T h (KW ADJACENTCUTS)) (Num T (c_num T r))) with HCuts by (destruct h; reflexivity).
  apply quiet_keyword, cafter_quiet.
Qed.
Lemma cuts_adj : forall n x rest h, cuts_go (S n) (mkSt ([KW ADJACENTCUTS; Num T x] ++ rest) false false h) = adj_go (S (List.length rest)) (mkSt rest false false (h ++ [AdjacentCuts T (int_of x)])).
Proof. reflexivity. Qed.
Lemma length_opt : forall A B (o : option A) (f : A -> list B) n, (forall a, n <= List.length (f a))%nat -> (turns o * n <= List.length (opt o f))%nat.
Proof. intros A B [a|] f n H; cbn [opt turns]; [specialize (H a); lia|cbn; lia]. Qed.
Lemma cafter_length : forall r, exists m, S (List.length (cafter r ++ [KW SEMI])) =
  (turns (c_exact T r) + (turns (c_two T r) + (turns (c_within1 T r) + S ((if c_pg T r then 1 else 0) + (turns (c_all T r) + (turns (c_encl T r) +
    (turns (c_class T r) + (turns (c_prl T r) + ((if c_mask T r then 1 else 0) + S m)))))))))%nat.
Proof.
  intros r. unfold cafter, tail_words, two_words. rewrite !app_length. cbn [List.length].
  assert (A : forall A B (o : option A) (f : A -> list B), (forall a, 1 <= List.length (f a))%nat -> (turns o <= List.length (opt o f))%nat) by (intros A B [a|] f H; cbn [opt turns]; [exact (H a)|lia]).
  pose proof (A _ _ (c_exact T r) (fun x => [KW EXACTALIGNED; Num T x]) ltac:(intros; cbn; lia)) as H1.
  pose proof (A _ _ (c_two T r) (fun t => [KW TWOCUTS; Num T (fst (fst t))] ++ opt (snd (fst t)) (fun x => [KW TWOCUTSSPACING; Num T x]) ++ flag (snd t) [KW SAMECUT]) ltac:(intros; cbn; lia)) as H2.
  pose proof (A _ _ (c_within1 T r) (fun x => [Num T x]) ltac:(intros; cbn; lia)) as H3.
  pose proof (A _ _ (c_all T r) (fun x => [KW EXCEPTALLWITHIN; Num T x]) ltac:(intros; cbn; lia)) as H4.
  pose proof (A _ _ (c_encl T r) (fun e => [KW ENCLOSURE] ++ side_words T (fst e) ++ [Num T (snd e)]) ltac:(intros; cbn; lia)) as H5.
  pose proof (A _ _ (c_class T r) (fun c => [KW CUTCLASS; Other T (fst c)] ++ flag (snd c) [KW TO; KW ALL]) ltac:(intros; cbn; lia)) as H6.
  pose proof (A _ _ (c_prl T r) (fun b : bool => [KW (if b then NOPRL else SIDEPARALLELOVERLAP)]) ltac:(intros; cbn; lia)) as H7.
  assert (H8 : (if c_pg T r then 1 else 0)%nat = List.length (flag (c_pg T r) [KW EXCEPTSAMEPGNET])) by (destruct (c_pg T r); reflexivity).
  assert (H9 : (if c_mask T r then 1 else 0)%nat = List.length (flag (c_mask T r) [KW SAMEMASK])) by (destruct (c_mask T r); reflexivity).
  rewrite H8, H9.
  repeat match goal with |- context [List.length (opt ?o ?f)] => let n := fresh "n" in set (n := List.length (opt o f)) in *; clearbody n end.
  repeat match goal with |- context [List.length (flag ?o ?f)] => let n := fresh "n" in set (n := List.length (flag o f)) in *; clearbody n end.
  match goal with |- exists m, ?a = _ => exists (a - (turns (c_exact T r) + turns (c_two T r) + turns (c_within1 T r) + 1 + n6 + turns (c_all T r) + turns (c_encl T r) + turns (c_class T r) + turns (c_prl T r) + n7 + 1))%nat end.
  lia.
Qed.
Lemma cuts_read_words : forall r, rule_read (cuts_words T r) = out (effect (RCuts T r)).
Proof.
  intros r. rewrite cbody_words, (rule_words _ (cbody_inner r)), cbody_keyword, <- cbody_words. unfold cuts_read, st0. rewrite cuts_words_after.
  set (rest := cafter r ++ [KW SEMI]). rewrite app_length, head_length. replace (S (head_turns (c_head T r)) + List.length ([KW ADJACENTCUTS; Num T (c_num T r)] ++ rest))%nat
    with (head_turns (c_head T r) + S (List.length ([KW ADJACENTCUTS; Num T (c_num T r)] ++ rest)))%nat by lia.
  rewrite cuts_head, cuts_adj. unfold rest. destruct (cafter_length r) as (m & ->). unfold cafter. rewrite <- !app_assoc.
  rewrite adj_exact. cbn [app]. rewrite adj_two, adj_within, adj_pg, adj_all, adj_encl.
  pose proof (fun k h => adj_tail (c_class T r) (c_prl T r) (c_mask T r) k h m) as X. unfold verdict' in X. rewrite X. clear X.
  unfold effect, cuts_kept, cuts_mean, plain_cuts. cbn [c_within1 c_class c_prl c_mask c_head c_num c_exact c_two c_within c_pg c_all c_encl].
  destruct (c_within1 T r) as [x|], (c_class T r) as [[c [|]]|], (c_prl T r) as [b|], (c_mask T r); cbn [some orb negb out]; try reflexivity;
  destruct (cls (Other T c)) as [i|]; try reflexivity. cbn [out]. f_equal.
  unfold cuts_settings. cbn [c_within1 c_class c_prl c_mask c_head c_num c_exact c_two c_within c_pg c_all c_encl opt flag app]. fold (two_mean (c_two T r)). rewrite !app_nil_r, <- !app_assoc. reflexivity.
Qed.

(* ---- a property ---- *)
Definition other_ok (ws : list word) : Prop := forall k, In (KW k) ws -> k <> SPACING /\ k <> SEMI /\ k <> LAYER /\ k <> ADJACENTCUTS.
Lemma other_read : forall ws, other_ok ws -> forallb inner ws = true /\ rule_read ([KW SPACING] ++ ws ++ [KW SEMI]) = Skipped T.
Proof.
  intros ws O. assert (I : forallb inner ws = true).
  { apply forallb_forall. intros [k|x|x] Hw; try reflexivity. destruct (O k Hw) as (A & B & _). destruct k; try reflexivity; congruence. }
  split; [exact I|]. rewrite (rule_words ws I). assert (G : forall ws h, other_ok ws -> h = HNone \/ h = HOther -> fold_left (keyword T) ws h = HNone \/ fold_left (keyword T) ws h = HOther).
  { clear. induction ws as [|w ws IH]; intros h O Hh; [exact Hh|]. cbn [fold_left]. apply IH; [intros k Hk; apply O; right; exact Hk|].
    destruct w as [k|x|x]; [|destruct Hh as [-> | ->]; [left|right]; reflexivity..]. destruct (O k (or_introl eq_refl)) as (A & B & C & D). destruct k; try congruence; destruct Hh as [-> | ->]; (left; reflexivity) || (right; reflexivity). }
  destruct (G ws HNone O (or_introl eq_refl)) as [-> | ->]; reflexivity.
Qed.
Lemma join_out : forall r l, join (out (effect r)) l = match l with Some l => Some (effect r ++ l) | None => None end.
Proof.
  assert (L : forall (l : list (list setting)), (List.length l <= 1)%nat -> forall m, join (out l) m = match m with Some m => Some (l ++ m) | None => None end).
  { intros [|c [|d l]] H m; cbn in H; [destruct m; reflexivity|destruct m; reflexivity|lia]. }
  intros r l. apply L. destruct r as [r|r|ws]; cbn [effect].
  - destruct (layer_kept r); [|cbn; lia]. unfold layer_mean. destruct (lr_second T (plain_layer r)); try (cbn; lia). destruct (cls _); cbn; lia.
  - destruct (cuts_kept r); [|cbn; lia]. unfold cuts_mean. destruct (c_class T (plain_cuts r)) as [[c a]|]; [|cbn; lia]. destruct (cls _); cbn; lia.
  - cbn; lia.
Qed.
Lemma cut_spacing_effect : forall rs ss, Forall (fun r => match r with ROther _ ws => other_ok ws | _ => True end) rs ->
  cut_spacing_go T dbu int_of cls (flat_map (words T) rs) ss = Some (flat_map effect rs).
Proof.
  induction rs as [|r rs IH]; intros ss F; [reflexivity|]. inversion_clear F as [|? ? H F']. cbn [flat_map].
  assert (X : cut_spacing_go T dbu int_of cls (words T r ++ flat_map (words T) rs) ss = join (out (effect r)) (cut_spacing_go T dbu int_of cls (flat_map (words T) rs) (words T r))).
  { destruct r as [r|r|ws]; cbn [words].
    - rewrite <- layer_read_words, lbody_words. apply go_rule, lbody_inner.
    - rewrite <- cuts_read_words, cbody_words. apply go_rule, cbody_inner.
    - destruct (other_read ws H) as (I & E). cbn [effect out]. rewrite <- E. apply go_rule, I. }
  rewrite X, join_out, (IH _ F'). reflexivity.
Qed.
End P.
