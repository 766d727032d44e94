(* What the head of a DEF file says. *)
From Coq Require Import QArith.
From Verif Require Import Base Stl GeomModel GeomSpec GraphModel DhModel.
Local Open Scope Z_scope.

(* the last statement of the list for which [f] gives a value *)
Definition last_of {A} (f : hstmt -> option A) (ss : list hstmt) (a : A) : Prop :=
  exists pre s post, ss = pre ++ s :: post /\ f s = Some a /\ Forall (fun t => f t = None) post.
Definition units_of (s : hstmt) : option Z := match s with HUnits n => Some n | _ => None end.
Definition die_of (s : hstmt) : option (list point) := match s with HDie pts => Some pts | _ => None end.
(* the smallest box around the points *)
Definition spans (b : box) (pts : list point) : Prop :=
  (forall p, In p pts -> in_box p b) /\
  (exists p, In p pts /\ px p = bleft b) /\ (exists p, In p pts /\ px p = bright b) /\
  (exists p, In p pts /\ py p = bbottom b) /\ (exists p, In p pts /\ py p = btop b).

Section Tech.
Variable name2layer : Z -> option Z.
(* the statement has a track at [c] on layer [l]: TRACKS X|Y start DO num STEP step LAYER names *)
Definition track_of (s : hstmt) (isx : bool) (l c : Z) : Prop :=
  match s with
  | HTracks x start num step names =>
      x = isx /\ (exists n, In n names /\ name2layer n = Some l) /\ exists k, 0 <= k < num /\ (inject_Z c == inject_Z start + inject_Z k * step)%Q
  | _ => False
  end.
(* known layers, a whole step above zero *)
Definition good_tracks (nlayers : nat) (s : hstmt) : Prop :=
  match s with
  | HTracks _ _ num step names => 0 <= num /\ (exists z, 0 < z /\ (step == inject_Z z)%Q) /\ names <> [] /\
      forall n, In n names -> exists l, name2layer n = Some l /\ 0 <= l < Z.of_nat nlayers
  | _ => True
  end.
Definition one_layer (s : hstmt) : Prop := match s with HTracks _ _ _ _ names => length names = 1%nat | _ => True end.
(* the same statement with the first layer only *)
Definition first_layer (s : hstmt) : hstmt := match s with HTracks x a b c (n :: _) => HTracks x a b c [n] | _ => s end.
End Tech.
