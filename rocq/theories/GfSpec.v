(* The format of guide files. *)
From Verif Require Import Base GeomModel GfModel.
From Coq Require Import String Ascii DecimalString Decimal.

(* blanks: space, tab, line feed, vertical tab, form feed, carriage return *)
Definition blank_char (c : ascii) : Prop := In (nat_of_ascii c) [32; 9; 10; 11; 12; 13]%nat.
Fixpoint all_chars (P : ascii -> Prop) (s : string) : Prop := match s with EmptyString => True | String c r => P c /\ all_chars P r end.
Definition blanks (s : string) : Prop := all_chars blank_char s.
Definition word (s : string) : Prop := s <> EmptyString /\ all_chars (fun c => ~ blank_char c) s.
(* a line that consists of the given words, at least one blank between two of them, no blank at the end *)
Inductive line_of : list string -> string -> Prop :=
| line_one pre w : blanks pre -> word w -> line_of [w] (pre ++ w)
| line_more pre w ws l : blanks pre -> word w -> line_of ws l -> (exists c r, l = String c r /\ blank_char c) -> line_of (w :: ws) (pre ++ w ++ l).
(* decimal numbers, as in the Coq library *)
Definition numeral (t : string) (z : Z) : Prop := exists i, NilZero.int_of_string t = Some i /\ Z.of_int i = z.
Definition int32 (z : Z) : Prop := - 2147483648 <= z <= 2147483647.

(* the guides of one net in the file *)
Record gentry := mkGE { ge_x1 : Z; ge_y1 : Z; ge_x2 : Z; ge_y2 : Z; ge_layer : string }.
Definition entry_ok (e : gentry) : Prop := int32 (ge_x1 e) /\ int32 (ge_y1 e) /\ int32 (ge_x2 e) /\ int32 (ge_y2 e) /\ word (ge_layer e).
Inductive guide_line : gentry -> string -> Prop :=
| guide_line_i e a b c d s : numeral a (ge_x1 e) -> numeral b (ge_y1 e) -> numeral c (ge_x2 e) -> numeral d (ge_y2 e) ->
    line_of [a; b; c; d; ge_layer e] s -> guide_line e s.
(* a net: its name, "(", the guides, ")" *)
Inductive net_lines : string * list gentry -> list string -> Prop :=
| net_lines_i n es s ls : line_of [n] s -> n <> "("%string -> n <> ")"%string -> Forall2 guide_line es ls -> net_lines (n, es) (s :: "("%string :: ls ++ [")"%string]).
(* a file: nets, empty lines in between *)
Inductive guide_file : list (string * list gentry) -> list string -> Prop :=
| file_end : guide_file [] []
| file_blank gs ls : guide_file gs ls -> guide_file gs (EmptyString :: ls)
| file_net g gs l ls : net_lines g l -> guide_file gs ls -> guide_file (g :: gs) (l ++ ls).
