(** Intervals that are not quoted, and what is said then; independent of the code. *)
From Coq Require Import String Ascii List ZArith NArith.
From Verif Require Import Base Num Token Ast SpecLexer SpecGrammar SpecQuote.
Import ListNotations.
Open Scope string_scope.

Definition source_name (s : source) : string :=
  match s with SrcTable n => n | SrcFile n => n | SrcAction n => n | SrcNone => "Unknown Source Type" end.
Definition line_count (s : string) (n : nat) : Prop := forall k, (exists line, LineOf s k line) <-> (k < n)%nat.
Inductive Uncited (c : csource) (a b : loc) : string -> Prop :=
| uq_sources : ~ (l_src a = l_src (cs_loc c) /\ l_src b = l_src (cs_loc c)) ->
    Uncited c a b ("Quoting of multi-source locations not allowed. Constraint-Source: " ++ source_name (l_src (cs_loc c)) ++ " From-Source: " ++ source_name (l_src a) ++ " To-Source: " ++ source_name (l_src b))
| uq_nowhere : l_src (cs_loc c) = SrcNone -> l_src a = SrcNone -> l_src b = SrcNone -> Uncited c a b "Invalid source case: "
| uq_beyond n : l_src (cs_loc c) <> SrcNone -> l_src a = l_src (cs_loc c) -> l_src b = l_src (cs_loc c) -> a <> b -> line_count (cs_string c) n -> (l_line (cs_loc c) + Z.of_nat n <= l_line a)%Z ->
    Uncited c a b ("Interval [`start`, `end`] to quote must lie within given `constraint`, but `start.line()` = " ++ dec (l_line a) ++
                   " while the final line of `constraint` is " ++ dec (l_line (cs_loc c) + Z.of_nat n - 1)).
