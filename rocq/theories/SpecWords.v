(** The words of messages; independent of the code. *)
From Coq Require Import String Ascii List ZArith NArith.
From Verif Require Import Base Num Token Ast SpecLexer SpecGrammar SpecQuote SpecInfo SpecCite SpecUncited SpecPrinted.
Import ListNotations.
Open Scope string_scope.

(** Decimal numbers, with a sign if negative. *)
Inductive number : Z -> string -> Prop :=
| nu_natural n s : Decimal s n -> number (Z.of_N n) s
| nu_negative n s : (0 < n)%N -> Decimal s n -> number (- Z.of_N n) ("-" ++ s).
(** Types. An LPM type is called like a number of its width. *)
Inductive type_word : ty -> string -> Prop :=
| tw_unknown : type_word TUnknown "unknown"
| tw_unsupported name : type_word (TUnsupported name) name
| tw_bool : type_word TBool "bool"
| tw_int : type_word TInt "int"
| tw_bit w s : number w s -> type_word (TBit w) ("bit<" ++ s ++ ">")
| tw_lpm w s : number w s -> type_word (TLpm w) ("bit<" ++ s ++ ">")
| tw_exact w s : number w s -> type_word (TExact w) ("exact<" ++ s ++ ">")
| tw_ternary w s : number w s -> type_word (TTernary w) ("ternary<" ++ s ++ ">")
| tw_range w s : number w s -> type_word (TRange w) ("range<" ++ s ++ ">")
| tw_optional w s : number w s -> type_word (TOptional w) ("optional<" ++ s ++ ">")
| tw_none : type_word TNotSet "???".
(** Kinds of tokens that have no fixed spelling (the others are called as they are spelled). *)
Definition kind_words : list (kind * string) :=
  [(ID, "<ID>"); (BINARY, "<BINARY>"); (OCTARY, "<OCTARY>"); (DECIMAL, "<DECIMAL>"); (HEXADEC, "<HEXADEC>"); (STRING, "<STRING>");
   (END_OF_INPUT, "<END_OF_INPUT>"); (UNEXPECTED_CHAR, "<UNEXPECTED_CHAR>")].
(** What is answered to announce an error about the part from [a] to [b] of a constraint: the quotation, what
    kind of error it is, and the error. If the part cannot be quoted there is an Internal error instead. *)
Inductive Announced {A} (k : code) (label : string) (c : csource) (a b : loc) (text : string) : outcome A -> Prop :=
| an_cited q : Cited c a b q -> Announced k label c a b text (Err k (q ++ label ++ text))
| an_uncited m : Uncited c a b m -> Announced k label c a b text (Err Internal ("Failed to quote sub-constraint: INVALID_ARGUMENT: " ++ m ++ nl ++ text))
| an_crash : (forall q, ~ Cited c a b q) -> (forall m, ~ Uncited c a b m) -> Announced k label c a b text (Crash LengthError).
