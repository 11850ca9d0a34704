(** Vocabulary for explanations, independent of the code. *)
From Coq Require Import String Ascii List ZArith NArith.
From Verif Require Import Base Num Token Ast SpecParser SpecTyping SpecSemantics SpecQuote.
Import ListNotations.
Open Scope string_scope.

(** The marker of an interval that spans lines is computed from the wrong length;
    this is when it comes out negative. *)
Definition awkward (c : csource) (s : expr) : Prop :=
  l_line (e_start s) <> l_line (e_end s) /\
  exists line, LineOf (cs_string c) (Z.to_nat (l_line (e_start s) - l_line (cs_loc c))) line /\
    (Z.of_nat (String.length line) < Z.of_nat (String.length (dec (l_line (e_start s) + 1))) + 3 + l_col (e_start s))%Z.
(** Every part of the constraint can be quoted. *)
Definition displayable (c : csource) (e : expr) : Prop := no_bare_CR (cs_string c) /\ forall s, sub s e -> ~ awkward c s.
(** Occurrence in a text. *)
Definition contains (part text : string) : Prop := exists a b, text = a ++ part ++ b.
(** The search reaches a connective both of whose operands decide alone. *)
Inductive contested (holds : expr -> bool -> Prop) : expr -> Prop :=
| ct_here m o a b x y : connective o -> holds a x -> holds b y -> (forall y y', truth o x y = truth o x y') -> (forall x x', truth o x y = truth o x' y) -> contested holds (EBin m o a b)
| ct_not m e : contested holds e -> contested holds (ENot m e)
| ct_left m o a b x : connective o -> holds a x -> (forall y y', truth o x y = truth o x y') -> contested holds a -> contested holds (EBin m o a b)
| ct_right m o a b y : connective o -> holds b y -> (forall x x', truth o x y = truth o x' y) -> contested holds b -> contested holds (EBin m o a b).
