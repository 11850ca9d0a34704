(** Cutting a part out of a constraint's text, independent of the code. *)
From Coq Require Import String Ascii List ZArith.
From Verif Require Import Base Token Lexer Quote SpecLexer.
Import ListNotations.
Open Scope string_scope.

(** [Cut c ts cut l]: [cut] is the piece of the text of [c] from the first byte of the first of the tokens [ts] to
    the last byte of the last one; these are consecutive tokens of [c], and the piece has just these tokens, at the same
    locations, if it is read from location [l] on. *)
Definition Cut (c : csource) (ts : list token) (cut : string) (l : loc) : Prop :=
  ts <> [] /\ (exists a b, Tokenize c = (a ++ ts ++ b)%list) /\ (exists before after, cs_string c = before ++ cut ++ after) /\
  exists final, Tokenize (mkCSource cut l) = (ts ++ [final])%list /\ t_kind final = END_OF_INPUT /\
    (forall t ts', ts = t :: ts' -> l = t_start t) /\ (forall t ts', ts = (ts' ++ [t])%list -> t_start final = t_end t).

(** Opening minus closing parentheses. *)
Fixpoint opened (ts : list token) : Z :=
  match ts with
  | [] => 0
  | t :: ts => (match t_kind t with LPAR => 1 | RPAR => -1 | _ => 0 end) + opened ts
  end.
(** Every closing parenthesis has its opening one, and the other way round. *)
Definition balanced (ts : list token) : Prop := opened ts = 0%Z /\ forall a b, ts = (a ++ b)%list -> (0 <= opened a)%Z.
