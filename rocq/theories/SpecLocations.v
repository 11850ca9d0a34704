(** Specification for C03: what the line/column rule is applied to. *)
From Coq Require Import String Ascii List.
From Verif Require Import Token SpecLexer.
Import ListNotations.
Open Scope string_scope.

(** What the line/column rule is applied to: the lexemes, with each byte of a
    quoted string counted as an ordinary one. *)
Fixpoint blur (s : string) : string :=
  match s with "" => "" | String _ s' => String "x" (blur s') end.
Fixpoint seen (chunks : list (string * item)) : string :=
  match chunks with
  | [] => ""
  | (lx, it) :: cs => (match it with Tok STRING _ => blur lx | _ => lx end) ++ seen cs
  end.
