(** Adding a line with a further requirement to a constraint (C105). *)
From Coq Require Import String Ascii List ZArith NArith Bool.
From Verif Require Import Base Token Lexer.
Import ListNotations.
Open Scope string_scope.

(** The text with the requirement [b] added on a new line: what the annotation's text becomes when
    it is given the further string ["; ( b )"]. *)
Definition with_line (a b : string) : string := a ++ nl ++ "; ( " ++ b ++ " )".
(** The text does not end in a semicolon already. *)
Definition open_ended (c : csource) : Prop := forall w t u, Tokenize c = (w ++ [t; u])%list -> t_kind t <> SEMICOLON.
