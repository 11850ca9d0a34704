(** Vocabulary for quoting, independent of the code. *)
From Coq Require Import String Ascii List ZArith NArith.
From Verif Require Import Base Token SpecLexer SpecGrammar.
Import ListNotations.
Open Scope string_scope.

(** Number of line feeds. *)
Fixpoint breaks (s : string) : nat :=
  match s with
  | "" => 0
  | String c s => if Ascii.eqb c LF then S (breaks s) else breaks s
  end.
(** [LineOf s k line]: [line] is the [k]-th line of [s], counting from 0; what
    follows the last line feed is a line unless it is empty. *)
Definition LineOf (s : string) (k : nat) (line : string) : Prop :=
  exists a b, s = a ++ line ++ b /\ breaks a = k /\ breaks line = 0%nat /\
    (a = "" \/ exists a', a = a' ++ String LF "") /\
    (b = "" \/ exists b', b = String LF b') /\ line ++ b <> "".
(** [n] times the character [c]. *)
Inductive Times (c : ascii) : nat -> string -> Prop :=
| times_O : Times c 0 ""
| times_S n s : Times c n s -> Times c (S n) (String c s).
(** What quoting shows for columns [from] to [to] of a line with 1-based number
    [num]: the line before, if any, the line, and the marker. *)
Definition Shown (prev : option string) (num : string) (line : string) (from to : nat) (out : string) : Prop :=
  exists gap skip mark,
    Times " " (String.length num) gap /\ Times " " from skip /\ Times "^" (to - from) mark /\
    out = (match prev with Some p => gap ++ " | " ++ p ++ nl | None => "" end) ++
          (num ++ " | " ++ line ++ nl) ++ (gap ++ " | " ++ skip ++ mark ++ nl).
(** [stands text l0 t]: in [text], which starts at [l0], the lexeme of the token
    [t] occupies exactly the columns of [t]'s location on [t]'s line. *)
Definition stands (text : string) (l0 : loc) (t : token) : Prop :=
  exists k line x lx y, l_line (t_start t) = (l_line l0 + Z.of_nat k)%Z /\ l_line (t_end t) = l_line (t_start t) /\
    LineOf text k line /\ line = x ++ lx ++ y /\
    l_col (t_start t) = Z.of_nat (String.length x) /\ l_col (t_end t) = Z.of_nat (String.length x + String.length lx) /\
    ((exists n, shape n lx (Tok (t_kind t) (t_text t))) \/ (t_kind t = UNEXPECTED_CHAR /\ lx = t_text t)).
