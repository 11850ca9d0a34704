(** Outcomes, statuses and small list/string helpers shared by the model. *)
From Coq Require Import String Ascii List ZArith NArith Bool Lia.
Import ListNotations.
Open Scope string_scope.
Open Scope list_scope.

(** Models absl::StatusCode as used in p4_constraints
    (gutils/status_builder.h: InvalidArgumentErrorBuilder etc.). Only the codes
    the modelled code can produce are listed. *)
Inductive code := InvalidArgument | Internal | Unimplemented | NotFound | UnknownCode.

(** Ways the C++ program can stop without returning a status. None of these is
    a value in C++: they are uncaught exceptions, aborts or undefined behaviour. *)
Inductive crash :=
| LengthError        (* std::length_error from std::string(n, c) with huge n *)
| NullDeref          (* dereference of a null pointer *)
| GmpAbort           (* GMP aborts: shift by a negative (huge unsigned) amount *)
| Z3Exception        (* z3::exception / assertion in z3++ *)
| ModelOutOfFuel.    (* not in C++: a fuel bound of the model was hit; proved unreachable *)

(** absl::StatusOr<A>, plus crashes. *)
Inductive outcome (A : Type) :=
| Ok (a : A)
| Err (c : code) (msg : string)
| Crash (w : crash).
Arguments Ok {A} a.
Arguments Err {A} c msg.
Arguments Crash {A} w.

(** ASSIGN_OR_RETURN / RETURN_IF_ERROR (gutils/status_macros.h). *)
Definition bind {A B} (o : outcome A) (f : A -> outcome B) : outcome B :=
  match o with
  | Ok a => f a
  | Err c m => Err c m
  | Crash w => Crash w
  end.
(** ASSIGN_OR_RETURN(x, e); k (gutils/status_macros.h:37-67). *)
Notation "'let*' x ':=' e 'in' k" := (bind e (fun x => k))
  (at level 200, x pattern, e at level 100, k at level 200, right associativity).
(** RETURN_IF_ERROR(e); k (gutils/status_macros.h:27-32). *)
Notation "'check*' e ';' k" := (bind e (fun _ : unit => k))
  (at level 200, e at level 100, k at level 200, right associativity).

(** StatusBuilder's default Annotate joint (gutils/status_builder.h): appends
    "; " + msg to an error, leaves OK values alone.
    Models ASSIGN_OR_RETURN(x, e, _ << msg). *)
Definition annotate {A} (o : outcome A) (extra : string) : outcome A :=
  match o with
  | Err c m => Err c (if String.eqb m "" then extra else (m ++ "; " ++ extra)%string)
  | _ => o
  end.

(** RET_CHECK(cond) (gutils/ret_check.h): Internal error if the condition fails.
    The file/line prefix of the message is not modelled. *)
Definition ret_check (b : bool) (msg : string) : outcome unit :=
  if b then Ok tt else Err Internal ("RET_CHECK failure: " ++ msg)%string.

(** absl::StatusOr::ok() (not in /repo): the call returned a value. *)
Definition is_ok {A} (o : outcome A) : bool := match o with Ok _ => true | _ => false end.
(** The call returned an error status. *)
Definition is_err {A} (o : outcome A) : bool := match o with Err _ _ => true | _ => false end.

(** Newline / NUL / quote characters, written as Coq ascii. *)
Definition LF : ascii := Ascii.ascii_of_N 10.
(** Carriage return, '\r' (lexer.cc:45, 76; quote.cc). *)
Definition CR : ascii := Ascii.ascii_of_N 13.
(** Tab, '\t' (lexer.cc:75). *)
Definition TAB : ascii := Ascii.ascii_of_N 9.
(** The character '\0'. *)
Definition NUL : ascii := Ascii.ascii_of_N 0.
(** The double quote character. *)
Definition DQUOTE : ascii := Ascii.ascii_of_N 34.
(** The single quote character. *)
Definition SQUOTE : ascii := Ascii.ascii_of_N 39.
(** A string of one character. *)
Definition str1 (c : ascii) : string := String c EmptyString.
(** The text "\n" of messages, e.g. interpreter.cc:620-627. *)
Definition nl : string := str1 LF.
(** The text of a double quote in messages, e.g. interpreter.cc:616. *)
Definition dq : string := str1 DQUOTE.

(** Byte value of a character. *)
Definition byte (c : ascii) : N := N_of_ascii c.
(** A character class of RE2 by code points, e.g. [a-z] in lexer.cc:89-94. *)
Definition in_range (lo hi : N) (c : ascii) : bool :=
  (N.leb lo (byte c) && N.leb (byte c) hi)%bool.

(** RE2 class [a-z], lexer.cc:89. *)
Definition is_lower (c : ascii) : bool := in_range 97 122 c.
(** RE2 class [A-Z], lexer.cc:89. *)
Definition is_upper (c : ascii) : bool := in_range 65 90 c.
(** RE2 class [0-9] and \d, lexer.cc:89-94, constraint_info.cc:107. *)
Definition is_digit (c : ascii) : bool := in_range 48 57 c.

(** std::string(n, c). *)
Fixpoint repeat_char (n : nat) (c : ascii) : string :=
  match n with
  | O => EmptyString
  | S n' => String c (repeat_char n' c)
  end.

(** absl::StrCat and absl::StrJoin with the empty separator (not in /repo), e.g. interpreter.cc:610, 633. *)
Fixpoint concat_strings (l : list string) : string :=
  match l with
  | nil => EmptyString
  | s :: l' => (s ++ concat_strings l')%string
  end.

(** absl::StrJoin(l, sep). *)
Fixpoint join (sep : string) (l : list string) : string :=
  match l with
  | nil => EmptyString
  | [s] => s
  | s :: l' => (s ++ sep ++ join sep l')%string
  end.

(** Everything before the first NUL byte: what a C string constructor sees
    when given [s.data()]. *)
Fixpoint c_str (s : string) : string :=
  match s with
  | EmptyString => EmptyString
  | String c s' => if Ascii.eqb c NUL then EmptyString else String c (c_str s')
  end.

(** absl::ConsumePrefix: [Some rest] if [s] starts with [p]. *)
Fixpoint strip_prefix (p s : string) : option string :=
  match p, s with
  | EmptyString, _ => Some s
  | String c p', String d s' => if Ascii.eqb c d then strip_prefix p' s' else None
  | String _ _, EmptyString => None
  end.

(** Helper of [string_rev]. *)
Fixpoint string_rev_app (s acc : string) : string :=
  match s with
  | EmptyString => acc
  | String c s' => string_rev_app s' (String c acc)
  end.
(** Reversal, for what is done at the end of a string: absl::ConsumeSuffix, constraint_info.cc:133. *)
Definition string_rev (s : string) : string := string_rev_app s EmptyString.

(** absl::ConsumeSuffix. *)
Definition strip_suffix (suf s : string) : option string :=
  match strip_prefix (string_rev suf) (string_rev s) with
  | Some r => Some (string_rev r)
  | None => None
  end.

(** absl::StrSplit(s, c): splits at every occurrence, keeps empty pieces. *)
Fixpoint split_char (c : ascii) (s : string) : list string :=
  match s with
  | EmptyString => [EmptyString]
  | String d s' =>
      if Ascii.eqb c d then EmptyString :: split_char c s'
      else match split_char c s' with
           | h :: t => String d h :: t
           | nil => [String d EmptyString]
           end
  end.

(** std::string::size() as a number. *)
Definition slen (s : string) : Z := Z.of_nat (String.length s).

(** Lexicographic order on bytes: std::string::operator< compares as unsigned
    char (used by std::map / absl::btree_map in gutils/ordered_map.h). *)
Fixpoint string_ltb (a b : string) : bool :=
  match a, b with
  | EmptyString, EmptyString => false
  | EmptyString, String _ _ => true
  | String _ _, EmptyString => false
  | String x a', String y b' =>
      if N.ltb (byte x) (byte y) then true
      else if N.ltb (byte y) (byte x) then false
      else string_ltb a' b'
  end.

(** Association lists modelling absl::flat_hash_map. *)
Section Assoc.
  Context {K V : Type} (eqb : K -> K -> bool).
  (** find / gutils::FindPtrOrNull. *)
  Fixpoint assoc_find (k : K) (m : list (K * V)) : option V :=
    match m with
    | nil => None
    | (k', v) :: m' => if eqb k k' then Some v else assoc_find k m'
    end.
  (** try_emplace / insert: [None] if the key is already present. Placing the
      new element at the end is one possible iteration order. *)
  Definition assoc_insert (k : K) (v : V) (m : list (K * V)) : option (list (K * V)) :=
    match assoc_find k m with
    | Some _ => None
    | None => Some (m ++ [(k, v)])
    end.
End Assoc.
