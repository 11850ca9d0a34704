(** Specification of the token language, independent of the lexer's code:
    classes of lexemes in order of priority, "the first class that applies, and
    in it the longest lexeme", and the line/column rule. *)
From Coq Require Import String Ascii List ZArith NArith.
From Verif Require Import Base Token.
Import ListNotations.
Open Scope string_scope.

(** [In] for the bytes of a string. *)
Definition chars (s : string) : list ascii := list_ascii_of_string s.
Definition only (p : ascii -> Prop) (s : string) : Prop := forall c, In c (chars s) -> p c.
Definition between (lo hi : N) (c : ascii) : Prop := (lo <= N_of_ascii c <= hi)%N.

(** UTF-8 encoded characters in the sense of RE2's byte-level automata. *)
Definition cont (c : ascii) : Prop := between 128 191 c.
Inductive rune : string -> Prop :=
| rune1 c : (N_of_ascii c < 128)%N -> rune (String c "")
| rune2 c c1 : between 194 223 c -> cont c1 -> rune (String c (String c1 ""))
| rune3 c c1 c2 : between 224 239 c -> cont c1 -> cont c2 ->
    rune (String c (String c1 (String c2 "")))
| rune4 c c1 c2 c3 : between 240 244 c -> cont c1 -> cont c2 -> cont c3 ->
    rune (String c (String c1 (String c2 (String c3 "")))).
(** A sequence of runes, none of them one of the characters [bad]. *)
Inductive runes (bad : ascii -> Prop) : string -> Prop :=
| runes_nil : runes bad ""
| runes_cons r s : rune r -> (forall c, r = String c "" -> ~ bad c) -> runes bad s ->
    runes bad (r ++ s).

Definition occurs (w s : string) : Prop := exists a b, s = a ++ w ++ b.

Definition blank (c : ascii) : Prop := c = " "%char \/ c = TAB.
Definition letter (c : ascii) : Prop := c = "_"%char \/ between 97 122 c \/ between 65 90 c.
Definition digit (c : ascii) : Prop := between 48 57 c.
Definition hexdigit (c : ascii) : Prop := digit c \/ between 97 102 c \/ between 65 70 c.
Definition line_break (s : string) : Prop :=
  s = String CR (String LF "") \/ s = String CR "" \/ s = String LF "".

(** Fixed spellings: lexer.h / token.h's list of keywords and symbols. *)
Definition fixed_spelling : list (kind * string) :=
  [ (TRUE, "true"); (FALSE, "false"); (BANG, "!"); (AND, "&&"); (OR, "||"); (IMPLIES, "->");
    (MINUS, "-"); (DOT, "."); (DOUBLE_COLON, "::"); (SEMICOLON, ";"); (EQ, "=="); (NE, "!=");
    (GT, ">"); (GE, ">="); (LT, "<"); (LE, "<="); (LPAR, "("); (RPAR, ")") ].

(** What a lexeme stands for: nothing, or a token of a kind with a text. *)
Inductive item := Skip | Tok (k : kind) (text : string).

(** The classes of lexemes, in order of priority. *)
Inductive shape : nat -> string -> item -> Prop :=
| sh_blank t : t <> "" -> only blank t -> shape 0 t Skip
| sh_newline t : line_break t -> shape 1 t Skip
| sh_line_comment t : runes (fun c => c = CR \/ c = LF) t -> shape 2 ("//" ++ t) Skip
| sh_block_comment t :
    runes (fun _ => False) t -> ~ occurs "*/" t -> shape 3 ("/*" ++ t ++ "*/") Skip
| sh_open_comment t :
    runes (fun _ => False) t -> ~ occurs "*/" t -> shape 3 ("/*" ++ t) Skip
| sh_fixed k t : In (k, t) fixed_spelling -> shape 4 t (Tok k t)
| sh_id c t : letter c -> only (fun c => letter c \/ digit c) t ->
    shape 5 (String c t) (Tok ID (String c t))
| sh_binary p t : p = "0b" \/ p = "0B" -> t <> "" -> only (between 48 49) t ->
    shape 6 (p ++ t) (Tok BINARY t)
| sh_octary p t : p = "0o" \/ p = "0O" -> t <> "" -> only (between 48 55) t ->
    shape 7 (p ++ t) (Tok OCTARY t)
| sh_hexadec p t : p = "0x" \/ p = "0X" -> t <> "" -> only hexdigit t ->
    shape 8 (p ++ t) (Tok HEXADEC t)
| sh_decimal p t : p = "" \/ p = "0d" \/ p = "0D" -> t <> "" -> only digit t ->
    shape 9 (p ++ t) (Tok DECIMAL t)
| sh_string t : runes (fun c => c = SQUOTE) t ->
    shape 10 (str1 SQUOTE ++ t ++ str1 SQUOTE) (Tok STRING t).

(** [Next s lx it rest]: the source [s] starts with the lexeme [lx], standing for
    [it], and goes on with [rest]: the first class with a lexeme that is a
    prefix of [s] applies, and the longest lexeme of this class is taken. *)
Definition Next (s lx : string) (it : item) (rest : string) : Prop :=
  s = lx ++ rest /\
  exists n, shape n lx it /\
    (forall m lx' it' rest', (m < n)%nat -> s = lx' ++ rest' -> ~ shape m lx' it') /\
    (forall lx' it' rest', s = lx' ++ rest' -> shape n lx' it' ->
       (String.length lx' <= String.length lx)%nat).

(** Line/column rule: a line break is \n, \r or \r\n (taken together), any other
    byte is one column. *)
Fixpoint advance (s : string) (l : loc) : loc :=
  match s with
  | "" => l
  | String c s' =>
      if Ascii.eqb c LF then advance s' (mkLoc (l_line l + 1) 0 (l_src l))
      else if Ascii.eqb c CR then
        match s' with
        | String d s'' =>
            if Ascii.eqb d LF then advance s'' (mkLoc (l_line l + 1) 0 (l_src l))
            else advance s' (mkLoc (l_line l + 1) 0 (l_src l))
        | "" => mkLoc (l_line l + 1) 0 (l_src l)
        end
      else advance s' (mkLoc (l_line l) (l_col l + 1) (l_src l))
  end.
Definition shift (n : nat) (l : loc) : loc := mkLoc (l_line l) (l_col l + Z.of_nat n) (l_src l).

(** [Lex l s ts]: tokenizing [s], starting at location [l], gives [ts]. A token
    occupies as many columns as it has bytes. *)
Inductive Lex : loc -> string -> list token -> Prop :=
| Lex_end l : Lex l "" [mkTok END_OF_INPUT "" l l]
| Lex_stuck l c s :
    (forall lx it rest, ~ Next (String c s) lx it rest) ->
    Lex l (String c s) [mkTok UNEXPECTED_CHAR (String c "") l (shift 1 l)]
| Lex_skip l s lx rest ts :
    Next s lx Skip rest -> Lex (advance lx l) rest ts -> Lex l s ts
| Lex_tok l s lx k text rest ts :
    Next s lx (Tok k text) rest -> Lex (shift (String.length lx) l) rest ts ->
    Lex l s (mkTok k text l (shift (String.length lx) l) :: ts).

(** Kinds and texts of tokens, forgetting locations. *)
Definition kt (t : token) : kind * string := (t_kind t, t_text t).
Definition sentinel (k : kind) : Prop := k = END_OF_INPUT \/ k = UNEXPECTED_CHAR.

(** [Tiles s chunks rest]: [s] is cut into the lexemes [chunks] followed by
    [rest], at whose start there is no lexeme. *)
Inductive Tiles : string -> list (string * item) -> string -> Prop :=
| Tiles_stop s : (forall lx it rest, ~ Next s lx it rest) -> Tiles s [] s
| Tiles_cons s lx it rest chunks stop :
    Next s lx it rest -> Tiles rest chunks stop -> Tiles s ((lx, it) :: chunks) stop.
Fixpoint tokens_of (chunks : list (string * item)) : list (kind * string) :=
  match chunks with
  | [] => []
  | (_, Tok k t) :: cs => (k, t) :: tokens_of cs
  | (_, Skip) :: cs => tokens_of cs
  end.

(** [Placed l0 pre s ts]: in a text [pre ++ s] that starts at location [l0], the
    tokens [ts] lie in [s], one after the other, and each token starts where the
    line/column rule puts its first byte and ends where the rule puts the byte
    after its last one. *)
Inductive Placed (l0 : loc) : string -> string -> list token -> Prop :=
| Placed_end pre :
    Placed l0 pre "" [mkTok END_OF_INPUT "" (advance pre l0) (advance pre l0)]
| Placed_stuck pre c s :
    Placed l0 pre (String c s)
      [mkTok UNEXPECTED_CHAR (String c "") (advance pre l0) (advance (pre ++ String c "") l0)]
| Placed_gap pre gap s ts :
    Placed l0 (pre ++ gap) s ts -> Placed l0 pre (gap ++ s) ts
| Placed_tok pre n lx k t s ts :
    shape n lx (Tok k t) -> Placed l0 (pre ++ lx) s ts ->
    Placed l0 pre (lx ++ s) (mkTok k t (advance pre l0) (advance (pre ++ lx) l0) :: ts).
Definition no_line_break (s : string) : Prop := ~ In CR (chars s) /\ ~ In LF (chars s).

(** Text between tokens: blanks, line breaks, closed comments, line comments
    with their line break. *)
Inductive gap : string -> Prop :=
| gap_nil : gap ""
| gap_blank c s : blank c -> gap s -> gap (String c s)
| gap_break b s : line_break b -> gap s -> gap (b ++ s)
| gap_block t s : runes (fun _ => False) t -> ~ occurs "*/" t -> gap s -> gap ("/*" ++ t ++ "*/" ++ s)
| gap_line t b s : runes (fun c => c = CR \/ c = LF) t -> line_break b -> gap s ->
    gap ("//" ++ t ++ b ++ s).
(** A text that starts with a blank, a line break or a slash (as comments do). *)
Definition starts_gap (s : string) : Prop :=
  exists c s', s = String c s' /\ (blank c \/ c = CR \/ c = LF \/ c = "/"%char).
(** The text ends within a comment: its last lexeme is a line comment or a
    comment that was not closed. *)
Definition ends_in_comment (s : string) : Prop :=
  exists chunks lx, Tiles s (chunks ++ [(lx, Skip)]) "" /\
    ((exists t, lx = "//" ++ t) \/ (exists t, lx = "/*" ++ t /\ ~ occurs "*/" t)).

(** Spellings of tokens. An identifier must not start with a word constant
    (see C06). *)
Definition spelling (k : kind) (t sp : string) : Prop :=
  (exists n, shape n sp (Tok k t)) /\
  (k = ID -> (forall u, sp <> "true" ++ u) /\ (forall u, sp <> "false" ++ u)).
Definition white (s : string) : Prop := only (fun c => blank c \/ c = CR \/ c = LF) s.
Fixpoint render (l : list (kind * string * string * string)) : string :=
  match l with
  | [] => ""
  | (_, _, sp, sep) :: l' => sp ++ sep ++ render l'
  end.
Definition word (s : string) : Prop :=
  exists c t, s = String c t /\ letter c /\ only (fun c => letter c \/ digit c) t.
