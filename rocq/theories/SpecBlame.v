(** Where a token sequence stops being a constraint, independent of the parser's code. *)
From Coq Require Import String List.
From Verif Require Import Base Token AstConstructors SpecLexer SpecGrammar.
Import ListNotations.
Open Scope string_scope.

(** Some constraint begins with tokens of the kinds [ks]. *)
Definition viable (pton : inet_pton6) (ck : constraint_kind) (ks : list kind) : Prop :=
  exists w e more, D pton ck 0 w e /\ map t_kind w = (ks ++ more)%list.
(** Some constraint consists of tokens of the kinds [ks]. *)
Definition finished (pton : inet_pton6) (ck : constraint_kind) (ks : list kind) : Prop :=
  exists w e, D pton ck 0 w e /\ map t_kind w = ks.
(** An address literal: identifier, '(', string, ')'. *)
Definition literal_kinds : list kind := [ID; LPAR; STRING; RPAR].
(** The address literals among [w] are addresses. *)
Definition addresses_ok (pton : inet_pton6) (w : list token) : Prop :=
  forall a id lp st rp b, w = (a ++ [id; lp; st; rp] ++ b)%list -> map t_kind [id; lp; st; rp] = literal_kinds ->
    exists n, Address pton (t_text id) (t_text st) n.
(** After [ks] a constraint may go on with a token of kind [k]; for the end of the input: it may be over. *)
Definition follows (pton : inet_pton6) (ck : constraint_kind) (ks : list kind) (k : kind) : Prop :=
  viable pton ck (ks ++ [k]) \/ (k = END_OF_INPUT /\ finished pton ck ks).
(** The tokens [u] in front of [t] begin a constraint in which nothing is wrong, and [t] cannot come next. *)
Definition stuck_at (pton : inet_pton6) (ck : constraint_kind) (ts u : list token) (t : token) : Prop :=
  (exists rest, ts = (u ++ t :: rest)%list) /\ viable pton ck (map t_kind u) /\ addresses_ok pton u /\ ~ follows pton ck (map t_kind u) (t_kind t).
(** After [u], in which nothing is wrong, there is an address literal that is not an address. *)
Definition bad_address_at (pton : inet_pton6) (ck : constraint_kind) (ts u : list token) (id st : token) : Prop :=
  exists lp rp rest, ts = (u ++ [id; lp; st; rp] ++ rest)%list /\ map t_kind [id; lp; st; rp] = literal_kinds /\
    viable pton ck (map t_kind (u ++ [id; lp; st; rp])) /\ addresses_ok pton u /\ forall n, ~ Address pton (t_text id) (t_text st) n.

(** What is said about the token one is stuck at: that it is not a token, or the tokens expected in its place, or that it is an
    operator which does not chain. *)
Inductive hint := HStart | HOne (k : kind) | HExt | HNon.
Definition kinds_of (h : hint) : list kind :=
  match h with
  | HStart => [TRUE; FALSE; BINARY; OCTARY; DECIMAL; HEXADEC; ID; DOUBLE_COLON; BANG; MINUS; LPAR]
  | HOne k => [k]
  | HExt => [END_OF_INPUT; RPAR; DOUBLE_COLON; AND; SEMICOLON; OR; IMPLIES; EQ; NE; GT; GE; LT; LE]
  | HNon => []
  end.
(** The hint is right about what may come after [ks]. Where it names what starts an expression, or one kind: each may come next. Where it
    lists what can follow an expression, or says that an operator does not chain: '::', '&&', ';' and '||' may come next, and besides
    the constraint may be over or ')' may come next, but not both. *)
Definition hint_right (pton : inet_pton6) (ck : constraint_kind) (ks : list kind) (h : hint) : Prop :=
  match h with
  | HStart | HOne _ => forall k, In k (kinds_of h) -> follows pton ck ks k
  | HExt | HNon => (forall k, In k [DOUBLE_COLON; AND; SEMICOLON; OR] -> follows pton ck ks k) /\
      (follows pton ck ks END_OF_INPUT /\ ~ follows pton ck ks RPAR \/ follows pton ck ks RPAR /\ ~ follows pton ck ks END_OF_INPUT)
  end.
Fixpoint further (ws : list string) : string :=
  match ws with
  | [] => "."
  | [w] => ", or " ++ w ++ "."
  | w :: ws => ", " ++ w ++ further ws
  end.
Definition expecting (ws : list string) : string := match ws with [] => "" | w :: ws => " Expected " ++ w ++ further ws end.
Inductive complaint (t : token) : hint -> string -> Prop :=
| cp_char h : t_kind t = UNEXPECTED_CHAR -> h <> HNon -> complaint t h ("unexpected character at or after '" ++ t_text t ++ "'.")
| cp_token h : t_kind t <> UNEXPECTED_CHAR -> h <> HNon ->
    complaint t h ("unexpected token: " ++ KindToKeyword (t_kind t) ++ "." ++ expecting (map KindToKeyword (kinds_of h)))
| cp_chain p o : binary (t_kind t) p false o ->
    complaint t HNon ("operator " ++ KindToKeyword (t_kind t) ++
      " is non-associative; enclose expression to the left of the operator in '(' and ')' to disambiguate?").
