(** Model of p4_constraints/frontend/parser.cc. *)
From Coq Require Import String Ascii List ZArith NArith Bool.
From Verif Require Import Base Num Token Ast Lexer Quote AstConstructors.
Import ListNotations.
Open Scope string_scope.

(** parser.cc:85-104. *)
Inductive associativity := ALEFT | ARIGHT | ANONE.
(** parser.cc:88-104, TokenAssociativity. *)
Definition TokenAssociativity (k : kind) : associativity :=
  match k with
  | AND | OR | DOUBLE_COLON | SEMICOLON => ALEFT
  | _ => ANONE
  end.

(** parser.cc:110-137. *)
Definition TokenPrecedence (k : kind) : nat :=
  match k with
  | DOUBLE_COLON => 7
  | BANG | MINUS => 6
  | EQ | NE | GT | GE | LT | LE => 5
  | AND => 4
  | OR => 3
  | IMPLIES => 2
  | SEMICOLON => 1
  | _ => 0
  end.

(** parser.cc:141-152, ParseError followed by [<< text]. *)
Definition ParseErrorAt {A} (src : csource) (s e : loc) (text : string) : outcome A :=
  match QuoteSubConstraint src s e with
  | Ok quote => Err InvalidArgument (quote ++ "Parse error: " ++ text)
  | Err c m => Err Internal ("Failed to quote sub-constraint: " ++ StableStatusToString c m ++ text)
  | Crash w => Crash w
  end.

(** parser.cc:154-156. *)
Definition ParseError {A} (t : token) (src : csource) (text : string) : outcome A :=
  ParseErrorAt src (t_start t) (t_end t) text.

(** parser.cc:170-179: the list of expected kinds. *)
Fixpoint expected_text (first : bool) (l : list kind) : string :=
  match l with
  | [] => ""
  | k :: l' =>
      (if first then " Expected "
       else match l' with [] => ", or " | _ => ", " end) ++ KindToKeyword k ++
      (match l' with [] => "." | _ => "" end) ++ expected_text false l'
  end.

(** parser.cc:160-181, Unexpected. *)
Definition Unexpected {A} (t : token) (expected : list kind) (src : csource) : outcome A :=
  if kind_eqb (t_kind t) UNEXPECTED_CHAR then
    ParseError t src ("unexpected character at or after '" ++ t_text t ++ "'.")
  else
    ParseError t src ("unexpected token: " ++ KindToKeyword (t_kind t) ++ "." ++ expected_text true expected).

Section Stream.
  (** The state of a TokenStream (parser.cc:46-76) is the list of tokens not yet
      consumed; [eof] is the location of the END_OF_INPUT tokens it produces once
      exhausted and [src] its source. *)
  Variable pton : inet_pton6.
  Variable ck : constraint_kind.
  Variable src : csource.
  Variable eof : loc.

  (** parser.cc:64-70. *)
  Definition Peek (ts : list token) : token :=
    match ts with
    | t :: _ => t
    | [] => mkTok END_OF_INPUT "" eof eof
    end.

  (** parser.cc:186-190, ExpectTokenKind. *)
  Definition ExpectTokenKind (k : kind) (ts : list token) : outcome (token * list token) :=
    let t := Peek ts in
    if kind_eqb (t_kind t) k then Ok (t, tl ts) else Unexpected t [k] src.

  (** parser.cc:265-271: ('.' ID)* *)
  Fixpoint parse_ids (ts : list token) : outcome (list token * list token) :=
    match ts with
    | t :: ts1 =>
        if kind_eqb (t_kind t) DOT then
          match ts1 with
          | id :: ts2 =>
              if kind_eqb (t_kind id) ID then
                let* (ids, rest) := parse_ids ts2 in
                Ok (id :: ids, rest)
              else Unexpected id [ID] src
          | [] => Unexpected (Peek []) [ID] src
          end
        else Ok ([], ts)
    | [] => Ok ([], ts)
    end.

  (** parser.cc:299-305, the tokens that can start an expression. *)
  Definition initial_kinds : list kind :=
    [TRUE; FALSE; BINARY; OCTARY; DECIMAL; HEXADEC; ID; DOUBLE_COLON; BANG; MINUS; LPAR].
  (** parser.cc:343-349, the tokens that can follow one. *)
  Definition extension_kinds : list kind :=
    [END_OF_INPUT; RPAR; DOUBLE_COLON; AND; SEMICOLON; OR; IMPLIES; EQ; NE; GT; GE; LT; LE].

  (** parser.cc:233-372, ParseConstraintAbove. [parse_above] is the function up to
      line 306, [extend] the loop from line 308. Fuel replaces C++ recursion. *)
  Fixpoint parse_above (fuel : nat) (ts : list token) (ctx : nat) {struct fuel}
    : outcome (expr * list token) :=
    match fuel with
    | O => Crash ModelOutOfFuel
    | S fuel' =>
        let t := Peek ts in
        let ts := tl ts in
        let* (ast, ts) :=
          match t_kind t with
          | TRUE | FALSE =>
              let* a := MakeBooleanConstant t in Ok (a, ts)
          | BINARY | OCTARY | DECIMAL | HEXADEC =>
              let* a := MakeIntegerConstant t in Ok (a, ts)
          | ID =>
              if kind_eqb (t_kind (Peek ts)) LPAR then
                let* (string_token, ts) := ExpectTokenKind STRING (tl ts) in
                let* (rpar_token, ts) := ExpectTokenKind RPAR ts in
                let* a := MakeNetworkAddressIntegerConstant pton (t_text t) (t_text string_token)
                            (t_start t) (t_end rpar_token) in
                Ok (a, ts)
              else
                let* (ids, ts) := parse_ids ts in
                let* a := MakeVariable (t :: ids) ck in
                Ok (a, ts)
          | DOUBLE_COLON =>
              let* (attribute_name, ts) := ExpectTokenKind ID ts in
              let* a := MakeAttributeAccess t attribute_name in
              Ok (a, ts)
          | BANG =>
              let* (a, ts) := parse_above fuel' ts (TokenPrecedence BANG) in
              let* a := MakeBooleanNegation t a in
              Ok (a, ts)
          | MINUS =>
              let* (a, ts) := parse_above fuel' ts (TokenPrecedence MINUS) in
              let* a := MakeArithmeticNegation t a in
              Ok (a, ts)
          | LPAR =>
              let* (a, ts) := parse_above fuel' ts 0 in
              let* (_, ts) := ExpectTokenKind RPAR ts in
              Ok (a, ts)
          | _ => Unexpected t initial_kinds src
          end in
        extend fuel' ast ts ctx
    end
  (** parser.cc:308-372, the loop that extends a parsed prefix. *)
  with extend (fuel : nat) (ast : expr) (ts : list token) (ctx : nat) {struct fuel}
    : outcome (expr * list token) :=
    match fuel with
    | O => Crash ModelOutOfFuel
    | S fuel' =>
        let t := Peek ts in
        match t_kind t with
        | END_OF_INPUT | RPAR => Ok (ast, ts)
        | DOUBLE_COLON | AND | SEMICOLON | OR | IMPLIES | EQ | NE | GT | GE | LT | LE =>
            let prec := TokenPrecedence (t_kind t) in
            if (Nat.eqb ctx prec &&
                match TokenAssociativity (t_kind t) with ANONE => true | _ => false end)%bool then
              ParseError t src
                ("operator " ++ KindToKeyword (t_kind t) ++
                 " is non-associative; enclose expression to the left of the operator in '(' and ')' to disambiguate?")
            else if (Nat.ltb prec ctx ||
                     (Nat.eqb ctx prec &&
                      match TokenAssociativity (t_kind t) with ALEFT => true | _ => false end))%bool then
              Ok (ast, ts)
            else
              let ts := tl ts in
              let next := t_kind (Peek ts) in
              if (kind_eqb (t_kind t) SEMICOLON &&
                  (kind_eqb next END_OF_INPUT || kind_eqb next RPAR))%bool then
                Ok (ast, ts)
              else if kind_eqb (t_kind t) DOUBLE_COLON then
                let* (field, ts) := ExpectTokenKind ID ts in
                let* ast := MakeFieldAccess ast field in
                extend fuel' ast ts ctx
              else
                let* (another, ts) := parse_above fuel' ts prec in
                let* ast := MakeBinaryExpression t ast another in
                extend fuel' ast ts ctx
        | _ => Unexpected t extension_kinds src
        end
    end.
End Stream.

(** parser.cc:67-68, location of the END_OF_INPUT tokens after the end. *)
Definition eof_location (tokens : list token) : loc :=
  match rev tokens with
  | [] => default_loc
  | t :: _ => t_end t
  end.

(** Enough fuel for any token list (proved sufficient in ParserFacts). *)
Definition parse_fuel (tokens : list token) : nat := 2 * List.length tokens + 2.

(** parser.cc:380-388, internal_parser::ParseConstraint. *)
Definition ParseTokens (pton : inet_pton6) (ck : constraint_kind) (tokens : list token)
    (src : csource) : outcome expr :=
  let eof := eof_location tokens in
  let* (ast, rest) := parse_above pton ck src eof (parse_fuel tokens) tokens 0 in
  let* (_, _) := ExpectTokenKind src eof END_OF_INPUT rest in
  Ok ast.

(** parser.cc:394-398, ParseConstraint. *)
Definition ParseConstraint (pton : inet_pton6) (ck : constraint_kind) (src : csource) : outcome expr :=
  ParseTokens pton ck (Tokenize src) src.
