(** Model of the work done when a constraint is read: the functions of Parser.v with counts of the tokens they
    take from and look at in the stream and of the expression nodes they copy, and InferAndCheckTypes with a log of the expressions it visits. *)
From Coq Require Import String Ascii List ZArith NArith Bool.
From Verif Require Import Base Num Token Ast Lexer Quote AstConstructors Parser Info TypeChecker.
Import ListNotations.
Open Scope string_scope.

(** Calls of TokenStream::Next (parser.cc:72-76); calls of TokenStream::Peek (parser.cc:64-70) other than the one in each Next; nodes of expressions copied. *)
Record work := mkWork { taken : Z; peeked : Z; copied : Z }.
(** The sum of two works. *)
Definition plus_work (v w : work) : work := mkWork (taken v + taken w) (peeked v + peeked w) (copied v + copied w).
(** Nothing done. *)
Definition no_work : work := mkWork 0 0 0.
(** One call of TokenStream::Next, parser.cc:72-76. *)
Definition take : work := mkWork 1 0 0.
(** n calls of TokenStream::Peek, parser.cc:64-70. *)
Definition peeks (n : Z) : work := mkWork 0 n 0.
(** Copying a protobuf message copies every message in it. *)
Fixpoint messages (e : expr) : Z :=
  match e with
  | EBin _ _ a b => 1 + messages a + messages b
  | ENot _ a | ENeg _ a | ECast _ a | EField _ _ a => 1 + messages a
  | _ => 1
  end.
(** One copy of an expression. *)
Definition copy (e : expr) : work := mkWork 0 0 (messages e).

(** A result with the work done for it. *)
Definition costed (A : Type) : Type := (outcome A * work)%type.
(** A result that takes no work. *)
Definition free {A} (r : outcome A) : costed A := (r, no_work).
(** A result after some work. *)
Definition after {A} (w : work) (r : costed A) : costed A := (fst r, plus_work w (snd r)).
(** ASSIGN_OR_RETURN; the works are added. *)
Definition wbind {A B} (r : costed A) (f : A -> costed B) : costed B :=
  match r with
  | (Ok a, w) => after w (f a)
  | (Err k m, w) => (Err k m, w)
  | (Crash c, w) => (Crash c, w)
  end.

Section Stream.
  Variable pton : inet_pton6.
  Variable ck : constraint_kind.
  Variable src : csource.
  Variable eof : loc.

  (** parser.cc:186-190. *)
  Definition wExpectTokenKind (k : kind) (ts : list token) : costed (token * list token) :=
    after take (free (ExpectTokenKind src eof k ts)).

  (** parser.cc:265-271: a Peek before each round and at the end, two tokens taken in each round. *)
  Fixpoint wparse_ids (ts : list token) : costed (list token * list token) :=
    after (peeks 1)
      match ts with
      | t :: ts1 =>
          if kind_eqb (t_kind t) DOT then
            after take (after take
              match ts1 with
              | id :: ts2 =>
                  if kind_eqb (t_kind id) ID then
                    wbind (wparse_ids ts2) (fun '(ids, rest) => free (Ok (id :: ids, rest)))
                  else free (Unexpected id [ID] src)
              | [] => free (Unexpected (Peek eof []) [ID] src)
              end)
          else free (Ok ([], ts))
      | [] => free (Ok ([], ts))
      end.

  (** parser.cc:233-372. The constructors take expressions by value and are given variables (lines 284, 290, 364, 370), which copies them;
      ASSIGN_OR_RETURN (status_macros.h:61) and the return statements move. Line 355-357 looks at the next token once or twice. *)
  Fixpoint wparse_above (fuel : nat) (ts : list token) (ctx : nat) {struct fuel} : costed (expr * list token) :=
    match fuel with
    | O => free (Crash ModelOutOfFuel)
    | S fuel' =>
        let t := Peek eof ts in
        let ts := tl ts in
        wbind
          (after take
            match t_kind t with
            | TRUE | FALSE => free (let* a := MakeBooleanConstant t in Ok (a, ts))
            | BINARY | OCTARY | DECIMAL | HEXADEC => free (let* a := MakeIntegerConstant t in Ok (a, ts))
            | ID =>
                after (peeks 1)
                  (if kind_eqb (t_kind (Peek eof ts)) LPAR then
                     after take
                     (wbind (wExpectTokenKind STRING (tl ts)) (fun '(string_token, ts) =>
                      wbind (wExpectTokenKind RPAR ts) (fun '(rpar_token, ts) =>
                      free (let* a := MakeNetworkAddressIntegerConstant pton (t_text t) (t_text string_token) (t_start t) (t_end rpar_token) in Ok (a, ts)))))
                   else
                     wbind (wparse_ids ts) (fun '(ids, ts) => free (let* a := MakeVariable (t :: ids) ck in Ok (a, ts))))
            | DOUBLE_COLON =>
                wbind (wExpectTokenKind ID ts) (fun '(attribute_name, ts) =>
                free (let* a := MakeAttributeAccess t attribute_name in Ok (a, ts)))
            | BANG =>
                wbind (wparse_above fuel' ts (TokenPrecedence BANG)) (fun '(a, ts) =>
                after (copy a) (free (let* a := MakeBooleanNegation t a in Ok (a, ts))))
            | MINUS =>
                wbind (wparse_above fuel' ts (TokenPrecedence MINUS)) (fun '(a, ts) =>
                after (copy a) (free (let* a := MakeArithmeticNegation t a in Ok (a, ts))))
            | LPAR =>
                wbind (wparse_above fuel' ts 0) (fun '(a, ts) =>
                wbind (wExpectTokenKind RPAR ts) (fun '(_, ts) =>
                free (Ok (a, ts))))
            | _ => free (Unexpected t initial_kinds src)
            end)
          (fun '(ast, ts) => wextend fuel' ast ts ctx)
    end
  (** parser.cc:308-372, as [extend] of Parser.v. *)
  with wextend (fuel : nat) (ast : expr) (ts : list token) (ctx : nat) {struct fuel} : costed (expr * list token) :=
    match fuel with
    | O => free (Crash ModelOutOfFuel)
    | S fuel' =>
        after (peeks 1)
        (let t := Peek eof ts in
        match t_kind t with
        | END_OF_INPUT | RPAR => free (Ok (ast, ts))
        | DOUBLE_COLON | AND | SEMICOLON | OR | IMPLIES | EQ | NE | GT | GE | LT | LE =>
            let prec := TokenPrecedence (t_kind t) in
            if (Nat.eqb ctx prec && match TokenAssociativity (t_kind t) with ANONE => true | _ => false end)%bool then
              free (ParseError t src
                ("operator " ++ KindToKeyword (t_kind t) ++
                 " is non-associative; enclose expression to the left of the operator in '(' and ')' to disambiguate?"))
            else if (Nat.ltb prec ctx || (Nat.eqb ctx prec && match TokenAssociativity (t_kind t) with ALEFT => true | _ => false end))%bool then
              free (Ok (ast, ts))
            else
              after take
              (let ts := tl ts in
              let next := t_kind (Peek eof ts) in
              after (peeks (if kind_eqb (t_kind t) SEMICOLON then if kind_eqb next END_OF_INPUT then 1 else 2 else 0))
              (if (kind_eqb (t_kind t) SEMICOLON && (kind_eqb next END_OF_INPUT || kind_eqb next RPAR))%bool then
                free (Ok (ast, ts))
              else if kind_eqb (t_kind t) DOUBLE_COLON then
                wbind (wExpectTokenKind ID ts) (fun '(field, ts) =>
                wbind (after (copy ast) (free (MakeFieldAccess ast field))) (fun ast =>
                wextend fuel' ast ts ctx))
              else
                wbind (wparse_above fuel' ts prec) (fun '(another, ts) =>
                wbind (after (plus_work (copy ast) (copy another)) (free (MakeBinaryExpression t ast another))) (fun ast =>
                wextend fuel' ast ts ctx))))
        | _ => free (Unexpected t extension_kinds src)
        end)
    end.
End Stream.

(** parser.cc:380-388. *)
Definition wParseTokens (pton : inet_pton6) (ck : constraint_kind) (tokens : list token) (src : csource) : costed expr :=
  let eof := eof_location tokens in
  wbind (wparse_above pton ck src eof (parse_fuel tokens) tokens 0) (fun '(ast, rest) =>
  wbind (wExpectTokenKind src eof END_OF_INPUT rest) (fun '(_, _) =>
  free (Ok ast))).

(** parser.cc:394-398. *)
Definition wParseConstraint (pton : inet_pton6) (ck : constraint_kind) (src : csource) : costed expr :=
  wParseTokens pton ck (Tokenize src) src.

(** type_checker.cc:231-425, InferAndCheckTypes: the positions of the expressions it is called for, in order ([p] is the position of [e];
    the first operand of the node at [q] is at [false :: q], the second at [true :: q]). Wrapping in a cast (type_checker.cc:129-137) moves and copies nothing. *)
Fixpoint lInfer (ai : option action_info) (ti : option table_info) (e : expr) (p : list bool) : outcome expr * list (list bool) :=
  let ok sub := match sub with Ok _ => true | _ => false end in
  (Infer ai ti e,
   p :: match ai, ti with
        | Some _, None | None, Some _ =>
            match e with
            | ENot _ a | ENeg _ a | EField _ _ a => snd (lInfer ai ti a (false :: p))
            | EBin _ _ a b =>
                let '(ra, la) := lInfer ai ti a (false :: p) in
                (la ++ if ok ra then snd (lInfer ai ti b (true :: p)) else [])%list
            | _ => []
            end
        | _, _ => []
        end).
