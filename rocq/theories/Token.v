(** Model of p4_constraints/frontend/token.{h,cc} and the data types of
    p4_constraints/ast.proto (source locations), constraint_source.h. *)
From Coq Require Import String Ascii List ZArith NArith Bool.
From Verif Require Import Base.
Import ListNotations.

(** ast.proto:177-192 (oneof source). *)
Inductive source :=
| SrcNone                      (* SOURCE_NOT_SET *)
| SrcFile (path : string)
| SrcTable (name : string)
| SrcAction (name : string).

(** ast.proto:166-193. int32 counters are modelled as unbounded integers. *)
Record loc := mkLoc { l_line : Z; l_col : Z; l_src : source }.

(** Default-constructed ast::SourceLocation. *)
Definition default_loc : loc := mkLoc 0 0 SrcNone.

(** constraint_source.h: struct ConstraintSource. *)
Record csource := mkCSource { cs_string : string; cs_loc : loc }.
(** A default-constructed ConstraintSource (constraint_info.cc:265, 313). *)
Definition default_csource : csource := mkCSource "" default_loc.

(** token.h:33-61. *)
Inductive kind :=
| TRUE | FALSE | BANG | AND | OR | IMPLIES | MINUS | DOT | DOUBLE_COLON
| SEMICOLON | EQ | NE | GT | GE | LT | LE | LPAR | RPAR | ID
| BINARY | OCTARY | DECIMAL | HEXADEC | END_OF_INPUT | STRING | UNEXPECTED_CHAR.

(** Comparison of Token::Kind values (token.h:33-61). *)
Definition kind_eq_dec (a b : kind) : {a = b} + {a <> b}.
Proof. decide equality. Defined.
(** operator== on Token::Kind. *)
Definition kind_eqb (a b : kind) : bool := if kind_eq_dec a b then true else false.

(** token.cc:28-57, Token::kAllKinds. *)
Definition kAllKinds : list kind :=
  [TRUE; FALSE; BANG; AND; OR; IMPLIES; MINUS; DOT; DOUBLE_COLON; SEMICOLON;
   EQ; NE; GT; GE; LT; LE; LPAR; RPAR; ID; BINARY; OCTARY; DECIMAL; HEXADEC;
   STRING; END_OF_INPUT; UNEXPECTED_CHAR].

(** token.cc:59-117, Token::KindToKeyword. *)
Definition KindToKeyword (k : kind) : string :=
  match k with
  | TRUE => "true" | FALSE => "false" | BANG => "!" | AND => "&&" | OR => "||"
  | IMPLIES => "->" | MINUS => "-" | DOT => "." | DOUBLE_COLON => "::"
  | SEMICOLON => ";" | EQ => "==" | NE => "!=" | GT => ">" | GE => ">="
  | LT => "<" | LE => "<=" | LPAR => "(" | RPAR => ")" | ID => "<ID>"
  | BINARY => "<BINARY>" | OCTARY => "<OCTARY>" | DECIMAL => "<DECIMAL>"
  | HEXADEC => "<HEXADEC>" | STRING => "<STRING>"
  | END_OF_INPUT => "<END_OF_INPUT>" | UNEXPECTED_CHAR => "<UNEXPECTED_CHAR>"
  end.

(** token.cc:119-127, kind_keyword_map: insert keeps the first binding of a key. *)
Fixpoint build_keyword_map (l : list kind) (m : list (string * kind)) : list (string * kind) :=
  match l with
  | [] => m
  | k :: l' =>
      build_keyword_map l'
        (match assoc_insert String.eqb (KindToKeyword k) k m with
         | Some m' => m'
         | None => m
         end)
  end.
(** token.cc:119-127, kind_keyword_map. *)
Definition kind_keyword_map : list (string * kind) := build_keyword_map kAllKinds [].

(** token.cc:129-136, Token::KeywordToKind. *)
Definition KeywordToKind (keyword : string) : option kind :=
  assoc_find String.eqb keyword kind_keyword_map.

(** token.h:66-82. *)
Record token := mkTok { t_kind : kind; t_text : string; t_start : loc; t_end : loc }.
