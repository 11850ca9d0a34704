(** Model of p4_constraints/frontend/lexer.cc. *)
From Coq Require Import String Ascii List ZArith NArith Bool.
From Verif Require Import Base Regex Token.
Import ListNotations.

(** The line-break characters of lexer.cc:45 and 76. *)
Definition is_crlf (c : ascii) : bool := (Ascii.eqb c CR || Ascii.eqb c LF)%bool.

(** The newline pattern "(?:\r\n?)|\n" (lexer.cc:45,76). *)
Definition re_newline : re :=
  RAlt (RSeq (RClass (is_char CR)) (ROpt (RClass (is_char LF)))) (RClass (is_char LF)).

(** lexer.cc:40-46, kCommentRegexp; the three unnamed groups are named here. *)
Definition kCommentRegexp : re :=
  RAlts
    [ RGroup "end_of_comment" (RLit "*/");
      RGroup "comment"
        (RAlt (RPlus (RNeg (fun c => is_crlf c || Ascii.eqb c "*")%bool)) (RClass (is_char "*")));
      RGroup "newline" re_newline ].

(** set_column(column() + n) on a source location, lexer.cc:38-69 and 131-195. *)
Definition add_col (n : Z) (l : loc) : loc := mkLoc (l_line l) (l_col l + n) (l_src l).
(** The next line: set_line(line() + 1), set_column(0), lexer.cc:38-69 and 131-195. *)
Definition next_line (l : loc) : loc := mkLoc (l_line l + 1) 0 (l_src l).

(** lexer.cc:38-69, SwallowMultiLineComment: returns the remaining input and the
    new location. The fuel is the length of the input (every match is nonempty).
    The DCHECK at line 64 is checked separately (see [swallow_dcheck]). *)
Fixpoint SwallowMultiLineComment (fuel : nat) (input : string) (l : loc) : string * loc :=
  match fuel with
  | O => (input, l)
  | S fuel' =>
      match first_match kCommentRegexp input with
      | None => (input, l)
      | Some h =>
          let end_of_comment := capture "end_of_comment" h in
          let comment := capture "comment" h in
          let newline := capture "newline" h in
          if negb (String.eqb end_of_comment "") then
            (h_rest h, add_col (slen end_of_comment) l)
          else if negb (String.eqb comment "") then
            SwallowMultiLineComment fuel' (h_rest h) (add_col (slen comment) l)
          else if negb (String.eqb newline "") then
            SwallowMultiLineComment fuel' (h_rest h) (next_line l)
          else
            SwallowMultiLineComment fuel' (h_rest h) l
      end
  end.

(** Character classes of lexer.cc:89-94. *)
Definition is_alpha_ (c : ascii) : bool := (Ascii.eqb c "_" || is_lower c || is_upper c)%bool.
(** [_a-zA-Z0-9], lexer.cc:89. *)
Definition is_alnum_ (c : ascii) : bool := (is_alpha_ c || is_digit c)%bool.
(** [0-1], lexer.cc:91. *)
Definition is_bin (c : ascii) : bool := in_range 48 49 c.
(** [0-7], lexer.cc:92. *)
Definition is_oct (c : ascii) : bool := in_range 48 55 c.
(** [0-9a-fA-F], lexer.cc:93. *)
Definition is_hex (c : ascii) : bool := (is_digit c || in_range 97 102 c || in_range 65 70 c)%bool.
(** Space and tab, lexer.cc:75. *)
Definition is_blank (c : ascii) : bool := (Ascii.eqb c " " || Ascii.eqb c TAB)%bool.

(** lexer.cc:80-87, the keyword alternatives in source order. *)
Definition keyword_alternatives : re :=
  RAlts [ RLit "true"; RLit "false"; RLit "&&"; RLit "||"; RLit "->"; RLit "::";
          RLit "=="; RLit "!="; RLit ">="; RLit "<=";
          RClass (mem_char "!()><.;-") ].

(** lexer.cc:73-98, kTokenPattern. Source order of the alternatives is kept. *)
Definition kTokenPattern : re :=
  RAlts
    [ RGroup "whitespace" (RPlus (RClass is_blank));
      RGroup "newline" re_newline;
      RGroup "comment" (RSeq (RLit "//") (RStar (RNeg is_crlf)));
      RGroup "begin_multiline_comment" (RLit "/*");
      RGroup "keyword" keyword_alternatives;
      RGroup "id" (RSeq (RClass is_alpha_) (RStar (RClass is_alnum_)));
      RSeq (RSeq (RClass (is_char "0")) (RClass (mem_char "bB")))
           (RGroup "binary" (RPlus (RClass is_bin)));
      RSeq (RSeq (RClass (is_char "0")) (RClass (mem_char "oO")))
           (RGroup "octary" (RPlus (RClass is_oct)));
      RSeq (RSeq (RClass (is_char "0")) (RClass (mem_char "xX")))
           (RGroup "hexadec" (RPlus (RClass is_hex)));
      RSeq (ROpt (RSeq (RClass (is_char "0")) (RClass (mem_char "dD"))))
           (RGroup "decimal" (RPlus (RClass is_digit)));
      RGroup "string"
        (RSeq (RClass (is_char SQUOTE))
              (RSeq (RGroup "string_content" (RStar (RNeg (is_char SQUOTE))))
                    (RClass (is_char SQUOTE)))) ].

(** lexeme.substr(1, lexeme.size() - 2) (lexer.cc:185). *)
Definition strip_quotes (s : string) : string :=
  String.substring 1 (String.length s - 2) s.

(** !x.empty() on a captured group, lexer.cc:131-195. *)
Definition nonempty (s : string) : bool := negb (String.eqb s "").

(** lexer.cc:131-195, the main loop, returning the tokens found, the remaining
    input and the current location ([start_location] equals [current_location]
    at the loop head: DCHECK at line 134). Fuel: every match is nonempty. *)
Fixpoint tokenize_loop (fuel : nat) (input : string) (l : loc) : list token * string * loc :=
  match fuel with
  | O => ([], input, l)
  | S fuel' =>
      match first_match kTokenPattern input with
      | None => ([], input, l)
      | Some h =>
          let cap n := capture n h in
          let lexeme := h_text h in
          let rest := h_rest h in
          let cur := add_col (slen lexeme) l in
          if (nonempty (cap "whitespace") || nonempty (cap "comment"))%bool then
            tokenize_loop fuel' rest cur
          else if nonempty (cap "newline") then
            tokenize_loop fuel' rest (next_line cur)
          else if nonempty (cap "begin_multiline_comment") then
            let (rest', cur') := SwallowMultiLineComment (String.length rest) rest cur in
            tokenize_loop fuel' rest' cur'
          else
            let '(k, text) :=
              if nonempty (cap "keyword") then
                (match KeywordToKind lexeme with Some k => k | None => UNEXPECTED_CHAR end, lexeme)
              else if nonempty (cap "id") then (ID, lexeme)
              else if nonempty (cap "binary") then (BINARY, cap "binary")
              else if nonempty (cap "octary") then (OCTARY, cap "octary")
              else if nonempty (cap "decimal") then (DECIMAL, cap "decimal")
              else if nonempty (cap "hexadec") then (HEXADEC, cap "hexadec")
              else if nonempty (cap "string") then (STRING, strip_quotes (cap "string"))
              else (UNEXPECTED_CHAR, lexeme) in
            let '(ts, rem, l') := tokenize_loop fuel' rest cur in
            (mkTok k text l cur :: ts, rem, l')
      end
  end.

(** lexer.cc:115-211, Tokenize. *)
Definition Tokenize (c : csource) : list token :=
  let '(ts, rem, l) := tokenize_loop (S (String.length (cs_string c))) (cs_string c) (cs_loc c) in
  ts ++
  match rem with
  | EmptyString => [mkTok END_OF_INPUT "" l l]
  | String ch _ => [mkTok UNEXPECTED_CHAR (str1 ch) l (add_col 1 l)]
  end.

(** Condition asserted by DCHECK(input->empty()) at lexer.cc:64, evaluated at
    every exit of the comment loop that is not through '*/' (debug builds abort
    if it is false; release builds continue). *)
Fixpoint swallow_dcheck (fuel : nat) (input : string) : bool :=
  match fuel with
  | O => String.eqb input ""
  | S fuel' =>
      match first_match kCommentRegexp input with
      | None => String.eqb input ""
      | Some h =>
          if nonempty (capture "end_of_comment" h) then true
          else swallow_dcheck fuel' (h_rest h)
      end
  end.
