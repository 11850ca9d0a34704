(** Model of p4_constraints/quote.cc. *)
From Coq Require Import String Ascii List ZArith NArith Bool.
From Verif Require Import Base Num Token Ast.
Import ListNotations.
Open Scope Z_scope.

(** absl::StatusCodeToString. *)
Definition code_name (c : code) : string :=
  match c with
  | InvalidArgument => "INVALID_ARGUMENT"
  | Internal => "INTERNAL"
  | Unimplemented => "UNIMPLEMENTED"
  | NotFound => "NOT_FOUND"
  | UnknownCode => "UNKNOWN"
  end.

(** gutils/status.cc, StableStatusToString. *)
Definition StableStatusToString (c : code) (m : string) : string :=
  (code_name c ++ ": " ++ m ++ nl)%string.

(** The lines a sequence of std::getline calls extracts from a stringstream:
    pieces between '\n' characters; a final empty piece is not a line. *)
Definition getlines (s : string) : list string :=
  let ls := split_char LF s in
  match rev ls with
  | EmptyString :: r => rev r
  | _ => ls
  end.

(** The interval part shared by the kActionName and kTableName cases,
    quote.cc:57-66 and 72-81 (note: no blank after the second "column"). *)
Definition explain_verbose (start fin : loc) : string :=
  ("'; at offset line " ++ dec (l_line start + 1) ++
   (if Z.ltb (l_line start) (l_line fin) then
      ", column " ++ dec (l_col start + 1) ++ " to line " ++ dec (l_line fin + 1) ++
      ", column" ++ dec (l_col fin)
    else if Z.ltb (l_col start + 1) (l_col fin) then
      ", columns " ++ dec (l_col start + 1) ++ " to " ++ dec (l_col fin)
    else ", column " ++ dec (l_col start + 1)) ++ ":" ++ nl)%string.

(** quote.cc:40-89, Explain. DebugString in the error message not modelled. *)
Definition Explain (start fin : loc) : outcome string :=
  (match l_src start with
   | SrcFile p =>
       Ok (p ++ ":" ++ dec (l_line start + 1) ++ ":" ++ dec (l_col start + 1) ++
           (if Z.ltb (l_line start) (l_line fin) then
              "-" ++ dec (l_line fin + 1) ++ ":" ++ dec (l_col fin)
            else if Z.ltb (l_col start + 1) (l_col fin) then "-" ++ dec (l_col fin)
            else "") ++ ":" ++ nl)
   | SrcAction n => Ok ("In @action_restriction of action '" ++ n ++ explain_verbose start fin)
   | SrcTable n => Ok ("In @entry_restriction of table '" ++ n ++ explain_verbose start fin)
   | SrcNone => Err InvalidArgument "Invalid source case: "
   end)%string.

(** std::string(n, c) for an int n: converts to size_t, so a negative count is
    huge and the constructor throws std::length_error. *)
Definition std_string_fill (n : Z) (c : ascii) : outcome string :=
  if n <? 0 then Crash LengthError else Ok (repeat_char (Z.to_nat n) c).

(** The errors of quote.cc:118-122, 136-140 and 148-152. *)
Definition quote_line_error (key_line i : Z) : outcome string :=
  Err InvalidArgument
    ("Interval [`start`, `end`] to quote must lie within given " ++
     "`constraint`, but `start.line()` = " ++ dec key_line ++
     " while the final line of `constraint` is " ++ dec (i - 1))%string.

(** quote.cc:99-164, Quote. *)
Definition Quote (constraint : csource) (start fin : loc) : outcome string :=
  if loc_proto_equal start fin then Ok ""%string else
  let lines := getlines (cs_string constraint) in
  let key_line := l_line start in
  let offset := l_line (cs_loc constraint) in
  let before := if key_line =? offset then 0 else 1 in
  (* lines 114-124: skip lines offset .. key_line - before - 1 *)
  let nskip := Z.to_nat (key_line - before - offset) in
  if (List.length lines <? nskip)%nat then
    quote_line_error key_line (offset + Z.of_nat (List.length lines))
  else
  let lines := skipn nskip lines in
  let i := offset + Z.of_nat nskip in
  let key_line_margin := dec (key_line + 1) in
  let context_line_margin := repeat_char (String.length key_line_margin) " " in
  let separator := " | "%string in
  (* lines 131-142: context lines i .. key_line - 1 *)
  let ncontext := Z.to_nat (key_line - i) in
  if (List.length lines <? ncontext)%nat then
    quote_line_error key_line (i + Z.of_nat (List.length lines))
  else
  let context := concat_strings
    (map (fun line => context_line_margin ++ separator ++ line ++ nl)%string (firstn ncontext lines)) in
  let i := i + Z.of_nat ncontext in
  (* lines 143-153: the key line *)
  match skipn ncontext lines with
  | [] => quote_line_error key_line i
  | line :: _ =>
      let key := (key_line_margin ++ separator ++ line ++ nl)%string in
      (* lines 155-162: the marker *)
      let* blanks := std_string_fill (l_col start) " " in
      let margin := (context_line_margin ++ separator ++ blanks)%string in
      let marker_size :=
        if l_line start =? l_line fin then l_col fin - l_col start
        else slen line - slen margin in
      let* marker := std_string_fill marker_size "^" in
      Ok (context ++ key ++ margin ++ marker ++ nl)%string
  end.

(** quote.cc:167-180. *)
Definition GetSourceName (l : loc) : string :=
  match l_src l with
  | SrcTable n | SrcFile n | SrcAction n => n
  | SrcNone => "Unknown Source Type"
  end.

(** quote.cc:182-197. *)
Definition QuoteSubConstraint (constraint : csource) (from to : loc) : outcome string :=
  if negb (HaveSameSource (cs_loc constraint) from) || negb (HaveSameSource (cs_loc constraint) to)
     || negb (HaveSameSource from to) then
    Err InvalidArgument
      ("Quoting of multi-source locations not allowed. Constraint-Source: " ++
       GetSourceName (cs_loc constraint) ++ " From-Source: " ++ GetSourceName from ++
       " To-Source: " ++ GetSourceName to)%string
  else
    let* explanation := Explain from to in
    let* quote := Quote constraint from to in
    Ok (explanation ++ quote)%string.
