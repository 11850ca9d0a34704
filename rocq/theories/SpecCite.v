(** The whole text of a quotation, independent of the code. *)
From Coq Require Import String Ascii List ZArith NArith.
From Verif Require Import Base Num Token Ast SpecLexer SpecGrammar SpecQuote.
Import ListNotations.
Open Scope string_scope.

(** Lines and columns are counted from 1; the end of an interval is exclusive. *)
Inductive file_span (a b : loc) : string -> Prop :=
| fs_lines : (l_line a < l_line b)%Z -> file_span a b ("-" ++ dec (l_line b + 1) ++ ":" ++ dec (l_col b))
| fs_columns : (l_line b <= l_line a)%Z -> (l_col a + 1 < l_col b)%Z -> file_span a b ("-" ++ dec (l_col b))
| fs_column : (l_line b <= l_line a)%Z -> (l_col b <= l_col a + 1)%Z -> file_span a b "".
Inductive named_span (a b : loc) : string -> Prop :=
| ns_lines : (l_line a < l_line b)%Z -> named_span a b ("column " ++ dec (l_col a + 1) ++ " to line " ++ dec (l_line b + 1) ++ ", column" ++ dec (l_col b))
| ns_columns : (l_line b <= l_line a)%Z -> (l_col a + 1 < l_col b)%Z -> named_span a b ("columns " ++ dec (l_col a + 1) ++ " to " ++ dec (l_col b))
| ns_column : (l_line b <= l_line a)%Z -> (l_col b <= l_col a + 1)%Z -> named_span a b ("column " ++ dec (l_col a + 1)).
Inductive heading (a b : loc) : string -> Prop :=
| hd_file path s : l_src a = SrcFile path -> file_span a b s -> heading a b (path ++ ":" ++ dec (l_line a + 1) ++ ":" ++ dec (l_col a + 1) ++ s ++ ":" ++ nl)
| hd_action name s : l_src a = SrcAction name -> named_span a b s -> heading a b ("In @action_restriction of action '" ++ name ++ "'; at offset line " ++ dec (l_line a + 1) ++ ", " ++ s ++ ":" ++ nl)
| hd_table name s : l_src a = SrcTable name -> named_span a b s -> heading a b ("In @entry_restriction of table '" ++ name ++ "'; at offset line " ++ dec (l_line a + 1) ++ ", " ++ s ++ ":" ++ nl).
(** The line before the first line of the interval, that line, and a marker under the part of it in the
    interval. If the interval goes on in later lines, the marker ends as many columns before the
    end of the line as the margin is wide. *)
Inductive excerpt (c : csource) (a b : loc) : string -> Prop :=
| ex_empty : a = b -> excerpt c a b ""
| ex_line k line prev from len out : a <> b -> l_line a = (l_line (cs_loc c) + Z.of_nat k)%Z -> LineOf (cs_string c) k line ->
    match k with O => prev = None | S k' => exists p, prev = Some p /\ LineOf (cs_string c) k' p end ->
    l_col a = Z.of_nat from ->
    (l_line a = l_line b -> l_col b = Z.of_nat (from + len)) ->
    (l_line a <> l_line b -> String.length line = (String.length (dec (l_line a + 1)) + 3 + from + len)%nat) ->
    Shown prev (dec (l_line a + 1)) line from (from + len) out -> excerpt c a b out.
Definition Cited (c : csource) (a b : loc) (text : string) : Prop :=
  l_src a = l_src (cs_loc c) /\ l_src b = l_src (cs_loc c) /\ exists h x, heading a b h /\ excerpt c a b x /\ text = h ++ x.
