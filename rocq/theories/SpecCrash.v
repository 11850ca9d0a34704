(** When quoting crashes, independent of the code. *)
From Coq Require Import String Ascii List ZArith NArith.
From Verif Require Import Base Num Token Ast AstConstructors Info SpecLexer SpecGrammar SpecParser SpecQuote SpecTyping SpecInfo.
Import ListNotations.
Open Scope string_scope.

(** The constraints a P4Info declares. *)
Inductive declares (p : p4info) : constraint_kind -> csource -> Prop :=
| dc_table d cs : In d (p4_tables p) -> restricted kTableConstraint (pt_preamble d) cs -> declares p kTableConstraint cs
| dc_action d cs : In d (p4_actions p) -> restricted kActionConstraint (pad_preamble d) cs -> declares p kActionConstraint cs.
(** [spot e a b]: the interval from [a] to [b] is a subexpression of [e], or goes from the
    start of the left to the end of the right operand of one. *)
Inductive spot (e : expr) : loc -> loc -> Prop :=
| sp_sub s : sub s e -> spot e (e_start s) (e_end s)
| sp_operands m o l r : sub (EBin m o l r) e -> spot e (e_start l) (e_end r).
(** [sprawls c a b]: the interval spans lines, and its first line ends too soon after [a]: before the
    marker's left margin, which is as wide as the line number and three more. *)
Definition sprawls (c : csource) (a b : loc) : Prop :=
  l_line a <> l_line b /\
  exists line, LineOf (cs_string c) (Z.to_nat (l_line a - l_line (cs_loc c))) line /\
    (Z.of_nat (String.length line) < Z.of_nat (String.length (dec (l_line a + 1))) + 3 + l_col a)%Z.
(** Some declared constraint reads as a tree one of whose intervals sprawls. *)
Definition unsafe (pton : inet_pton6) (p : p4info) : Prop :=
  exists ck cs e a b, declares p ck cs /\ reads_as pton ck cs e /\ spot e a b /\ sprawls cs a b.
(** Written in one line. *)
Definition one_line (s : string) : Prop := ~ In LF (chars s) /\ ~ In CR (chars s).
(** Every declared key and parameter has a nonnegative width. *)
Definition sane_widths (p : p4info) : Prop :=
  (forall d f, In d (p4_tables p) -> In f (pt_match_fields d) -> (0 <= mf_bitwidth f)%Z) /\
  (forall d f, In d (p4_actions p) -> In f (pad_params d) -> (0 <= ap_bitwidth f)%Z).
