(** Laws by which constraints can be rewritten (C55-C57), independent of the code. *)
From Coq Require Import String List ZArith.
From Verif Require Import Base Token Ast Lexer AstConstructors Parser Info Interpreter SpecLexer SpecGrammar SpecTyping SpecSemantics SpecInfo SpecMisc.
Import ListNotations.

(** * The same program with other texts *)
(** Constraints made of the same tokens: whitespace, comments, line breaks and the
    place in a file may differ. *)
Definition same_tokens (cs cs' : csource) : Prop := map kt (Tokenize cs) = map kt (Tokenize cs').
Inductive same_restriction (ck : constraint_kind) (pre pre' : preamble) : Prop :=
| sr_none : unrestricted ck pre -> unrestricted ck pre' -> same_restriction ck pre pre'
| sr_some cs cs' : restricted ck pre cs -> restricted ck pre' cs' -> same_tokens cs cs' -> same_restriction ck pre pre'.
(** Names of tables and actions, and all other annotations, may differ, too. *)
Definition retold_table (d d' : p4_table) : Prop :=
  pr_id (pt_preamble d) = pr_id (pt_preamble d') /\ pt_match_fields d = pt_match_fields d' /\ same_restriction kTableConstraint (pt_preamble d) (pt_preamble d').
Definition retold_action (d d' : p4_action_decl) : Prop :=
  pr_id (pad_preamble d) = pr_id (pad_preamble d') /\ pad_params d = pad_params d' /\ same_restriction kActionConstraint (pad_preamble d) (pad_preamble d').
Definition retold (p p' : p4info) : Prop :=
  Forall2 retold_table (p4_tables p) (p4_tables p') /\ Forall2 retold_action (p4_actions p) (p4_actions p').

(** * Single laws. Locations are irrelevant. *)
Inductive Law : expr -> expr -> Prop :=
| law_double m n a : Law (ENot m (ENot n a)) a
| law_not_and m n m1 m2 m3 a b : Law (ENot m (EBin n OAND a b)) (EBin m1 OOR (ENot m2 a) (ENot m3 b))
| law_not_or m n m1 m2 m3 a b : Law (ENot m (EBin n OOR a b)) (EBin m1 OAND (ENot m2 a) (ENot m3 b))
| law_implies m n n' a b : Law (EBin m OIMPLIES a b) (EBin n OOR (ENot n' a) b)
| law_contrapose m n n1 n2 a b : Law (EBin m OIMPLIES a b) (EBin n OIMPLIES (ENot n1 b) (ENot n2 a))
| law_curry m m' n n' a b c : Law (EBin m OIMPLIES (EBin m' OAND a b) c) (EBin n OIMPLIES a (EBin n' OIMPLIES b c))
| law_and_comm m n a b : Law (EBin m OAND a b) (EBin n OAND b a)
| law_or_comm m n a b : Law (EBin m OOR a b) (EBin n OOR b a)
| law_and_assoc m m' n n' a b c : Law (EBin m OAND (EBin m' OAND a b) c) (EBin n OAND a (EBin n' OAND b c))
| law_or_assoc m m' n n' a b c : Law (EBin m OOR (EBin m' OOR a b) c) (EBin n OOR a (EBin n' OOR b c))
| law_and_idem m a : Law (EBin m OAND a a) a
| law_or_idem m a : Law (EBin m OOR a a) a
| law_and_distr m m' n n1 n2 a b c : Law (EBin m OAND a (EBin m' OOR b c)) (EBin n OOR (EBin n1 OAND a b) (EBin n2 OAND a c))
| law_or_distr m m' n n1 n2 a b c : Law (EBin m OOR a (EBin m' OAND b c)) (EBin n OAND (EBin n1 OOR a b) (EBin n2 OOR a c))
| law_and_absorb m m' a b : Law (EBin m OAND a (EBin m' OOR a b)) a
| law_or_absorb m m' a b : Law (EBin m OOR a (EBin m' OAND a b)) a
| law_and_true m m' a : Law (EBin m OAND (EBool m' true) a) a
| law_and_false m m' n a : Law (EBin m OAND (EBool m' false) a) (EBool n false)
| law_or_true m m' n a : Law (EBin m OOR (EBool m' true) a) (EBool n true)
| law_or_false m m' a : Law (EBin m OOR (EBool m' false) a) a
| law_ne m n n' a b : Law (EBin m ONE a b) (ENot n (EBin n' OEQ a b))
| law_eq_sym m n a b : Law (EBin m OEQ a b) (EBin n OEQ b a)
| law_eq_refl m n a : Law (EBin m OEQ a a) (EBool n true)
| law_gt m n a b : Law (EBin m OGT a b) (EBin n OLT b a)
| law_ge m n a b : Law (EBin m OGE a b) (EBin n OLE b a)
| law_not_lt m n n' a b : Law (EBin m OGE a b) (ENot n (EBin n' OLT a b))
| law_le m n n1 n2 a b : Law (EBin m OLE a b) (EBin n OOR (EBin n1 OLT a b) (EBin n2 OEQ a b)).

(** * Rewriting with laws, anywhere in a constraint and any number of times. Only
    well-typed constraints are rewritten. *)
Inductive Rewrites (G : scope) : expr -> expr -> Prop :=
| rw_law a b : Law a b -> Typed G a TBool -> Typed G b TBool -> literals a -> literals b -> Rewrites G a b
| rw_alike a b : Alike a b -> Rewrites G a b
| rw_sym a b : Rewrites G a b -> Rewrites G b a
| rw_trans a b c : Rewrites G a b -> Rewrites G b c -> Rewrites G a c
| rw_not m n a b : Rewrites G a b -> Rewrites G (ENot m a) (ENot n b)
| rw_bin m n o a b c d : Rewrites G a b -> Rewrites G c d -> Rewrites G (EBin m o a c) (EBin n o b d).

(** * Combined texts *)
(** ( a ) op ( b ) and ! ( a ) *)
Definition combined (op a b : string) : string := ("( " ++ a ++ " ) " ++ op ++ " ( " ++ b ++ " )")%string.
Definition negated (a : string) : string := ("! ( " ++ a ++ " )")%string.
(** The operators that connect conditions. *)
Inductive connects : string -> binop -> Prop :=
| co_and : connects "&&" OAND
| co_semi : connects ";" OAND
| co_or : connects "||" OOR
| co_implies : connects "->" OIMPLIES.
