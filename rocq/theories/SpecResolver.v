(** The IPv6 addresses a constraint asks the system to read (C81). *)
From Coq Require Import String List.
From Verif Require Import Base Token Lexer AstConstructors Info SpecInfo.
Import ListNotations.
Open Scope string_scope.

(** [ipv6('s')] occurs among the tokens. *)
Definition names_ipv6 (ts : list token) (s : string) : Prop :=
  exists before id lpar str rpar after, ts = (before ++ id :: lpar :: str :: rpar :: after)%list /\
    t_kind id = ID /\ t_text id = "ipv6" /\ t_kind lpar = LPAR /\ t_kind str = STRING /\ t_kind rpar = RPAR /\ t_text str = s.
(** [ipv6('s')] occurs in a constraint of the program. *)
Definition program_names_ipv6 (p : p4info) (s : string) : Prop :=
  (exists d cs, In d (p4_tables p) /\ restricted kTableConstraint (pt_preamble d) cs /\ names_ipv6 (Tokenize cs) s) \/
  (exists d cs, In d (p4_actions p) /\ restricted kActionConstraint (pad_preamble d) cs /\ names_ipv6 (Tokenize cs) s).
(** [w] does not occur in [s]. *)
Definition free_of (w s : string) : Prop := forall a b, s <> a ++ w ++ b.
(** The two resolvers read these addresses in the same way. (Addresses end at the first NUL character.) *)
Definition read_alike (pton pton' : inet_pton6) (P : string -> Prop) : Prop := forall s, P s -> pton (c_str s) = pton' (c_str s).
