(** Specification of the constraint language's grammar and of its literals,
    independent of the parser's code. Levels of the grammar, loosest first:
    0 constraint, 1 ';', 2 '->', 3 '||', 4 '&&', 5 comparisons, 6 prefix '!' and
    '-', 7 postfix '::', 8 primary. *)
From Coq Require Import String Ascii List ZArith NArith.
From Verif Require Import Base Token Ast AstConstructors SpecLexer.
Import ListNotations.
Open Scope string_scope.

(** * Numerals *)
Inductive dchar : ascii -> N -> Prop :=
| dchar_digit c : between 48 57 c -> dchar c (N_of_ascii c - 48)
| dchar_upper c : between 65 90 c -> dchar c (N_of_ascii c - 55)
| dchar_lower c : between 97 122 c -> dchar c (N_of_ascii c - 87).
(** [s] is a nonempty string of base-[b] digits with value [n]. *)
Inductive Reads (b : N) : string -> N -> Prop :=
| reads_one c d : dchar c d -> (d < b)%N -> Reads b (String c "") d
| reads_snoc s n c d : Reads b s n -> dchar c d -> (d < b)%N -> Reads b (s ++ String c "") (n * b + d).
(** The usual decimal notation of [n]. *)
Definition Decimal (s : string) (n : N) : Prop :=
  Reads 10 s n /\ (s = "0" \/ forall u, s <> String "0" u).
Inductive base : kind -> N -> Prop :=
| base2 : base BINARY 2 | base8 : base OCTARY 8 | base10 : base DECIMAL 10 | base16 : base HEXADEC 16.

(** Numeral tokens carry digits of their base. *)
Definition numeral_text (t : token) : Prop :=
  match t_kind t with
  | BINARY => exists n, Reads 2 (t_text t) n
  | OCTARY => exists n, Reads 8 (t_text t) n
  | DECIMAL => exists n, Reads 10 (t_text t) n
  | HEXADEC => exists n, Reads 16 (t_text t) n
  | _ => True
  end.

(** * Network addresses *)
(** Big-endian number with the given bytes. *)
Fixpoint number (acc : N) (bytes : list N) : N :=
  match bytes with
  | [] => acc
  | b :: bs => number (acc * 256 + b) bs
  end.
Definition dec_byte (s : string) (n : N) : Prop := Reads 10 s n /\ (n <= 255)%N /\ (String.length s <= 3)%nat.
Definition hex_byte (s : string) (n : N) : Prop := Reads 16 s n /\ (String.length s <= 2)%nat.
(** What precedes the first NUL byte of [s]. *)
Definition up_to_nul (s t : string) : Prop :=
  ~ In NUL (chars t) /\ (s = t \/ exists u, s = t ++ String NUL u).
Inductive Address (pton : inet_pton6) : string -> string -> N -> Prop :=
| addr_ipv4 ss ns : Forall2 dec_byte ss ns -> List.length ss = 4%nat ->
    Address pton "ipv4" (String.concat "." ss) (number 0 ns)
| addr_mac ss ns : Forall2 hex_byte ss ns -> List.length ss = 6%nat ->
    Address pton "mac" (String.concat ":" ss) (number 0 ns)
| addr_ipv6 s t bytes : up_to_nul s t -> pton t = Some bytes ->
    Address pton "ipv6" s (number 0 (map N_of_ascii (chars bytes))).
(** inet_pton writes 16 bytes. *)
Definition pton_ok (pton : inet_pton6) : Prop := forall s bytes, pton s = Some bytes -> String.length bytes = 16%nat.

(** * Operators: kind, level, whether the operator may be chained (then it
    associates to the left), meaning. *)
Inductive binary : kind -> nat -> bool -> binop -> Prop :=
| b_semi : binary SEMICOLON 1 true OAND
| b_implies : binary IMPLIES 2 false OIMPLIES
| b_or : binary OR 3 true OOR
| b_and : binary AND 4 true OAND
| b_eq : binary EQ 5 false OEQ
| b_ne : binary NE 5 false ONE
| b_gt : binary GT 5 false OGT
| b_ge : binary GE 5 false OGE
| b_lt : binary LT 5 false OLT
| b_le : binary LE 5 false OLE.

(** Untyped node from [s] to [e]. *)
Definition at_ (s e : loc) : meta := mkMeta s e TNotSet.

(** ('.' ID)*: the identifiers. *)
Inductive Dots : list token -> list token -> Prop :=
| dots_nil : Dots [] []
| dots_cons dot id w ids : t_kind dot = DOT -> t_kind id = ID -> Dots w ids -> Dots (dot :: id :: w) (id :: ids).
(** A table constraint's variable is a key; its name is the identifiers joined
    by dots. In an action constraint it is a parameter; there the identifiers
    are joined by nothing. *)
Definition variable (ck : constraint_kind) (m : meta) (names : list string) : expr :=
  match ck with
  | kTableConstraint => EKey m (String.concat "." names)
  | kActionConstraint => EParam m (String.concat "" names)
  end.

(** [D n w e]: the tokens [w] form a constraint of level [n] with tree [e]. *)
Inductive D (pton : inet_pton6) (ck : constraint_kind) : nat -> list token -> expr -> Prop :=
| D_true t : t_kind t = TRUE -> D pton ck 8 [t] (EBool (at_ (t_start t) (t_end t)) true)
| D_false t : t_kind t = FALSE -> D pton ck 8 [t] (EBool (at_ (t_start t) (t_end t)) false)
| D_num t b n s : base (t_kind t) b -> Reads b (t_text t) n -> Decimal s n ->
    D pton ck 8 [t] (EInt (at_ (t_start t) (t_end t)) s)
| D_addr id lp st rp n s :
    t_kind id = ID -> t_kind lp = LPAR -> t_kind st = STRING -> t_kind rp = RPAR ->
    Address pton (t_text id) (t_text st) n -> Decimal s n ->
    D pton ck 8 [id; lp; st; rp] (EInt (at_ (t_start id) (t_end rp)) s)
| D_var id w ids : t_kind id = ID -> Dots w ids ->
    D pton ck 8 (id :: w) (variable ck (at_ (t_start id) (t_end (last ids id))) (map t_text (id :: ids)))
| D_attr dc id : t_kind dc = DOUBLE_COLON -> t_kind id = ID ->
    D pton ck 8 [dc; id] (EAttr (at_ (t_start dc) (t_end id)) (t_text id))
| D_paren lp w rp e : t_kind lp = LPAR -> D pton ck 0 w e -> t_kind rp = RPAR ->
    D pton ck 8 (lp :: w ++ [rp]) e
| D_field w e dc id : D pton ck 7 w e -> t_kind dc = DOUBLE_COLON -> t_kind id = ID ->
    D pton ck 7 (w ++ [dc; id]) (EField (at_ (e_start e) (t_end id)) (t_text id) e)
| D_not t w e : t_kind t = BANG -> D pton ck 6 w e ->
    D pton ck 6 (t :: w) (ENot (at_ (t_start t) (e_end e)) e)
| D_neg t w e : t_kind t = MINUS -> D pton ck 6 w e ->
    D pton ck 6 (t :: w) (ENeg (at_ (t_start t) (e_end e)) e)
| D_chain p o w1 e1 t w2 e2 : binary (t_kind t) p true o ->
    D pton ck p w1 e1 -> D pton ck (S p) w2 e2 ->
    D pton ck p (w1 ++ t :: w2) (EBin (at_ (e_start e1) (e_end e2)) o e1 e2)
| D_single p o w1 e1 t w2 e2 : binary (t_kind t) p false o ->
    D pton ck (S p) w1 e1 -> D pton ck (S p) w2 e2 ->
    D pton ck p (w1 ++ t :: w2) (EBin (at_ (e_start e1) (e_end e2)) o e1 e2)
| D_trailing w e t : D pton ck 1 w e -> t_kind t = SEMICOLON -> D pton ck 0 (w ++ [t]) e
| D_up n w e : D pton ck (S n) w e -> D pton ck n w e.
