(** Vocabulary of the parser's properties, independent of the parser's code. *)
From Coq Require Import String Ascii List ZArith NArith.
From Verif Require Import Base Token Ast AstConstructors SpecLexer SpecGrammar.
Import ListNotations.
Open Scope string_scope.

(** * Printing (C10) *)
(** Trees, without locations. A variable is given by its path of identifiers. *)
Inductive surface :=
| SBool (b : bool)
| SNum (n : N)
| SVar (id : string) (ids : list string)
| SAttr (name : string)
| SNot (e : surface)
| SNeg (e : surface)
| SBin (op : kind) (l r : surface)
| SField (e : surface) (name : string).
(** An identifier; it must not start with a word constant (see C06). *)
Definition ident (w : string) : Prop :=
  word w /\ (forall u, w <> "true" ++ u) /\ (forall u, w <> "false" ++ u).
Fixpoint printable (s : surface) : Prop :=
  match s with
  | SBool _ | SNum _ => True
  | SVar id ids => Forall ident (id :: ids)
  | SAttr n => ident n
  | SNot e | SNeg e => printable e
  | SBin op l r => (exists p ch o, binary op p ch o) /\ printable l /\ printable r
  | SField e n => printable e /\ ident n
  end.
(** Fully parenthesised form, as kinds and texts of tokens. [num] gives the
    decimal notation of numbers. *)
Fixpoint print (num : N -> string) (s : surface) : list (kind * string) :=
  match s with
  | SBool true => [(TRUE, "true")]
  | SBool false => [(FALSE, "false")]
  | SNum n => [(DECIMAL, num n)]
  | SVar id ids => (ID, id) :: flat_map (fun i => [(DOT, "."); (ID, i)]) ids
  | SAttr n => [(DOUBLE_COLON, "::"); (ID, n)]
  | SNot e => (LPAR, "(") :: (BANG, "!") :: print num e ++ [(RPAR, ")")]
  | SNeg e => (LPAR, "(") :: (MINUS, "-") :: print num e ++ [(RPAR, ")")]
  | SBin op l r =>
      (LPAR, "(") :: print num l ++
      (op, match op with
           | SEMICOLON => ";" | IMPLIES => "->" | OR => "||" | AND => "&&" | EQ => "==" | NE => "!="
           | GT => ">" | GE => ">=" | LT => "<" | LE => "<=" | _ => ""
           end) :: print num r ++ [(RPAR, ")")]
  | SField e n => (LPAR, "(") :: print num e ++ [(DOUBLE_COLON, "::"); (ID, n); (RPAR, ")")]
  end.
(** The text: tokens separated by blanks. *)
Definition text_of (l : list (kind * string)) : string := render (map (fun '(k, t) => (k, t, t, " ")) l).
(** [Means ck s e]: the tree [e] is [s], whatever its locations. *)
Inductive Means (ck : constraint_kind) : surface -> expr -> Prop :=
| M_bool m b : Means ck (SBool b) (EBool m b)
| M_num m n d : Decimal d n -> Means ck (SNum n) (EInt m d)
| M_var m id ids : Means ck (SVar id ids) (variable ck m (id :: ids))
| M_attr m n : Means ck (SAttr n) (EAttr m n)
| M_not m s e : Means ck s e -> Means ck (SNot s) (ENot m e)
| M_neg m s e : Means ck s e -> Means ck (SNeg s) (ENeg m e)
| M_bin m op p ch o l r el er : binary op p ch o -> Means ck l el -> Means ck r er ->
    Means ck (SBin op l r) (EBin m o el er)
| M_field m s e n : Means ck s e -> Means ck (SField s n) (EField m n e).

(** * Chains of operators (C11) *)
(** Tokens between two operators of level [p]: parentheses match, and outside of
    all parentheses no operator binds more loosely than [p]. [d] counts the
    parentheses that are open. *)
Fixpoint beside (p d : nat) (y : list token) : Prop :=
  match y with
  | [] => d = 0%nat
  | t :: y =>
      match t_kind t with
      | LPAR => beside p (S d) y
      | RPAR => match d with O => False | S d' => beside p d' y end
      | k => (d = 0%nat -> forall q ch o, binary k q ch o -> (p <= q)%nat) /\ beside p d y
      end
  end.

(** * Source intervals (C12) *)
Inductive sub : expr -> expr -> Prop :=
| sub_refl e : sub e e
| sub_not m s e : sub s e -> sub s (ENot m e)
| sub_neg m s e : sub s e -> sub s (ENeg m e)
| sub_cast m s e : sub s e -> sub s (ECast m e)
| sub_left m o s a b : sub s a -> sub s (EBin m o a b)
| sub_right m o s a b : sub s b -> sub s (EBin m o a b)
| sub_field m f s e : sub s e -> sub s (EField m f e).
(** [Spans v e]: [e] runs from the start of the first token of [v] to the end of
    its last token; [v] does not start with '(' and ends neither with ')' nor
    with ';', except for the ')' of an address literal. *)
Definition Spans (v : list token) (e : expr) : Prop :=
  (exists first v', v = first :: v' /\ t_kind first <> LPAR /\ e_start e = t_start first) /\
  (exists v' final, v = (v' ++ [final])%list /\ e_end e = t_end final /\
     ((t_kind final <> RPAR /\ t_kind final <> SEMICOLON) \/
      exists v'' str, v' = (v'' ++ [str])%list /\ t_kind str = STRING)).
(** Reading order of locations. *)
Definition no_later (a b : loc) : Prop :=
  (l_line a < l_line b \/ (l_line a = l_line b /\ l_col a <= l_col b))%Z.
(** Operands lie within their expression, one after the other. *)
Fixpoint nested (e : expr) : Prop :=
  no_later (e_start e) (e_end e) /\
  match e with
  | ENot _ a | ENeg _ a | ECast _ a | EField _ _ a =>
      no_later (e_start e) (e_start a) /\ no_later (e_end a) (e_end e) /\ nested a
  | EBin _ _ a b =>
      no_later (e_start e) (e_start a) /\ no_later (e_end a) (e_start b) /\ no_later (e_end b) (e_end e) /\
      nested a /\ nested b
  | _ => True
  end.

(** * Errors (C13) *)
(** Every carriage return is followed by a line feed. *)
Definition no_bare_CR (s : string) : Prop := forall a b, s = a ++ String CR b -> exists b', b = String LF b'.
