(** Why a constraint cannot be evaluated, or its violation not explained, and what is then answered; independent of the interpreter's code. *)
From Coq Require Import String Ascii List ZArith NArith Bool.
From Verif Require Import Base Num Token Ast AstConstructors Quote Info TypeChecker Interpreter SpecLexer SpecGrammar SpecTyping SpecSemantics SpecReading SpecOutcome SpecLoadError.
Import ListNotations.
Open Scope string_scope.

(** What goes wrong: something with the part [s] of a constraint, explanations whose sizes are not known, or an explanation [s] that cannot be quoted. *)
Inductive trouble := At (s : expr) (text : string) | NoSize | Unquoted (s : expr).

Section Constraint.
  (** The names in scope, their values, and the name of the table or action. *)
  Variables (G : scope) (r : env) (name : string).
  Let means := Meant unordered_exact G r.
  Let holds e x := means e (VBool x).
  (** [Stuck e s text]: evaluating [e] comes to the part [s], and [text] says why it goes no further. There are three reasons: an argument
      that was not given, the priority where there is no entry, and the order of the values of an exact match. *)
  Inductive Stuck : expr -> expr -> string -> Prop :=
  | sk_param param m n : r = ActionEnv param -> param n = None -> Stuck (EParam m n) (EParam m n) ("unknown action parameter " ++ n ++ " in action " ++ name)
  | sk_priority param m : r = ActionEnv param -> Stuck (EAttr m "priority") (EAttr m "priority") "The constraint context does not contain a TableEntry."
  | sk_order m o a b ta tb w v : ordering o -> Typed G a ta -> Typed G b tb -> common ta tb (TExact w) -> means a v ->
      Stuck (EBin m o a b) a "expected expression of integral type;  in ordered comparison"
  | sk_not m e s text : Stuck e s text -> Stuck (ENot m e) s text
  | sk_neg m e s text : Stuck e s text -> Stuck (ENeg m e) s text
  | sk_field m f e s text : Stuck e s text -> Stuck (EField m f e) s text
  | sk_eq_left m o a b s text : equality o -> Stuck a s text -> Stuck (EBin m o a b) s text
  | sk_eq_right m o a b v s text : equality o -> means a v -> Stuck b s text -> Stuck (EBin m o a b) s text
  | sk_ordered_left m o a b s text : ordering o -> Stuck a s text -> Stuck (EBin m o a b) s (text ++ ";  in ordered comparison")
  | sk_ordered_right m o a b ta tb t v s text : ordering o -> Typed G a ta -> Typed G b tb -> common ta tb t -> (forall w, t <> TExact w) ->
      means a v -> Stuck b s text -> Stuck (EBin m o a b) s (text ++ ";  in ordered comparison")
  | sk_left m o a b s text : connective o -> Stuck a s text -> Stuck (EBin m o a b) s text
  | sk_right m o a b x s text : connective o -> holds a x -> ~ left_decides o x -> Stuck b s text -> Stuck (EBin m o a b) s text.
  (** [Unclear e t]: the search for an explanation of the truth value of [e] fails. Unlike evaluation it always needs both operands of
      a connective. *)
  Inductive Unclear : expr -> trouble -> Prop :=
  | uc_not m e t : Unclear e t -> Unclear (ENot m e) t
  | uc_operand m o a b x s text : connective o -> holds a x -> Stuck b s text -> Unclear (EBin m o a b) (At s text)
  | uc_left m o a b x y t : connective o -> holds a x -> holds b y -> left_decides o x -> Unclear a t -> Unclear (EBin m o a b) t
  | uc_right m o a b x y t : connective o -> holds a x -> holds b y -> ~ left_decides o x -> right_decides o y -> Unclear b t -> Unclear (EBin m o a b) t
  | uc_right_too m o a b x y s t : connective o -> holds a x -> holds b y -> left_decides o x -> right_decides o y ->
      Explained holds a s -> Unclear b t -> Unclear (EBin m o a b) t
  | uc_size m o a b x y s s' : connective o -> holds a x -> holds b y -> left_decides o x -> right_decides o y ->
      Explained holds a s -> Explained holds b s' -> ~ (exists i j, Nodes s i /\ Nodes s' j) -> Unclear (EBin m o a b) NoSize.
  (** What goes wrong with the constraint [e]. *)
  Inductive Trouble (cs : csource) (e : expr) : trouble -> Prop :=
  | tb_value s text : Stuck e s text -> Trouble cs e (At s text)
  | tb_reason t : holds e false -> Unclear e t -> Trouble cs e t
  | tb_quote s : holds e false -> Explained holds e s -> (forall quote, QuoteSubConstraint cs (e_start s) (e_end s) <> Ok quote) -> Trouble cs e (Unquoted s).
End Constraint.

(** What is answered. (The message for [NoSize] goes on with a dump of an expression, which is not modelled.) *)
Definition answer (cs : csource) (t : trouble) : outcome string :=
  match t with
  | At s text =>
      match shown cs (e_start s) (e_end s) "Runtime type error: " text with
      | Ok m => Err Internal m
      | other => other
      end
  | NoSize => Err InvalidArgument "invalid expression: "
  | Unquoted s => QuoteSubConstraint cs (e_start s) (e_end s)
  end.
