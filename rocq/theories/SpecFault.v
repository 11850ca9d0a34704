(** Which part of an ill-typed constraint is to blame, independent of the type checker's code. *)
From Coq Require Import String List ZArith.
From Verif Require Import Base Token Ast Info SpecTyping.
Import ListNotations.
Open Scope string_scope.

(** Does every operator have a meaning? So it does in every constraint that was parsed. *)
Fixpoint operators_known (e : expr) : Prop :=
  match e with
  | ENot _ a | ENeg _ a | ECast _ a | EField _ _ a => operators_known a
  | EBin _ o a b => o <> UNKNOWN_OPERATOR /\ operators_known a /\ operators_known b
  | _ => True
  end.
(** [fault G e a b why]: reading [e] from left to right and operands before operators, the first
    violation of a typing rule is in the text from [a] to [b]; [why] describes it. *)
Inductive fault (G : scope) : expr -> loc -> loc -> string -> Prop :=
(* names *)
| ft_key_unknown keys m n : G = InTable keys -> (forall t, ~ declared keys n t) -> fault G (EKey m n) (m_start m) (m_end m) ("unknown key " ++ n)
| ft_key_unusable keys m n t : G = InTable keys -> declared keys n t -> ~ usable t ->
    fault G (EKey m n) (m_start m) (m_end m) ("key " ++ n ++ " has illegal type " ++ TypeName t)
| ft_key_in_action ps m n : G = InAction ps -> fault G (EKey m n) (m_start m) (m_end m) "unexpected key in action constraint"
| ft_param_unknown ps m n : G = InAction ps -> (forall t, ~ declared ps n t) -> fault G (EParam m n) (m_start m) (m_end m) ("unknown action parameter " ++ n)
| ft_param_unusable ps m n t : G = InAction ps -> declared ps n t -> ~ usable t ->
    fault G (EParam m n) (m_start m) (m_end m) ("action parameter " ++ n ++ " has illegal type " ++ TypeName t)
| ft_param_in_table keys m n : G = InTable keys -> fault G (EParam m n) (m_start m) (m_end m) "unexpected action parameter in table constraint"
| ft_attribute m n : n <> "priority" -> fault G (EAttr m n) (m_start m) (m_end m) ("unknown attribute '" ++ n ++ "'")
(* what the grammar does not produce *)
| ft_cast m e : fault G (ECast m e) (m_start m) (m_end m) "type casts should only be inserted by the type checker"
| ft_missing m : fault G (ENotSet m) (m_start m) (m_end m) "unexpected expression: "
(* inside of operands *)
| ft_not m e a b why : fault G e a b why -> fault G (ENot m e) a b why
| ft_neg m e a b why : fault G e a b why -> fault G (ENeg m e) a b why
| ft_field m f e a b why : fault G e a b why -> fault G (EField m f e) a b why
| ft_left m o l r a b why : fault G l a b why -> fault G (EBin m o l r) a b why
| ft_right m o l r t a b why : Typed G l t -> fault G r a b why -> fault G (EBin m o l r) a b why
(* operands that do not fit *)
| ft_not_bool m e t : Typed G e t -> t <> TBool -> fault G (ENot m e) (e_start e) (e_end e) ("expected type bool, got " ++ TypeName t)
| ft_neg_int m e t : Typed G e t -> t <> TInt -> fault G (ENeg m e) (e_start e) (e_end e) ("expected type int, got " ++ TypeName t)
| ft_no_field m f e t : Typed G e t -> (forall t', ~ has_field t f t') ->
    fault G (EField m f e) (m_start m) (m_end m) ("expression of type " ++ TypeName t ++ " has no field '" ++ f ++ "'")
| ft_left_bool m o l r t t' : connective o -> Typed G l t -> Typed G r t' -> t <> TBool ->
    fault G (EBin m o l r) (e_start l) (e_end l) ("expected type bool, got " ++ TypeName t)
| ft_right_bool m o l r t : connective o -> Typed G l TBool -> Typed G r t -> t <> TBool ->
    fault G (EBin m o l r) (e_start r) (e_end r) ("expected type bool, got " ++ TypeName t)
| ft_no_common m o l r t t' : equality o \/ ordering o -> Typed G l t -> Typed G r t' -> (forall c, ~ common t t' c) ->
    fault G (EBin m o l r) (e_start l) (e_end r) ("cannot unify types " ++ TypeName t ++ " and " ++ TypeName t')
| ft_no_order m o l r t t' c : ordering o -> Typed G l t -> Typed G r t' -> common t t' c -> ~ has_order c ->
    fault G (EBin m o l r) (m_start m) (m_end m) ("operand type " ++ TypeName c ++ " does not support ordered comparison").
