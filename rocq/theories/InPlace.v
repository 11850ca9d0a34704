(** Model of InferAndCheckTypes (type_checker.cc:231-425) as the update of its
    argument that it is: the status it returns, and the expression its caller is
    left with, also when it fails. *)
From Coq Require Import String List ZArith Bool.
From Verif Require Import Base Num Token Ast Quote Info TypeChecker.
Import ListNotations.
Open Scope string_scope.

(** RETURN_IF_ERROR around a recursive call: go on with the updated operand, or
    return the failure with the operand put back into its parent. *)
Definition stepped (r : outcome unit * expr) (k : expr -> outcome unit * expr) (parent : expr -> expr)
  : outcome unit * expr :=
  match fst r with
  | Ok _ => k (snd r)
  | Err c m => (Err c m, parent (snd r))
  | Crash w => (Crash w, parent (snd r))
  end.

(** type_checker.cc:174-186, Unify: the operands are only touched when the types unify. *)
Definition UnifyInPlace (left right : expr) (src : csource) : outcome ty * (expr * expr) :=
  match LeastUpperBound (e_type left) (e_type right) with
  | None => (StaticTypeError src (e_start left) (e_end right)
              ("cannot unify types " ++ TypeName (e_type left) ++ " and " ++ TypeName (e_type right)),
             (left, right))
  | Some t => (Ok t, (CastTransitivelyTo left t, CastTransitivelyTo right t))
  end.

(** type_checker.cc:231-425. An exception (modelled as [Crash]) leaves the argument
    as updated so far. *)
Fixpoint InferInPlace (ai : option action_info) (ti : option table_info) (e : expr)
  : outcome unit * expr :=
  match GetConstraintSource ai ti with
  | Err c m => (Err c m, e)
  | Crash w => (Crash w, e)
  | Ok src =>
  match ai, ti with
  | Some _, Some _ => (Err Internal "Both action_info and table_info are nullptr.", e)
  | None, None => (Err Internal "Both action_info and table_info are not nullptr.", e)
  | _, _ =>
    match e with
    | EBool _ _ => (Ok tt, set_type TBool e)
    | EInt _ _ => (Ok tt, set_type TInt e)
    | EKey _ key =>
        match ti with
        | None => (StaticTypeError src (e_start e) (e_end e) "unexpected key in action constraint", e)
        | Some t =>
            match assoc_find String.eqb key (ti_keys_by_name t) with
            | None => (StaticTypeError src (e_start e) (e_end e) ("unknown key " ++ key), e)
            | Some ki =>
                (* the type is assigned before it is examined: lines 268-275 *)
                (if illegal_type (k_type ki) then
                   StaticTypeError src (e_start e) (e_end e)
                     ("key " ++ key ++ " has illegal type " ++ TypeName (k_type ki))
                 else Ok tt, set_type (k_type ki) e)
            end
        end
    | EParam _ param =>
        match ai with
        | None => (StaticTypeError src (e_start e) (e_end e)
                    "unexpected action parameter in table constraint", e)
        | Some a =>
            match assoc_find String.eqb param (ai_params_by_name a) with
            | None => (StaticTypeError src (e_start e) (e_end e) ("unknown action parameter " ++ param), e)
            | Some pi =>
                (if illegal_type (k_type pi) then
                   StaticTypeError src (e_start e) (e_end e)
                     ("action parameter " ++ param ++ " has illegal type " ++ TypeName (k_type pi))
                 else Ok tt, set_type (k_type pi) e)
            end
        end
    | ENot m sub =>
        stepped (InferInPlace ai ti sub) (fun sub =>
          if is_bool_type (e_type sub) then (Ok tt, set_type TBool (ENot m sub))
          else (StaticTypeError src (e_start sub) (e_end sub)
                 ("expected type bool, got " ++ TypeName (e_type sub)), ENot m sub)) (ENot m)
    | ENeg m sub =>
        stepped (InferInPlace ai ti sub) (fun sub =>
          if is_int_type (e_type sub) then (Ok tt, set_type TInt (ENeg m sub))
          else (StaticTypeError src (e_start sub) (e_end sub)
                 ("expected type int, got " ++ TypeName (e_type sub)), ENeg m sub)) (ENeg m)
    | ECast _ _ =>
        (StaticTypeError src (e_start e) (e_end e)
          "type casts should only be inserted by the type checker", e)
    | EBin m op l r =>
        stepped (InferInPlace ai ti l) (fun l =>
        stepped (InferInPlace ai ti r) (fun r =>
          match op with
          | OAND | OOR | OIMPLIES =>
              if negb (is_bool_type (e_type l)) then
                (StaticTypeError src (e_start l) (e_end l)
                  ("expected type bool, got " ++ TypeName (e_type l)), EBin m op l r)
              else if negb (is_bool_type (e_type r)) then
                (StaticTypeError src (e_start r) (e_end r)
                  ("expected type bool, got " ++ TypeName (e_type r)), EBin m op l r)
              else (Ok tt, set_type TBool (EBin m op l r))
          | OGT | OGE | OLT | OLE | OEQ | ONE =>
              let '(t, (l', r')) := UnifyInPlace l r src in
              match t with
              | Ok t =>
                  if match op with OEQ | ONE => false | _ => negb (TypeHasOrdering t) end then
                    (StaticTypeError src (e_start e) (e_end e)
                      ("operand type " ++ TypeName t ++ " does not support ordered comparison"),
                     EBin m op l' r')
                  else (Ok tt, set_type TBool (EBin m op l' r'))
              | Err c w => (Err c w, EBin m op l' r')
              | Crash w => (Crash w, EBin m op l' r')
              end
          | UNKNOWN_OPERATOR => (Err Internal "unknown binary operator UNKNOWN_OPERATOR", EBin m op l r)
          end) (fun r => EBin m op l r)) (fun l => EBin m op l r)
    | EField m field sub =>
        stepped (InferInPlace ai ti sub) (fun sub =>
          match FieldTypeOfCompositeType (e_type sub) field with
          | None => (StaticTypeError src (e_start e) (e_end e)
                      ("expression of type " ++ TypeName (e_type sub) ++ " has no field '" ++ field ++ "'"),
                     EField m field sub)
          | Some t => (Ok tt, set_type t (EField m field sub))
          end) (EField m field)
    | EAttr _ name =>
        match GetAttributeInfo name with
        | None => (StaticTypeError src (e_start e) (e_end e) ("unknown attribute '" ++ name ++ "'"), e)
        | Some t =>
            (if illegal_type t then
               QuotedError Internal "Internal error: " src (e_start e) (e_end e)
                 ("attribute '" ++ name ++ "' has illegal type " ++ TypeName t)
             else Ok tt, set_type t e)
        end
    | ENotSet _ => (StaticTypeError src (e_start e) (e_end e) "unexpected expression: ", e)
    end
  end
  end.

(** type_checker.cc:427-434. *)
Definition InferTableInPlace (e : expr) (t : table_info) : outcome unit * expr := InferInPlace None (Some t) e.
(** type_checker.cc:431-434, the overload for actions. *)
Definition InferActionInPlace (e : expr) (a : action_info) : outcome unit * expr := InferInPlace (Some a) None e.
