(** Model of p4_constraints/backend/type_checker.cc. *)
From Coq Require Import String Ascii List ZArith NArith Bool.
From Verif Require Import Base Num Token Ast Quote Info.
Import ListNotations.
Open Scope string_scope.

(** type_checker.cc:49-60 and 62-73: StaticTypeError / InternalError followed by
    [<< text]. *)
Definition QuotedError {A} (c : code) (label : string) (src : csource) (s e : loc) (text : string) : outcome A :=
  match QuoteSubConstraint src s e with
  | Ok quote => Err c (quote ++ label ++ text)
  | Err k m => Err Internal ("Failed to quote sub-constraint: " ++ StableStatusToString k m ++ text)
  | Crash w => Crash w
  end.
(** type_checker.cc:49-60, StaticTypeError, with the text streamed into it. *)
Definition StaticTypeError {A} (src : csource) (s e : loc) (text : string) : outcome A :=
  QuotedError InvalidArgument "Type error: " src s e text.

(** type_checker.cc:90-110. *)
Definition StrictlyAbove (left right : ty) : bool :=
  match left with
  | TExact w | TTernary w | TLpm w | TRange w | TOptional w =>
      match right with
      | TBit w' => Z.eqb w w'
      | TInt => true
      | _ => false
      end
  | TBit _ => match right with TInt => true | _ => false end
  | _ => false
  end.

(** type_checker.cc:118-126. *)
Definition LeastUpperBound (left right : ty) : option ty :=
  if ty_eqb left right then Some left
  else if StrictlyAbove left right then Some left
  else if StrictlyAbove right left then Some right
  else None.

(** type_checker.cc:129-137. *)
Definition WrapWithCast (e : expr) (t : ty) : expr :=
  ECast (mkMeta (e_start e) (e_end e) t) e.

(** type_checker.cc:141-160; the DCHECKs at 147 and 158 are proved (TypeFacts). *)
Definition CastTransitivelyTo (e : expr) (target : ty) : expr :=
  let e1 :=
    if StrictlyAbove target (e_type e) && tycase_eqb (type_case (e_type e)) CInt then
      WrapWithCast e (TBit (match TypeBitwidth target with Some w => w | None => (-1)%Z end))
    else e in
  if StrictlyAbove target (e_type e1) && tycase_eqb (type_case (e_type e1)) CBit then
    WrapWithCast e1 target
  else e1.

(** type_checker.cc:174-186, Unify: the resulting type and both operands. *)
Definition Unify (left right : expr) (src : csource) : outcome (ty * expr * expr) :=
  match LeastUpperBound (e_type left) (e_type right) with
  | None => StaticTypeError src (e_start left) (e_end right)
              ("cannot unify types " ++ TypeName (e_type left) ++ " and " ++ TypeName (e_type right))
  | Some t => Ok (t, CastTransitivelyTo left t, CastTransitivelyTo right t)
  end.

(** type_checker.cc:193-204, kFieldTypes. *)
Definition kFieldTypes : list ((tycase * string) * tycase) :=
  [ ((CExact, "value"), CBit);
    ((CTernary, "value"), CBit); ((CTernary, "mask"), CBit);
    ((CLpm, "value"), CBit); ((CLpm, "prefix_length"), CInt);
    ((CRange, "low"), CBit); ((CRange, "high"), CBit);
    ((COptional, "value"), CBit); ((COptional, "mask"), CBit) ].

(** type_checker.cc:206-219. *)
Definition FieldTypeOfCompositeType (t : ty) (field : string) : option ty :=
  match assoc_find (fun a b => tycase_eqb (fst a) (fst b) && String.eqb (snd a) (snd b))
          (type_case t, field) kFieldTypes with
  | None => None
  | Some c =>
      let w := match TypeBitwidth t with Some w => w | None => (-1)%Z end in
      Some (fst (SetTypeBitwidth (TypeCaseToType c) w))
  end.

(** type_checker.cc:225-229. *)
Definition GetConstraintSource (ai : option action_info) (ti : option table_info) : outcome csource :=
  match ai, ti with
  | Some a, _ => Ok (ai_source a)
  | None, Some t => Ok (ti_source t)
  | None, None => Crash NullDeref
  end.

(** Helper of Infer below: the types of keys and parameters that are refused, type_checker.cc:231-425. *)
Definition illegal_type (t : ty) : bool :=
  match t with TUnknown | TUnsupported _ => true | _ => false end.
(** Type::has_boolean(). *)
Definition is_bool_type (t : ty) : bool := match t with TBool => true | _ => false end.
(** Type::has_arbitrary_int(). *)
Definition is_int_type (t : ty) : bool := match t with TInt => true | _ => false end.

(** type_checker.cc:231-425, InferAndCheckTypes: the annotated expression. (On
    failure the C++ leaves the argument partially annotated; callers in /repo
    discard it, so no expression is returned here. The update of the argument itself
    is modelled in InPlace.v and proved to agree with this function.) *)
Fixpoint Infer (ai : option action_info) (ti : option table_info) (e : expr) : outcome expr :=
  let* src := GetConstraintSource ai ti in
  match ai, ti with
  | Some _, Some _ => Err Internal "Both action_info and table_info are nullptr."
  | None, None => Err Internal "Both action_info and table_info are not nullptr."
  | _, _ =>
    match e with
    | EBool _ _ => Ok (set_type TBool e)
    | EInt _ _ => Ok (set_type TInt e)
    | EKey _ key =>
        match ti with
        | None => StaticTypeError src (e_start e) (e_end e) "unexpected key in action constraint"
        | Some t =>
            match assoc_find String.eqb key (ti_keys_by_name t) with
            | None => StaticTypeError src (e_start e) (e_end e) ("unknown key " ++ key)
            | Some ki =>
                if illegal_type (k_type ki) then
                  StaticTypeError src (e_start e) (e_end e)
                    ("key " ++ key ++ " has illegal type " ++ TypeName (k_type ki))
                else Ok (set_type (k_type ki) e)
            end
        end
    | EParam _ param =>
        match ai with
        | None => StaticTypeError src (e_start e) (e_end e)
                    "unexpected action parameter in table constraint"
        | Some a =>
            match assoc_find String.eqb param (ai_params_by_name a) with
            | None => StaticTypeError src (e_start e) (e_end e) ("unknown action parameter " ++ param)
            | Some pi =>
                if illegal_type (k_type pi) then
                  StaticTypeError src (e_start e) (e_end e)
                    ("action parameter " ++ param ++ " has illegal type " ++ TypeName (k_type pi))
                else Ok (set_type (k_type pi) e)
            end
        end
    | ENot m sub =>
        let* sub := Infer ai ti sub in
        if is_bool_type (e_type sub) then Ok (set_type TBool (ENot m sub))
        else StaticTypeError src (e_start sub) (e_end sub)
               ("expected type bool, got " ++ TypeName (e_type sub))
    | ENeg m sub =>
        let* sub := Infer ai ti sub in
        if is_int_type (e_type sub) then Ok (set_type TInt (ENeg m sub))
        else StaticTypeError src (e_start sub) (e_end sub)
               ("expected type int, got " ++ TypeName (e_type sub))
    | ECast _ _ =>
        StaticTypeError src (e_start e) (e_end e)
          "type casts should only be inserted by the type checker"
    | EBin m op l r =>
        let* l := Infer ai ti l in
        let* r := Infer ai ti r in
        match op with
        | OAND | OOR | OIMPLIES =>
            if negb (is_bool_type (e_type l)) then
              StaticTypeError src (e_start l) (e_end l)
                ("expected type bool, got " ++ TypeName (e_type l))
            else if negb (is_bool_type (e_type r)) then
              StaticTypeError src (e_start r) (e_end r)
                ("expected type bool, got " ++ TypeName (e_type r))
            else Ok (set_type TBool (EBin m op l r))
        | OGT | OGE | OLT | OLE | OEQ | ONE =>
            let* (t, l', r') := Unify l r src in
            if match op with OEQ | ONE => false | _ => negb (TypeHasOrdering t) end then
              StaticTypeError src (e_start e) (e_end e)
                ("operand type " ++ TypeName t ++ " does not support ordered comparison")
            else Ok (set_type TBool (EBin m op l' r'))
        | UNKNOWN_OPERATOR => Err Internal "unknown binary operator UNKNOWN_OPERATOR"
        end
    | EField m field sub =>
        let* sub := Infer ai ti sub in
        match FieldTypeOfCompositeType (e_type sub) field with
        | None => StaticTypeError src (e_start e) (e_end e)
                    ("expression of type " ++ TypeName (e_type sub) ++ " has no field '" ++ field ++ "'")
        | Some t => Ok (set_type t (EField m field sub))
        end
    | EAttr _ name =>
        match GetAttributeInfo name with
        | None => StaticTypeError src (e_start e) (e_end e) ("unknown attribute '" ++ name ++ "'")
        | Some t =>
            if illegal_type t then
              QuotedError Internal "Internal error: " src (e_start e) (e_end e)
                ("attribute '" ++ name ++ "' has illegal type " ++ TypeName t)
            else Ok (set_type t e)
        end
    | ENotSet _ => StaticTypeError src (e_start e) (e_end e) "unexpected expression: "
    end
  end.

(** type_checker.cc:427-434, the public overloads. *)
Definition InferTable (e : expr) (t : table_info) : outcome expr := Infer None (Some t) e.
(** type_checker.cc:431-434, the overload for actions. *)
Definition InferAction (e : expr) (a : action_info) : outcome expr := Infer (Some a) None e.
