(** Model of p4_constraints/ast.proto and p4_constraints/ast.cc. *)
From Coq Require Import String Ascii List ZArith NArith Bool.
From Verif Require Import Base Num Token.
Import ListNotations.
Open Scope Z_scope.

(** ast.proto:102-162. Bitwidths are int32 fields, modelled as Z. *)
Inductive ty :=
| TUnknown
| TUnsupported (name : string)
| TBool
| TInt                       (* arbitrary_int *)
| TBit (w : Z)               (* fixed_unsigned *)
| TExact (w : Z)
| TTernary (w : Z)
| TLpm (w : Z)
| TRange (w : Z)
| TOptional (w : Z)
| TNotSet.                   (* TYPE_NOT_SET *)

(** ast.proto:87-100. *)
Inductive binop := UNKNOWN_OPERATOR | OEQ | ONE | OGT | OGE | OLT | OLE | OAND | OOR | OIMPLIES.

(** The fields start_location, end_location and type of ast.proto:22-29. *)
Record meta := mkMeta { m_start : loc; m_end : loc; m_type : ty }.
(** The fields of a default-constructed Expression, ast.proto:22-29. *)
Definition default_meta : meta := mkMeta default_loc default_loc TNotSet.

(** ast.proto:22-85: Expression with its oneof. *)
Inductive expr :=
| EBool (m : meta) (b : bool)
| EInt (m : meta) (s : string)
| EKey (m : meta) (name : string)
| EParam (m : meta) (name : string)
| ENot (m : meta) (e : expr)
| ENeg (m : meta) (e : expr)
| ECast (m : meta) (e : expr)
| EBin (m : meta) (op : binop) (l r : expr)
| EField (m : meta) (field : string) (e : expr)
| EAttr (m : meta) (name : string)
| ENotSet (m : meta).

(** Expression::start_location(), end_location(), type() together, ast.proto:22-29. *)
Definition emeta (e : expr) : meta :=
  match e with
  | EBool m _ | EInt m _ | EKey m _ | EParam m _ | ENot m _ | ENeg m _ | ECast m _
  | EBin m _ _ _ | EField m _ _ | EAttr m _ | ENotSet m => m
  end.
(** Expression::start_location(). *)
Definition e_start e := m_start (emeta e).
(** Expression::end_location(). *)
Definition e_end e := m_end (emeta e).
(** Expression::type(). *)
Definition e_type e := m_type (emeta e).

(** Accessor expr.key(): the empty string unless the oneof holds a key. *)
Definition e_key (e : expr) : string := match e with EKey _ n => n | _ => "" end.

(** *expr->mutable_type() = t, ast.proto:22-29. *)
Definition set_type (t : ty) (e : expr) : expr :=
  let s m := mkMeta (m_start m) (m_end m) t in
  match e with
  | EBool m b => EBool (s m) b
  | EInt m x => EInt (s m) x
  | EKey m n => EKey (s m) n
  | EParam m n => EParam (s m) n
  | ENot m a => ENot (s m) a
  | ENeg m a => ENeg (s m) a
  | ECast m a => ECast (s m) a
  | EBin m o a b => EBin (s m) o a b
  | EField m f a => EField (s m) f a
  | EAttr m n => EAttr (s m) n
  | ENotSet m => ENotSet (s m)
  end.

(** Equality of the oneof source, ast.proto:177-192, as compared by ast.cc:38-43. *)
Definition source_eqb (a b : source) : bool :=
  match a, b with
  | SrcNone, SrcNone => true
  | SrcFile x, SrcFile y => String.eqb x y
  | SrcTable x, SrcTable y => String.eqb x y
  | SrcAction x, SrcAction y => String.eqb x y
  | _, _ => false
  end.

(** gutils::ProtoEqual on SourceLocation (MessageDifferencer). *)
Definition loc_proto_equal (a b : loc) : bool :=
  Z.eqb (l_line a) (l_line b) && Z.eqb (l_col a) (l_col b) && source_eqb (l_src a) (l_src b).

(** source_case() == source_case(), ast.cc:196-206. *)
Definition same_case (a b : source) : bool :=
  match a, b with
  | SrcNone, SrcNone | SrcFile _, SrcFile _ | SrcTable _, SrcTable _ | SrcAction _, SrcAction _ => true
  | _, _ => false
  end.
(** SourceLocation::file_path(), empty if not set. *)
Definition file_path (s : source) : string := match s with SrcFile p => p | _ => "" end.
(** SourceLocation::table_name(), empty if not set. *)
Definition table_name (s : source) : string := match s with SrcTable p => p | _ => "" end.
(** SourceLocation::action_name(), empty if not set. *)
Definition action_name (s : source) : string := match s with SrcAction p => p | _ => "" end.

(** ast.cc:38-43, operator==(SourceLocation, SourceLocation). *)
Definition loc_eq (a b : loc) : bool :=
  Z.eqb (l_line a) (l_line b) && Z.eqb (l_col a) (l_col b) &&
  same_case (l_src a) (l_src b) &&
  String.eqb (file_path (l_src a)) (file_path (l_src b)) &&
  String.eqb (table_name (l_src a)) (table_name (l_src b)).

(** ast.cc:51-53, operator==(Type, Type). *)
Definition ty_eqb (a b : ty) : bool :=
  match a, b with
  | TUnknown, TUnknown | TBool, TBool | TInt, TInt | TNotSet, TNotSet => true
  | TUnsupported x, TUnsupported y => String.eqb x y
  | TBit x, TBit y | TExact x, TExact y | TTernary x, TTernary y | TLpm x, TLpm y
  | TRange x, TRange y | TOptional x, TOptional y => Z.eqb x y
  | _, _ => false
  end.

(** ast.cc:55-82. *)
Definition TypeName (t : ty) : string :=
  (match t with
   | TUnknown => "unknown"
   | TUnsupported n => n
   | TBool => "bool"
   | TInt => "int"
   | TBit w => "bit<" ++ dec w ++ ">"
   | TExact w => "exact<" ++ dec w ++ ">"
   | TTernary w => "ternary<" ++ dec w ++ ">"
   | TLpm w => "bit<" ++ dec w ++ ">"
   | TRange w => "range<" ++ dec w ++ ">"
   | TOptional w => "optional<" ++ dec w ++ ">"
   | TNotSet => "???"
   end)%string.

(** ast.cc:89-98. *)
Definition TypeHasOrdering (t : ty) : bool :=
  match t with TInt | TBit _ | TExact _ => true | _ => false end.

(** ast.cc:100-117. *)
Definition TypeBitwidth (t : ty) : option Z :=
  match t with
  | TBit w | TExact w | TTernary w | TLpm w | TRange w | TOptional w => Some w
  | _ => None
  end.

(** ast.cc:119-127. *)
Definition TypeBitwidthOrStatus (t : ty) : outcome Z :=
  match TypeBitwidth t with
  | Some w => Ok w
  | None => Err InvalidArgument
              ("expected a type with bitwidth, but got: " ++ TypeName t)%string
  end.

(** ast.cc:129-152: new type and the returned flag. *)
Definition SetTypeBitwidth (t : ty) (w : Z) : ty * bool :=
  match t with
  | TBit _ => (TBit w, true)
  | TExact _ => (TExact w, true)
  | TTernary _ => (TTernary w, true)
  | TLpm _ => (TLpm w, true)
  | TRange _ => (TRange w, true)
  | TOptional _ => (TOptional w, true)
  | _ => (t, false)
  end.

(** Type::TypeCase. *)
Inductive tycase := CUnknown | CUnsupported | CBool | CInt | CBit | CExact | CTernary
                  | CLpm | CRange | COptional | CNotSet.
(** Type::type_case(), ast.proto:102-162. *)
Definition type_case (t : ty) : tycase :=
  match t with
  | TUnknown => CUnknown | TUnsupported _ => CUnsupported | TBool => CBool | TInt => CInt
  | TBit _ => CBit | TExact _ => CExact | TTernary _ => CTernary | TLpm _ => CLpm
  | TRange _ => CRange | TOptional _ => COptional | TNotSet => CNotSet
  end.
(** operator== on Type::TypeCase. *)
Definition tycase_eqb (a b : tycase) : bool :=
  match a, b with
  | CUnknown, CUnknown | CUnsupported, CUnsupported | CBool, CBool | CInt, CInt
  | CBit, CBit | CExact, CExact | CTernary, CTernary | CLpm, CLpm | CRange, CRange
  | COptional, COptional | CNotSet, CNotSet => true
  | _, _ => false
  end.

(** ast.cc:154-192 (unset proto3 fields read as 0 / ""). *)
Definition TypeCaseToType (c : tycase) : ty :=
  match c with
  | CUnknown => TUnknown | CUnsupported => TUnsupported "" | CBool => TBool | CInt => TInt
  | CBit => TBit 0 | CExact => TExact 0 | CTernary => TTernary 0 | CLpm => TLpm 0
  | CRange => TRange 0 | COptional => TOptional 0 | CNotSet => TNotSet
  end.

(** ast.cc:196-206. *)
Definition HaveSameSource (a b : loc) : bool := source_eqb (l_src a) (l_src b).

(** ast.cc:209-250: AddVariables / GetVariables. The flat_hash_set is a
    duplicate-free list. *)
Definition mem_string (x : string) (l : list string) : bool := existsb (String.eqb x) l.
(** flat_hash_set::insert, as used at ast.cc:209-244. *)
Definition set_insert (x : string) (l : list string) : list string :=
  if mem_string x l then l else l ++ [x].
(** ast.cc:209-244, AddVariables. *)
Fixpoint AddVariables (e : expr) (s : list string) : list string :=
  match e with
  | EKey _ n => set_insert n s
  | EParam _ n => set_insert n s
  | ENot _ a => AddVariables a s
  | ENeg _ a => AddVariables a s
  | ECast _ a => AddVariables a s
  | EBin _ _ a b => AddVariables b (AddVariables a s)
  | EField _ _ a => AddVariables a s
  | EAttr _ _ | EInt _ _ | EBool _ _ | ENotSet _ => s
  end.
(** ast.cc:246-250, GetVariables. *)
Definition GetVariables (e : expr) : list string := AddVariables e [].

(** A pointer to a subexpression is modelled by its path from the root of the
    constraint; the children are numbered 0 and 1. The innermost step comes
    first, so [d :: p] is child [d] of the node at [p]. *)
Definition path := list bool.
(** Equality of the pointers that [path]s stand for. *)
Fixpoint path_eqb (a b : path) : bool :=
  match a, b with
  | [], [] => true
  | x :: a', y :: b' => Bool.eqb x y && path_eqb a' b'
  | _, _ => false
  end.

(** ast.h:82, SizeCache. *)
Definition size_cache := list (path * Z).
(** Insertion into a cache (flat_hash_map) keyed by expression pointers, ast.cc:254-294; a present key is kept. *)
Definition cache_insert {V} (p : path) (v : V) (c : list (path * V)) : list (path * V) :=
  match assoc_insert path_eqb p v c with Some c' => c' | None => c end.

(** ast.cc:254-294, Size. [None] for the cache models nullptr; the returned cache
    is the updated one. The DebugString in the message is not modelled. *)
Fixpoint Size (e : expr) (p : path) (c : option size_cache) : outcome Z * option size_cache :=
  let cached := match c with Some m => assoc_find path_eqb p m | None => None end in
  match cached with
  | Some n => (Ok n, c)
  | None =>
      let store (n : Z) (c : option size_cache) := option_map (cache_insert p n) c in
      match e with
      | EBool _ _ | EInt _ _ | EKey _ _ | ENeg _ _ | ECast _ _ | EField _ _ _ | EAttr _ _ => (Ok 1, c)
      | EBin _ _ a b =>
          match Size a (false :: p) c with
          | (Ok na, c1) =>
              match Size b (true :: p) c1 with
              | (Ok nb, c2) => (Ok (1 + na + nb), store (1 + na + nb) c2)
              | (Err k m, c2) => (Err k m, c2)
              | (Crash w, c2) => (Crash w, c2)
              end
          | (Err k m, c1) => (Err k m, c1)
          | (Crash w, c1) => (Crash w, c1)
          end
      | ENot _ a =>
          match Size a (false :: p) c with
          | (Ok na, c1) => (Ok (1 + na), store (1 + na) c1)
          | (Err k m, c1) => (Err k m, c1)
          | (Crash w, c1) => (Crash w, c1)
          end
      | EParam _ _ | ENotSet _ => (Err InvalidArgument "invalid expression: ", c)
      end
  end.
