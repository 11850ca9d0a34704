(** The meaning of constraints and of P4Runtime entries, independent of the
    interpreter's code. Values are those of interpreter.h:50-83. *)
From Coq Require Import String Ascii List ZArith NArith Bool.
From Verif Require Import Base Token Ast Info Interpreter SpecLexer SpecGrammar SpecTyping.
Import ListNotations.
Open Scope string_scope.

(** * Constraints *)
(** What keys, parameters and the priority stand for. *)
Inductive env :=
| TableEnv (key : string -> option value) (priority : Z)
| ActionEnv (param : string -> option Z).

(** Implicit conversions: an integer becomes a number of [w] bits modulo 2^w; a
    number becomes the match for exactly that number. *)
Inductive Converts : ty -> ty -> value -> value -> Prop :=
| cv_same t v : Converts t t v v
| cv_int w z : (0 <= w)%Z -> Converts TInt (TBit w) (VInt z) (VInt (z mod 2 ^ w))
| cv_exact w z : Converts (TBit w) (TExact w) (VInt z) (VExact z)
| cv_ternary w z : (0 <= w)%Z -> Converts (TBit w) (TTernary w) (VInt z) (VTernary z (2 ^ w - 1))
| cv_optional w z : (0 <= w)%Z -> Converts (TBit w) (TOptional w) (VInt z) (VTernary z (2 ^ w - 1))
| cv_lpm w z : Converts (TBit w) (TLpm w) (VInt z) (VLpm z w)
| cv_range w z : Converts (TBit w) (TRange w) (VInt z) (VRange z z)
| cv_trans a b c u v w : Converts a b u v -> Converts b c v w -> Converts a c u w.

(** Truth tables of the connectives. *)
Definition truth (o : binop) (x y : bool) : bool :=
  match o with OAND => x && y | OOR => x || y | _ => negb x || y end.

(** Comparisons of values of the same type. *)
Inductive numeral : value -> Z -> Prop :=
| nu_int z : numeral (VInt z) z
| nu_exact z : numeral (VExact z) z.
Inductive Compares : binop -> value -> value -> Prop :=
| cp_eq v : Compares OEQ v v
| cp_ne u v : u <> v -> Compares ONE u v
| cp_lt u v x y : numeral u x -> numeral v y -> (x < y)%Z -> Compares OLT u v
| cp_le u v x y : numeral u x -> numeral v y -> (x <= y)%Z -> Compares OLE u v
| cp_gt u v x y : numeral u x -> numeral v y -> (x > y)%Z -> Compares OGT u v
| cp_ge u v x y : numeral u x -> numeral v y -> (x >= y)%Z -> Compares OGE u v.
(** Values an operator can compare. *)
Definition comparable (o : binop) (u v : value) : Prop :=
  equality o \/ ordering o /\ (exists x, numeral u x) /\ (exists y, numeral v y).

Inductive Field : string -> value -> Z -> Prop :=
| fd_exact z : Field "value" (VExact z) z
| fd_ternary_v z m : Field "value" (VTernary z m) z
| fd_ternary_m z m : Field "mask" (VTernary z m) m
| fd_lpm_v z p : Field "value" (VLpm z p) z
| fd_lpm_p z p : Field "prefix_length" (VLpm z p) p
| fd_range_l l h : Field "low" (VRange l h) l
| fd_range_h l h : Field "high" (VRange l h) h.

(** [Den G r e v]: the constraint [e] (as written: no casts) means [v]. *)
Inductive Den (G : scope) (r : env) : expr -> value -> Prop :=
| sem_bool m b : Den G r (EBool m b) (VBool b)
| sem_int m s n : Decimal s n -> Den G r (EInt m s) (VInt (Z.of_N n))
| sem_key key p m n v : r = TableEnv key p -> key n = Some v -> Den G r (EKey m n) v
| sem_param param m n z : r = ActionEnv param -> param n = Some z -> Den G r (EParam m n) (VInt z)
| sem_priority key p m : r = TableEnv key p -> Den G r (EAttr m "priority") (VInt p)
| sem_not m e b : Den G r e (VBool b) -> Den G r (ENot m e) (VBool (negb b))
| sem_neg m e z : Den G r e (VInt z) -> Den G r (ENeg m e) (VInt (- z))
| sem_left m o a b x y : connective o -> Den G r a (VBool x) -> (forall y', truth o x y' = y) ->
    Den G r (EBin m o a b) (VBool y)
| sem_both m o a b x y : connective o -> Den G r a (VBool x) -> Den G r b (VBool y) ->
    Den G r (EBin m o a b) (VBool (truth o x y))
| sem_compare m o a b ta tb t u v u' v' x : Typed G a ta -> Typed G b tb -> common ta tb t ->
    Den G r a u -> Den G r b v -> Converts ta t u u' -> Converts tb t v v' ->
    comparable o u' v' -> (x = true <-> Compares o u' v') -> Den G r (EBin m o a b) (VBool x)
| sem_field m f e v z : Den G r e v -> Field f v z -> Den G r (EField m f e) (VInt z).

(** Literals as the parser makes them. *)
Fixpoint literals (e : expr) : Prop :=
  match e with
  | EInt _ s => exists n, Decimal s n
  | ENot _ a | ENeg _ a | ECast _ a | EField _ _ a => literals a
  | EBin _ _ a b => literals a /\ literals b
  | _ => True
  end.
(** An ordered comparison of values of an exact type occurs. *)
Inductive orders_exact (G : scope) : expr -> Prop :=
| oe_here m o a b ta tb w : ordering o -> Typed G a ta -> Typed G b tb -> common ta tb (TExact w) ->
    orders_exact G (EBin m o a b)
| oe_not m e : orders_exact G e -> orders_exact G (ENot m e)
| oe_neg m e : orders_exact G e -> orders_exact G (ENeg m e)
| oe_left m o a b : orders_exact G a -> orders_exact G (EBin m o a b)
| oe_right m o a b : orders_exact G b -> orders_exact G (EBin m o a b)
| oe_field m f e : orders_exact G e -> orders_exact G (EField m f e).
(** An attribute occurs. *)
Inductive has_attribute : expr -> Prop :=
| ha_here m n : has_attribute (EAttr m n)
| ha_not m e : has_attribute e -> has_attribute (ENot m e)
| ha_neg m e : has_attribute e -> has_attribute (ENeg m e)
| ha_left m o a b : has_attribute a -> has_attribute (EBin m o a b)
| ha_right m o a b : has_attribute b -> has_attribute (EBin m o a b)
| ha_field m f e : has_attribute e -> has_attribute (EField m f e).

(** Values of a type. *)
Inductive of_type : ty -> value -> Prop :=
| ot_bool b : of_type TBool (VBool b)
| ot_int z : of_type TInt (VInt z)
| ot_bit w z : of_type (TBit w) (VInt z)
| ot_exact w z : of_type (TExact w) (VExact z)
| ot_ternary w z m : of_type (TTernary w) (VTernary z m)
| ot_optional w z m : of_type (TOptional w) (VTernary z m)
| ot_lpm w z p : of_type (TLpm w) (VLpm z p)
| ot_range w l h : of_type (TRange w) (VRange l h).
Inductive width : ty -> Z -> Prop :=
| wi_bit w : width (TBit w) w | wi_exact w : width (TExact w) w | wi_ternary w : width (TTernary w) w
| wi_optional w : width (TOptional w) w | wi_lpm w : width (TLpm w) w | wi_range w : width (TRange w) w.
(** Every usable name has a value of its type, and no width is negative. *)
Inductive env_ok : scope -> env -> Prop :=
| eo_table keys key p :
    (forall n t, declared keys n t -> usable t -> exists v, key n = Some v /\ of_type t v) ->
    (forall n t w, declared keys n t -> width t w -> (0 <= w)%Z) ->
    env_ok (InTable keys) (TableEnv key p)
| eo_action params param :
    (forall n t, declared params n t -> usable t -> exists z, param n = Some z /\ of_type t (VInt z)) ->
    (forall n t w, declared params n t -> width t w -> (0 <= w)%Z) ->
    env_ok (InAction params) (ActionEnv param).

(** * Entries *)
(** The unsigned big-endian number in a byte string. *)
Definition unsigned (s : string) : Z := Z.of_N (number 0 (map N_of_ascii (chars s))).

(** The keys of a table: both maps hold the same keys; ids and names are unique.
    The order of the maps does not matter. *)
Definition same_entries {A} (l m : list A) : Prop := forall x, In x l <-> In x m.
Record table_keys (t : table_info) (ks : list key_info) : Prop := {
  tk_ids : NoDup (map k_id ks);
  tk_names : NoDup (map k_name ks);
  tk_by_id : same_entries (ti_keys_by_id t) (map (fun k => (k_id k, k)) ks);
  tk_by_name : same_entries (ti_keys_by_name t) (map (fun k => (k_name k, k)) ks);
  tk_by_id_unique : NoDup (map fst (ti_keys_by_id t));
  tk_by_name_unique : NoDup (map fst (ti_keys_by_name t)) }.

(** [field_value t f v]: a match field [f] for a key of type [t] means [v]. *)
Inductive field_value : ty -> field_match_value -> value -> Prop :=
| fv_exact w s : field_value (TExact w) (FMExact s) (VExact (unsigned s))
| fv_ternary w s m : field_value (TTernary w) (FMTernary s m) (VTernary (unsigned s) (unsigned m))
| fv_lpm w s p : field_value (TLpm w) (FMLpm s p) (VLpm (unsigned s) p)
| fv_range w l h : field_value (TRange w) (FMRange l h) (VRange (unsigned l) (unsigned h))
| fv_optional w s : (0 <= w)%Z -> field_value (TOptional w) (FMOptional s) (VTernary (unsigned s) (2 ^ w - 1)).
(** The match of an omitted key. *)
Inductive wildcard : ty -> value -> Prop :=
| wc_ternary w : wildcard (TTernary w) (VTernary 0 0)
| wc_optional w : wildcard (TOptional w) (VTernary 0 0)
| wc_lpm w : wildcard (TLpm w) (VLpm 0 0)
| wc_range w : (0 <= w)%Z -> wildcard (TRange w) (VRange 0 (2 ^ w - 1)).
Definition omitted (k : key_info) (l : list field_match) : Prop := forall f, In f l -> fm_id f <> k_id k.
(** [Assigned ks l n v]: an entry with match fields [l] gives key [n] the value [v]. *)
Inductive Assigned (ks : list key_info) (l : list field_match) : string -> value -> Prop :=
| as_present k f v : In k ks -> In f l -> fm_id f = k_id k -> field_value (k_type k) (fm_value f) v ->
    Assigned ks l (k_name k) v
| as_omitted k v : In k ks -> omitted k l -> wildcard (k_type k) v -> Assigned ks l (k_name k) v.
(** Entries that fit the table. *)
Record consistent (ks : list key_info) (l : list field_match) : Prop := {
  co_known : forall f, In f l -> exists k v, In k ks /\ k_id k = fm_id f /\ field_value (k_type k) (fm_value f) v;
  co_once : NoDup (map fm_id l);
  co_omitted : forall k, In k ks -> omitted k l -> exists v, wildcard (k_type k) v }.

(** Faults of match fields. *)
(** A match field of a kind that P4Runtime defines for keys of the type. *)
Inductive fits : ty -> field_match_value -> Prop :=
| fi_exact w s : fits (TExact w) (FMExact s)
| fi_ternary w s m : fits (TTernary w) (FMTernary s m)
| fi_lpm w s p : fits (TLpm w) (FMLpm s p)
| fi_range w l h : fits (TRange w) (FMRange l h)
| fi_optional w s : fits (TOptional w) (FMOptional s).
(** A match field of one of the five kinds. *)
Definition supported (v : field_match_value) : Prop := match v with FMOther | FMNotSet => False | _ => True end.
(** [fine ks pre f]: the match field [f], which comes after [pre], is for a key of the right kind that was not matched before. *)
Definition fine (ks : list key_info) (pre : list field_match) (f : field_match) : Prop :=
  exists k, In k ks /\ k_id k = fm_id f /\ fits (k_type k) (fm_value f) /\ ~ In (fm_id f) (map fm_id pre).
(** [misfit ks f]: the match field [f] is of another kind than its key. *)
Definition misfit (ks : list key_info) (f : field_match) : Prop :=
  exists k, In k ks /\ k_id k = fm_id f /\ supported (fm_value f) /\ ~ fits (k_type k) (fm_value f).
Definition all_fine (ks : list key_info) (l : list field_match) : Prop := forall pre f post, l = (pre ++ f :: post)%list -> fine ks pre f.

(** The same for actions. *)
Record action_params (a : action_info) (ps : list key_info) : Prop := {
  ap_ids : NoDup (map k_id ps);
  ap_names : NoDup (map k_name ps);
  ap_by_id : same_entries (ai_params_by_id a) (map (fun k => (k_id k, k)) ps);
  ap_by_name : same_entries (ai_params_by_name a) (map (fun k => (k_name k, k)) ps);
  ap_by_id_unique : NoDup (map fst (ai_params_by_id a));
  ap_by_name_unique : NoDup (map fst (ai_params_by_name a)) }.
Definition Passed (ps : list key_info) (l : list (N * string)) (n : string) (z : Z) : Prop :=
  exists p s, In p ps /\ In (k_id p, s) l /\ n = k_name p /\ z = unsigned s.
(** Arguments are known and given once. (Missing ones are noticed only when used.) *)
Record acceptable (ps : list key_info) (l : list (N * string)) : Prop := {
  ac_known : forall id s, In (id, s) l -> exists p, In p ps /\ k_id p = id;
  ac_once : NoDup (map fst l) }.

(** * What a constraint mentions *)
Inductive mentions : expr -> string -> Prop :=
| me_key m n : mentions (EKey m n) n
| me_param m n : mentions (EParam m n) n
| me_not m e n : mentions e n -> mentions (ENot m e) n
| me_neg m e n : mentions e n -> mentions (ENeg m e) n
| me_cast m e n : mentions e n -> mentions (ECast m e) n
| me_left m o a b n : mentions a n -> mentions (EBin m o a b) n
| me_right m o a b n : mentions b n -> mentions (EBin m o a b) n
| me_field m f e n : mentions e n -> mentions (EField m f e) n.
Inductive uses_attribute : expr -> Prop :=
| ua_here m n : uses_attribute (EAttr m n)
| ua_not m e : uses_attribute e -> uses_attribute (ENot m e)
| ua_neg m e : uses_attribute e -> uses_attribute (ENeg m e)
| ua_cast m e : uses_attribute e -> uses_attribute (ECast m e)
| ua_left m o a b : uses_attribute a -> uses_attribute (EBin m o a b)
| ua_right m o a b : uses_attribute b -> uses_attribute (EBin m o a b)
| ua_field m f e : uses_attribute e -> uses_attribute (EField m f e).

(** * Explanations *)
(** Direct subexpressions; [false] is the left or only one. *)
Inductive Child : expr -> bool -> expr -> Prop :=
| ch_not m e : Child (ENot m e) false e
| ch_neg m e : Child (ENeg m e) false e
| ch_cast m e : Child (ECast m e) false e
| ch_field m f e : Child (EField m f e) false e
| ch_left m o a b : Child (EBin m o a b) false a
| ch_right m o a b : Child (EBin m o a b) true b.
(** [At e q s]: going from [e] along [q] one reaches [s]. *)
Inductive At : expr -> list bool -> expr -> Prop :=
| at_here e : At e [] e
| at_child e d e' q s : Child e d e' -> At e' q s -> At e (d :: q) s.
(** The size of an expression: nodes, where negations of numbers, casts and field
    accesses count as one. Action parameters have no size. *)
Inductive Nodes : expr -> Z -> Prop :=
| no_bool m b : Nodes (EBool m b) 1
| no_int m s : Nodes (EInt m s) 1
| no_key m n : Nodes (EKey m n) 1
| no_neg m e : Nodes (ENeg m e) 1
| no_cast m e : Nodes (ECast m e) 1
| no_field m f e : Nodes (EField m f e) 1
| no_attr m n : Nodes (EAttr m n) 1
| no_not m e k : Nodes e k -> Nodes (ENot m e) (1 + k)
| no_bin m o a b i j : Nodes a i -> Nodes b j -> Nodes (EBin m o a b) (1 + i + j).
Inductive comparison : binop -> Prop :=
| cm_eq o : equality o -> comparison o
| cm_ord o : ordering o -> comparison o.
(** [Blamable holds e q s]: from [e] one reaches [s] along [q] by descending into
    operands whose truth value alone decides, as long as there are any; [holds]
    gives truth values. *)
Inductive Blamable (holds : expr -> bool -> Prop) : expr -> list bool -> expr -> Prop :=
| bl_bool m b : Blamable holds (EBool m b) [] (EBool m b)
| bl_compare m o a b : comparison o -> Blamable holds (EBin m o a b) [] (EBin m o a b)
| bl_not m e q s : Blamable holds e q s -> Blamable holds (ENot m e) (false :: q) s
| bl_left m o a b x q s : connective o -> holds a x -> (forall y y', truth o x y = truth o x y') ->
    Blamable holds a q s -> Blamable holds (EBin m o a b) (false :: q) s
| bl_right m o a b y q s : connective o -> holds b y -> (forall x x', truth o x y = truth o x' y) ->
    Blamable holds b q s -> Blamable holds (EBin m o a b) (true :: q) s
| bl_none m o a b x y : connective o -> holds a x -> holds b y ->
    ~ (forall y y', truth o x y = truth o x y') -> ~ (forall x x', truth o x y = truth o x' y) ->
    Blamable holds (EBin m o a b) [] (EBin m o a b).
(** Left-to-right order of positions. *)
Inductive left_of : list bool -> list bool -> Prop :=
| lo_here p q : left_of (false :: p) (true :: q)
| lo_next d p q : left_of p q -> left_of (d :: p) (d :: q).

(** * Matches *)
(** [Matches v x]: a packet field with value [x] matches [v]; [w] is its width. *)
Inductive Matches (w : Z) : value -> Z -> Prop :=
| ma_exact x : Matches w (VExact x) x
| ma_ternary v m x : Z.land x m = Z.land v m -> Matches w (VTernary v m) x
| ma_lpm v p x : Z.shiftr x (w - p) = Z.shiftr v (w - p) -> Matches w (VLpm v p) x
| ma_range l h x : (l <= x <= h)%Z -> Matches w (VRange l h) x.
