(** What constraints demand of the packets an entry may match (C79), independent of the code. *)
From Coq Require Import String List ZArith NArith.
From Verif Require Import Base Token Ast Info Interpreter SpecGrammar SpecParser SpecTyping SpecSemantics SpecPackets.
Import ListNotations.
Open Scope Z_scope.

(** The trees are those of SpecParser.v: without locations, and parentheses do not matter. *)
Inductive order_of : kind -> (Z -> Z -> Prop) -> Prop :=
| oo_eq : order_of EQ Z.eq
| oo_ne : order_of NE (fun x y => x <> y)
| oo_lt : order_of LT Z.lt
| oo_le : order_of LE Z.le
| oo_gt : order_of GT Z.gt
| oo_ge : order_of GE Z.ge.
(** Numbers, also from network addresses, and negated ones. *)
Inductive literal : surface -> Z -> Prop :=
| li_num n : literal (SNum n) (Z.of_N n)
| li_neg s z : literal s z -> literal (SNeg s) (- z).
(** Ternary and optional keys have a mask. *)
Inductive masked (w : Z) : ty -> Prop := ms_ternary : masked w (TTernary w) | ms_optional : masked w (TOptional w).
Definition fits_width (w x : Z) : Prop := 0 <= x < 2 ^ w.
(** The entry with match fields [l] wants the field [k] of the packet, of width [w], to be such that [x] is fine.
    An entry without a match for [k] is content with every value. *)
Definition content (l : list field_match) (k : key_info) (w x : Z) : Prop := forall f, In f l -> fm_id f = k_id k -> met w (fm_value f) x.
(** [x] and [y] have the same [n] most significant bits of [w]. *)
Definition same_prefix (w n x y : Z) : Prop := forall i, w - n <= i < w -> Z.testbit x i = Z.testbit y i.

Section Entry.
  Variables (ks : list key_info) (l : list field_match) (priority : Z).
  (** The tree is the name of a key of the table. *)
  Definition names (s : surface) (k : key_info) : Prop := In k ks /\ exists id ids, s = SVar id ids /\ k_name k = String.concat "." (id :: ids).
  (** [Demands s P]: the constraint [s] demands [P] of the entry with match fields [l] and the given priority. *)
  Inductive Demands : surface -> Prop -> Prop :=
  (** k == c: the packet's field must be c, modulo 2^w, and nothing else. *)
  | de_equal s k w n z : names s k -> match_type w (k_type k) -> literal n z ->
      Demands (SBin EQ s n) (forall x, fits_width w x -> (content l k w x <-> x = z mod 2 ^ w))
  (** k == k': the two fields are matched alike. *)
  | de_alike s s' k k' w : names s k -> names s' k' -> match_type w (k_type k) -> k_type k' = k_type k ->
      Demands (SBin EQ s s') (forall x, fits_width w x -> (content l k w x <-> content l k' w x))
  (** k::mask == 0: the field does not matter. *)
  | de_ignored s k w : names s k -> masked w (k_type k) ->
      Demands (SBin EQ (SField s "mask") (SNum 0)) (forall x, fits_width w x -> content l k w x)
  (** k::mask == -1: only one value of the field is matched. *)
  | de_single s k w : names s k -> masked w (k_type k) ->
      Demands (SBin EQ (SField s "mask") (SNeg (SNum 1))) (exists v, fits_width w v /\ forall x, fits_width w x -> (content l k w x <-> x = v))
  (** k::prefix_length <= n: only the [n] most significant bits of the field matter. *)
  | de_prefix s k w n z : names s k -> k_type k = TLpm w -> literal n z -> 0 <= z ->
      Demands (SBin LE (SField s "prefix_length") n) (forall x y, fits_width w x -> fits_width w y -> same_prefix w z x y -> (content l k w x <-> content l k w y))
  (** k::low >= n: no smaller number is matched; k::high <= n: no larger number is matched. *)
  | de_low s k w n z : names s k -> k_type k = TRange w -> literal n z -> fits_width w z ->
      Demands (SBin GE (SField s "low") n) (forall x, fits_width w x -> content l k w x -> z <= x)
  | de_high s k w n z : names s k -> k_type k = TRange w -> literal n z -> fits_width w z ->
      Demands (SBin LE (SField s "high") n) (forall x, fits_width w x -> content l k w x -> x <= z)
  (** k::value < n and the like, for exact keys: the number that is matched is as demanded. *)
  | de_value s k w n z op R : names s k -> k_type k = TExact w -> literal n z -> fits_width w z -> order_of op R ->
      Demands (SBin op (SField s "value") n) (forall x, fits_width w x -> content l k w x -> R x z)
  (** ::priority < n and the like. *)
  | de_priority n z op R : literal n z -> order_of op R -> Demands (SBin op (SAttr "priority") n) (R priority z)
  (** Connectives. *)
  | de_bool b : Demands (SBool b) (b = true)
  | de_not s P : Demands s P -> Demands (SNot s) (~ P)
  | de_and s s' P P' : Demands s P -> Demands s' P' -> Demands (SBin AND s s') (P /\ P')
  | de_semi s s' P P' : Demands s P -> Demands s' P' -> Demands (SBin SEMICOLON s s') (P /\ P')
  | de_or s s' P P' : Demands s P -> Demands s' P' -> Demands (SBin OR s s') (P \/ P')
  | de_implies s s' P P' : Demands s P -> Demands s' P' -> Demands (SBin IMPLIES s s') (P -> P').
End Entry.
