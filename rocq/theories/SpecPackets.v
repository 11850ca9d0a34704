(** Which packets an entry matches (C78), independent of the code. *)
From Coq Require Import String List ZArith NArith.
From Verif Require Import Base Token Ast Info Interpreter SpecTyping SpecSemantics.
Import ListNotations.
Open Scope Z_scope.

(** A packet gives every key a number of the key's width. *)
Definition packet (ks : list key_info) (pk : string -> Z) : Prop :=
  forall k w, In k ks -> width (k_type k) w -> 0 <= pk (k_name k) < 2 ^ w.
(** [met w f x]: the field value [x], of width [w], meets the match [f]. *)
Inductive met (w : Z) : field_match_value -> Z -> Prop :=
| met_exact s : met w (FMExact s) (unsigned s)
| met_ternary s m x : Z.land x (unsigned m) = Z.land (unsigned s) (unsigned m) -> met w (FMTernary s m) x
| met_lpm s p x : x / 2 ^ (w - p) = unsigned s / 2 ^ (w - p) -> met w (FMLpm s p) x
| met_range l h x : unsigned l <= x <= unsigned h -> met w (FMRange l h) x
| met_optional s : met w (FMOptional s) (unsigned s).
(** The packet meets every match of the entry. Keys that are not matched are ignored. *)
Definition matches_packet (ks : list key_info) (l : list field_match) (pk : string -> Z) : Prop :=
  forall f k w, In f l -> In k ks -> k_id k = fm_id f -> width (k_type k) w -> met w (fm_value f) (pk (k_name k)).
(** The well-formedness that the language specification assumes: values fit the width, masked-off bits are
    zero, prefixes are at most as long as the key, and ranges are not empty. *)
Inductive canonical_field (w : Z) : field_match_value -> Prop :=
| cf_exact s : unsigned s < 2 ^ w -> canonical_field w (FMExact s)
| cf_ternary s m : unsigned s < 2 ^ w -> unsigned m < 2 ^ w -> Z.land (unsigned s) (unsigned m) = unsigned s -> canonical_field w (FMTernary s m)
| cf_lpm s p : unsigned s < 2 ^ w -> 0 <= p <= w -> unsigned s mod 2 ^ (w - p) = 0 -> canonical_field w (FMLpm s p)
| cf_range l h : unsigned l <= unsigned h < 2 ^ w -> canonical_field w (FMRange l h)
| cf_optional s : unsigned s < 2 ^ w -> canonical_field w (FMOptional s).
Definition canonical_entry (ks : list key_info) (l : list field_match) : Prop :=
  consistent ks l /\ forall f k w, In f l -> In k ks -> k_id k = fm_id f -> width (k_type k) w -> canonical_field w (fm_value f).
