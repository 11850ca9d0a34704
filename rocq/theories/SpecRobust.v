(** Changes to declarations, entries and names that must not change verdicts. *)
From Coq Require Import String Ascii List ZArith NArith Bool Permutation.
From Verif Require Import Base Token Lexer Ast AstConstructors Info SpecLexer SpecGrammar SpecTyping SpecSemantics SpecInfo.
Import ListNotations.
Open Scope string_scope.

(** * Encodings of entries *)
(** [s'] is [s] with zero bytes put in front. *)
Definition padded (s s' : string) : Prop := exists n, s' = repeat_char n NUL ++ s.
Inductive padded_field : field_match_value -> field_match_value -> Prop :=
| pf_exact s s' : padded s s' -> padded_field (FMExact s) (FMExact s')
| pf_ternary s s' m m' : padded s s' -> padded m m' -> padded_field (FMTernary s m) (FMTernary s' m')
| pf_lpm s s' p : padded s s' -> padded_field (FMLpm s p) (FMLpm s' p)
| pf_range l l' h h' : padded l l' -> padded h h' -> padded_field (FMRange l h) (FMRange l' h')
| pf_optional s s' : padded s s' -> padded_field (FMOptional s) (FMOptional s').
(** A match field that matches everything. *)
Inductive matches_all : ty -> field_match_value -> Prop :=
| ma_ternary w i j : matches_all (TTernary w) (FMTernary (repeat_char i NUL) (repeat_char j NUL))
| ma_lpm w i : matches_all (TLpm w) (FMLpm (repeat_char i NUL) 0)
| ma_range w i h : (0 <= w)%Z -> unsigned h = (2 ^ w - 1)%Z -> matches_all (TRange w) (FMRange (repeat_char i NUL) h).
(** Two lists of match fields for the same packets. *)
Inductive same_match (ks : list key_info) : list field_match -> list field_match -> Prop :=
| sm_order l l' : Permutation l l' -> same_match ks l l'
| sm_padding l l' : Forall2 (fun f f' => fm_id f = fm_id f' /\ (fm_value f = fm_value f' \/ padded_field (fm_value f) (fm_value f'))) l l' -> same_match ks l l'
| sm_all k l f : In k ks -> omitted k l -> matches_all (k_type k) f -> same_match ks l (mkFM (k_id k) f :: l)
| sm_sym l l' : same_match ks l l' -> same_match ks l' l
| sm_trans l l' l'' : same_match ks l l' -> same_match ks l' l'' -> same_match ks l l''.
(** The same for the arguments of an action. *)
Inductive same_action : p4_action -> p4_action -> Prop :=
| sa_order id l l' : Permutation l l' -> same_action (mkP4Action id l) (mkP4Action id l')
| sa_padding id l l' : Forall2 (fun x x' => fst x = fst x' /\ padded (snd x) (snd x')) l l' -> same_action (mkP4Action id l) (mkP4Action id l')
| sa_sym a a' : same_action a a' -> same_action a' a
| sa_trans a a' a'' : same_action a a' -> same_action a' a'' -> same_action a a''.
(** The same for an entry's action. *)
Inductive same_table_action : option table_action -> option table_action -> Prop :=
| st_none : same_table_action None None
| st_action a a' : same_action a a' -> same_table_action (Some (TAction a)) (Some (TAction a'))
| st_set l l' : Forall2 same_action l l' -> same_table_action (Some (TActionSet l)) (Some (TActionSet l'))
| st_other a : same_table_action a a.

(** * Names and notation *)
(** The same constraint with other names for keys and parameters, at other places of the source. *)
Inductive Renamed (R : string -> string -> Prop) : expr -> expr -> Prop :=
| rn_bool m m' b : Renamed R (EBool m b) (EBool m' b)
| rn_int m m' s : Renamed R (EInt m s) (EInt m' s)
| rn_key m m' n n' : R n n' -> Renamed R (EKey m n) (EKey m' n')
| rn_param m m' n n' : R n n' -> Renamed R (EParam m n) (EParam m' n')
| rn_attr m m' n : Renamed R (EAttr m n) (EAttr m' n)
| rn_not m m' e e' : Renamed R e e' -> Renamed R (ENot m e) (ENot m' e')
| rn_neg m m' e e' : Renamed R e e' -> Renamed R (ENeg m e) (ENeg m' e')
| rn_bin m m' o a b a' b' : Renamed R a a' -> Renamed R b b' -> Renamed R (EBin m o a b) (EBin m' o a' b')
| rn_field m m' f e e' : Renamed R e e' -> Renamed R (EField m f e) (EField m' f e').
Inductive renamed_restriction (pton : inet_pton6) (ck : constraint_kind) (R : string -> string -> Prop) (pre pre' : preamble) : Prop :=
| rr_none : unrestricted ck pre -> unrestricted ck pre' -> renamed_restriction pton ck R pre pre'
| rr_some cs cs' e e' : restricted ck pre cs -> restricted ck pre' cs' -> reads_as pton ck cs e -> reads_as pton ck cs' e' -> Renamed R e e' -> renamed_restriction pton ck R pre pre'.
(** The same table with other names for its keys (and for itself). *)
Definition renamed_table (pton : inet_pton6) (d d' : p4_table) : Prop :=
  pr_id (pt_preamble d) = pr_id (pt_preamble d') /\
  Forall2 (fun f f' => mf_id f = mf_id f' /\ mf_bitwidth f = mf_bitwidth f' /\ mf_match f = mf_match f') (pt_match_fields d) (pt_match_fields d') /\
  renamed_restriction pton kTableConstraint (fun n n' => exists f f', In (f, f') (combine (pt_match_fields d) (pt_match_fields d')) /\ mf_name f = n /\ mf_name f' = n') (pt_preamble d) (pt_preamble d').
Definition renamed_action (pton : inet_pton6) (d d' : p4_action_decl) : Prop :=
  pr_id (pad_preamble d) = pr_id (pad_preamble d') /\
  Forall2 (fun f f' => ap_id f = ap_id f' /\ ap_bitwidth f = ap_bitwidth f' /\ ap_type_name f = ap_type_name f') (pad_params d) (pad_params d') /\
  renamed_restriction pton kActionConstraint (fun n n' => exists f f', In (f, f') (combine (pad_params d) (pad_params d')) /\ ap_name f = n /\ ap_name f' = n') (pad_preamble d) (pad_preamble d').
Definition renamed (pton : inet_pton6) (p p' : p4info) : Prop :=
  Forall2 (renamed_table pton) (p4_tables p) (p4_tables p') /\ Forall2 (renamed_action pton) (p4_actions p) (p4_actions p').
(** Tokens that are the same except that numerals may be in another base, or have leading zeros. *)
Definition same_token (t t' : token) : Prop :=
  (t_kind t = t_kind t' /\ t_text t = t_text t') \/
  exists b b' n, base (t_kind t) b /\ base (t_kind t') b' /\ Reads b (t_text t) n /\ Reads b' (t_text t') n.
(** The same declaration with a constraint that reads as the same tree, wherever its parts are in the source. *)
Definition restated_table (pton : inet_pton6) (d d' : p4_table) : Prop :=
  pr_id (pt_preamble d) = pr_id (pt_preamble d') /\ pt_match_fields d = pt_match_fields d' /\ renamed_restriction pton kTableConstraint eq (pt_preamble d) (pt_preamble d').
Definition restated_action (pton : inet_pton6) (d d' : p4_action_decl) : Prop :=
  pr_id (pad_preamble d) = pr_id (pad_preamble d') /\ pad_params d = pad_params d' /\ renamed_restriction pton kActionConstraint eq (pad_preamble d) (pad_preamble d').
Definition restated (pton : inet_pton6) (p p' : p4info) : Prop :=
  Forall2 (restated_table pton) (p4_tables p) (p4_tables p') /\ Forall2 (restated_action pton) (p4_actions p) (p4_actions p').
