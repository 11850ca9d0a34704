(** When a debug build aborts, independent of the code. *)
From Coq Require Import String Ascii List ZArith NArith.
From Verif Require Import Base Token Ast AstConstructors Info SpecLexer SpecInfo.
Import ListNotations.
Open Scope string_scope.

(** The last lexeme of the text is a comment that is not closed, and yet it is not the
    end of the text: bytes follow that are no characters. *)
Definition trips (s : string) : Prop :=
  exists chunks t rest, Tiles s (chunks ++ [("/*" ++ t, Skip)]) rest /\ ~ occurs "*/" t /\ rest <> "".
(** Some declared key or parameter has the width -1. *)
Definition minus_one (p : p4info) : Prop :=
  (exists d f, In d (p4_tables p) /\ In f (pt_match_fields d) /\ mf_bitwidth f = (-1)%Z) \/
  (exists d f, In d (p4_actions p) /\ In f (pad_params d) /\ ap_bitwidth f = (-1)%Z).
(** A well-formed declaration's constraint trips. *)
Definition table_trips (d : p4_table) : Prop :=
  exists ks cs, Forall2 key_decl (pt_match_fields d) ks /\ NoDup (map k_id ks) /\ NoDup (map k_name ks) /\
    restricted kTableConstraint (pt_preamble d) cs /\ trips (cs_string cs).
Definition action_trips (d : p4_action_decl) : Prop :=
  exists ps cs, Forall2 param_decl (pad_params d) ps /\ NoDup (map k_id ps) /\ NoDup (map k_name ps) /\
    restricted kActionConstraint (pad_preamble d) cs /\ trips (cs_string cs).
Definition info_trips (p : p4info) : Prop :=
  (exists d, In d (p4_tables p) /\ table_trips d) \/ (exists d, In d (p4_actions p) /\ action_trips d).
