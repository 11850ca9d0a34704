(** What a P4Info declares: keys, parameters and constraint annotations,
    independent of constraint_info.cc. *)
From Coq Require Import String Ascii List ZArith NArith.
From Verif Require Import Base Token Lexer Ast AstConstructors Parser Info TypeChecker SpecLexer SpecGrammar SpecTyping SpecSemantics.
Import ListNotations.
Open Scope string_scope.

(** * Declarations *)
(** The type of a declared match field. *)
Inductive key_type : match_field -> ty -> Prop :=
| kt_exact i n w : key_type (mkMF i n w (MMatchType MTExact)) (TExact w)
| kt_ternary i n w : key_type (mkMF i n w (MMatchType MTTernary)) (TTernary w)
| kt_lpm i n w : key_type (mkMF i n w (MMatchType MTLpm)) (TLpm w)
| kt_range i n w : key_type (mkMF i n w (MMatchType MTRange)) (TRange w)
| kt_optional i n w : key_type (mkMF i n w (MMatchType MTOptional)) (TOptional w)
| kt_other i n w s : key_type (mkMF i n w (MOther s)) (TUnsupported s).
Definition key_decl (f : match_field) (k : key_info) : Prop :=
  k_id k = mf_id f /\ k_name k = mf_name f /\ key_type f (k_type k).
(** The type of a declared parameter: a number unless it has a user-defined type. *)
Definition param_type (p : action_param) (t : ty) : Prop :=
  (ap_type_name p = "" /\ t = TBit (ap_bitwidth p)) \/ (ap_type_name p <> "" /\ t = TUnsupported (ap_type_name p)).
Definition param_decl (p : action_param) (k : key_info) : Prop :=
  k_id k = ap_id p /\ k_name k = ap_name p /\ param_type p (k_type k).

(** * Annotations *)
Definition without (c : ascii) (s : string) : Prop := ~ In c (chars s).
(** @file("f") and @line(n), each followed by anything. *)
Definition file_note (a f : string) : Prop :=
  exists rest, a = "@file(" ++ dq ++ f ++ dq ++ ")" ++ rest /\ runes (eq DQUOTE) f.
Definition line_note (a : string) (n : Z) : Prop :=
  exists ds k rest, a = "@line(" ++ ds ++ ")" ++ rest /\ Reads 10 ds k /\ n = Z.of_N k /\ (n <= 2147483647)%Z.
Definition keyword (ck : constraint_kind) : string :=
  match ck with kTableConstraint => "@entry_restriction" | kActionConstraint => "@action_restriction" end.
(** [Notes ck l file line r file' line']: reading the annotations [l] up to the first
    restriction; [r] is what follows its keyword; [file'] and [line'] are the last
    file and line before it, initially [file] and [line]. *)
Inductive Notes (ck : constraint_kind) : list string -> string -> Z -> option string -> string -> Z -> Prop :=
| nt_end f n : Notes ck [] f n None f n
| nt_file a l f f' n r f2 n2 : file_note a f' -> Notes ck l f' n r f2 n2 -> Notes ck (a :: l) f n r f2 n2
| nt_line a l f n n' r f2 n2 : line_note a n' -> Notes ck l f n' r f2 n2 -> Notes ck (a :: l) f n r f2 n2
| nt_here a l f n rest : a = keyword ck ++ rest -> Notes ck (a :: l) f n (Some rest) f n
| nt_other a l f n r f2 n2 : (forall f', ~ file_note a f') -> (forall n', ~ line_note a n') -> (forall rest, a <> keyword ck ++ rest) ->
    Notes ck l f n r f2 n2 -> Notes ck (a :: l) f n r f2 n2.
(** [c_part s t]: [t] is [s] up to its first NUL character. *)
Definition c_part (s t : string) : Prop := without NUL t /\ (s = t \/ exists r, s = t ++ String NUL r).
(** ("s1" "s2" ... "sn") *)
Definition parts_text (ss : list string) : string := "(" ++ dq ++ String.concat (dq ++ " " ++ dq) ss ++ dq ++ ")".
(** The declaration has no constraint. *)
Definition unrestricted (ck : constraint_kind) (pre : preamble) : Prop :=
  exists f n, Notes ck (pr_annotations pre) "" 0 None f n \/ exists r, Notes ck (pr_annotations pre) "" 0 (Some r) f n /\ c_part r "".
(** The declaration has the constraint [cs]. *)
Definition restricted (ck : constraint_kind) (pre : preamble) (cs : csource) : Prop :=
  exists r f n ss, Notes ck (pr_annotations pre) "" 0 (Some r) f n /\ c_part r (parts_text ss) /\
    ss <> [] /\ Forall (without DQUOTE) ss /\
    cs = mkCSource (String.concat nl ss) (mkLoc n 0 (if String.eqb f "" then match ck with kTableConstraint => SrcTable (pr_name pre) | kActionConstraint => SrcAction (pr_name pre) end else SrcFile f)).

(** * Infos *)
(** [t] is the info of the declaration [d]. *)
Record table_of (pton : inet_pton6) (d : p4_table) (ks : list key_info) (t : table_info) : Prop := {
  to_id : ti_id t = pr_id (pt_preamble d);
  to_name : ti_name t = pr_name (pt_preamble d);
  to_decls : Forall2 key_decl (pt_match_fields d) ks;
  to_keys : table_keys t ks;
  to_constraint :
    (unrestricted kTableConstraint (pt_preamble d) /\ ti_constraint t = None) \/
    (exists e0 e, restricted kTableConstraint (pt_preamble d) (ti_source t) /\
       ParseConstraint pton kTableConstraint (ti_source t) = Ok e0 /\ InferTable e0 t = Ok e /\ ti_constraint t = Some e) }.
Record action_of (pton : inet_pton6) (d : p4_action_decl) (ps : list key_info) (a : action_info) : Prop := {
  ao_id : ai_id a = pr_id (pad_preamble d);
  ao_name : ai_name a = pr_name (pad_preamble d);
  ao_decls : Forall2 param_decl (pad_params d) ps;
  ao_params : action_params a ps;
  ao_constraint :
    (unrestricted kActionConstraint (pad_preamble d) /\ ai_constraint a = None) \/
    (exists e0 e, restricted kActionConstraint (pad_preamble d) (ai_source a) /\
       ParseConstraint pton kActionConstraint (ai_source a) = Ok e0 /\ InferAction e0 a = Ok e /\ ai_constraint a = Some e) }.
(** What a declared constraint reads as. *)
Definition reads_as (pton : inet_pton6) (ck : constraint_kind) (cs : csource) (e : expr) : Prop :=
  exists w t, Tokenize cs = (w ++ [t])%list /\ t_kind t = END_OF_INPUT /\ D pton ck 0 w e.
Definition key_scope (ks : list key_info) : scope := InTable (map (fun k => (k_name k, k)) ks).
Definition param_scope (ps : list key_info) : scope := InAction (map (fun k => (k_name k, k)) ps).
