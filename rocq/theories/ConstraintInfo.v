(** Model of p4_constraints/backend/constraint_info.cc. *)
From Coq Require Import String Ascii List ZArith NArith Bool.
From Verif Require Import Base Num Regex Token Ast Lexer Quote AstConstructors Parser Info TypeChecker.
Import ListNotations.
Open Scope string_scope.

(** constraint_info.cc:56-66, GetConstraintAnnotation. *)
Definition GetConstraintAnnotation (ck : constraint_kind) : re :=
  match ck with
  | kTableConstraint => RLit "@entry_restriction"
  | kActionConstraint => RLit "@action_restriction"
  end.

(** constraint_info.cc:68-81, SetConstraintLocationName (overwrites the oneof). *)
Definition SetConstraintLocationName (ck : constraint_kind) (name : string) : source :=
  match ck with
  | kTableConstraint => SrcTable name
  | kActionConstraint => SrcAction name
  end.

(** constraint_info.cc:106-107. *)
Definition file_annotation : re :=
  RSeq (RLit ("@file(" ++ dq)) (RSeq (RGroup "1" (RStar (RNeg (is_char DQUOTE)))) (RLit (dq ++ ")"))).
(** constraint_info.cc:107, line_annotation. *)
Definition line_annotation : re :=
  RSeq (RLit "@line(") (RSeq (RGroup "1" (RPlus (RClass is_digit))) (RLit ")")).

(** RE2::Consume with an int* argument: the capture must fit an int, otherwise
    Consume fails and has no effect. *)
Definition parse_int32 (s : string) : option Z :=
  match mpz_set_str s 10 with
  | Some z => if Z.leb z 2147483647 then Some z else None
  | None => None
  end.

(** constraint_info.cc:113-122, the loop over the annotations. The state is the
    constraint string, the file_path oneof and the line. Evaluating the argument
    mutable_file_path() makes file_path the active member of the oneof. *)
Fixpoint scan_annotations (ck : constraint_kind) (file : string) (line : Z) (l : list string)
    : string * string * Z :=
  match l with
  | [] => ("", file, line)
  | a :: l' =>
      match first_match file_annotation a with
      | Some h => scan_annotations ck (capture "1" h) line l'
      | None =>
          match match first_match line_annotation a with
                | Some h => parse_int32 (capture "1" h)
                | None => None
                end with
          | Some n => scan_annotations ck file n l'
          | None =>
              match first_match (GetConstraintAnnotation ck) a with
              | Some h => (c_str (h_rest h), file, line)
              | None => scan_annotations ck file line l'
              end
          end
      end
  end.

(** RE2::GlobalReplace(&s, "\" \"", "\n") (constraint_info.cc:159): leftmost,
    non-overlapping. *)
Fixpoint replace_quotes (s : string) : string :=
  match s with
  | EmptyString => EmptyString
  | String c1 s1 =>
      match s1 with
      | String c2 (String c3 s3) =>
          if (Ascii.eqb c1 DQUOTE && Ascii.eqb c2 " " && Ascii.eqb c3 DQUOTE)%bool
          then String LF (replace_quotes s3)
          else String c1 (replace_quotes s1)
      | _ => String c1 (replace_quotes s1)
      end
  end.

(** absl::StrContains(s, "c"). *)
Definition contains_char (c : ascii) (s : string) : bool := mem_char s c.

(** constraint_info.cc:136 and 165-166. *)
Definition kind_word (ck : constraint_kind) : string :=
  match ck with kTableConstraint => "table " | kActionConstraint => "action " end.
(** constraint_info.cc:138 and 169-170. *)
Definition restriction_word (ck : constraint_kind) : string :=
  match ck with kTableConstraint => "entry" | kActionConstraint => "action" end.

(** constraint_info.cc:83-182, ExtractConstraint. *)
Definition ExtractConstraint (ck : constraint_kind) (pre : preamble) : outcome (option csource) :=
  let '(text, file, line) := scan_annotations ck "" 0%Z (pr_annotations pre) in
  if String.eqb text "" then Ok None else
  let l := mkLoc line 0 (if String.eqb file "" then SetConstraintLocationName ck (pr_name pre)
                         else SrcFile file) in
  let stripped := match strip_prefix ("(" ++ dq) text with
                  | Some t => strip_suffix (dq ++ ")") t
                  | None => None
                  end in
  match stripped with
  | None => Err InvalidArgument
              ("In " ++ kind_word ck ++ pr_name pre ++ ":" ++ nl ++ "Syntax error: @" ++
               restriction_word ck ++ "_restriction must be enclosed in '(" ++ dq ++ "' and '" ++ dq ++ ")'")
  | Some t =>
      let t := replace_quotes t in
      if contains_char DQUOTE t then
        Err InvalidArgument
          ("In " ++ kind_word ck ++ pr_name pre ++ ":" ++ nl ++ "Syntax error: @" ++
           restriction_word ck ++ "_restriction was parsed with unexpected quotation marks (" ++ dq ++
           "). Ensure you aren't using any quotation marks in a comment. " ++
           "Otherwise, this suggests a parser assumption was violated, " ++
           "likely due to a p4c frontend change, or `@p4runtime_translation` support being added.")
      else Ok (Some (mkCSource t l))
  end.

(** p4info.proto enum names. *)
Definition MatchType_Name (t : p4_match_type) : string :=
  match t with
  | MTUnspecified => "UNSPECIFIED" | MTExact => "EXACT" | MTLpm => "LPM" | MTTernary => "TERNARY"
  | MTRange => "RANGE" | MTOptional => "OPTIONAL" | MTUnknownEnum _ => ""
  end.

(** constraint_info.cc:184-216, ParseKeyType. *)
Definition ParseKeyType (key : match_field) : outcome ty :=
  match mf_match key with
  | MMatchType MTExact => Ok (TExact (mf_bitwidth key))
  | MMatchType MTTernary => Ok (TTernary (mf_bitwidth key))
  | MMatchType MTLpm => Ok (TLpm (mf_bitwidth key))
  | MMatchType MTRange => Ok (TRange (mf_bitwidth key))
  | MMatchType MTOptional => Ok (TOptional (mf_bitwidth key))
  | MMatchType t => Err InvalidArgument ("match key of invalid MatchType: " ++ MatchType_Name t)
  | MOther s => Ok (TUnsupported s)
  | MNotSet => Err Internal "unknown MatchField.match case: 0"
  end.

(** constraint_info.cc:218-229, ParseParamType. *)
Definition ParseParamType (p : action_param) : outcome ty :=
  if negb (String.eqb (ap_type_name p) "") then Ok (TUnsupported (ap_type_name p))
  else Ok (TBit (ap_bitwidth p)).

(** constraint_info.cc:235-248 and 282-299: the two maps filled in one loop.
    DebugString of the offending declaration is not modelled. *)
Fixpoint insert_keys (what : string) (l : list (outcome key_info))
    (by_id : list (N * key_info)) (by_name : list (string * key_info))
    : outcome (list (N * key_info) * list (string * key_info)) :=
  match l with
  | [] => Ok (by_id, by_name)
  | o :: l' =>
      let* k := o in
      match assoc_insert N.eqb (k_id k) k by_id with
      | None => Err InvalidArgument what
      | Some by_id' =>
          match assoc_insert String.eqb (k_name k) k by_name with
          | None => Err InvalidArgument what
          | Some by_name' => insert_keys what l' by_id' by_name'
          end
      end
  end.

(** constraint_info.cc:236-237, the key of a match field. *)
Definition ParseMatchField (mf : match_field) : outcome key_info :=
  let* t := ParseKeyType mf in Ok (mkKey (mf_id mf) (mf_name mf) t).
(** constraint_info.cc:283-288, the parameter of an action. *)
Definition ParseParam (p : action_param) : outcome param_info :=
  let* t := ParseParamType p in Ok (mkKey (ap_id p) (ap_name p) t).

Section WithPton.
  Variable pton : inet_pton6.

  (** constraint_info.cc:231-276, ParseTableInfo. *)
  Definition ParseTableInfo (t : p4_table) : outcome table_info :=
    let pre := pt_preamble t in
    let* (by_id, by_name) :=
      insert_keys ("table " ++ pr_name pre ++ " has duplicate key: ")
        (map ParseMatchField (pt_match_fields t)) [] [] in
    let* cs := ExtractConstraint kTableConstraint pre in
    match cs with
    | None => Ok (mkTable (pr_id pre) (pr_name pre) None default_csource by_id by_name)
    | Some cs =>
        let* e := ParseConstraint pton kTableConstraint cs in
        let* e' := InferTable e (mkTable (pr_id pre) (pr_name pre) (Some e) cs by_id by_name) in
        Ok (mkTable (pr_id pre) (pr_name pre) (Some e') cs by_id by_name)
    end.

  (** constraint_info.cc:278-322, ParseActionInfo. *)
  Definition ParseActionInfo (a : p4_action_decl) : outcome action_info :=
    let pre := pad_preamble a in
    let* (by_id, by_name) :=
      insert_keys ("action " ++ pr_name pre ++ " has duplicate param: ")
        (map ParseParam (pad_params a)) [] [] in
    let* cs := ExtractConstraint kActionConstraint pre in
    match cs with
    | None => Ok (mkAction (pr_id pre) (pr_name pre) None default_csource by_id by_name)
    | Some cs =>
        let* e := ParseConstraint pton kActionConstraint cs in
        let* e' := InferAction e (mkAction (pr_id pre) (pr_name pre) (Some e) cs by_id by_name) in
        Ok (mkAction (pr_id pre) (pr_name pre) (Some e') cs by_id by_name)
    end.

  (** constraint_info.cc:362-371 and 373-382: one loop of P4ToConstraintInfo, for
      declarations of type D parsed to infos of type I. A crash inside the parser
      ends the program. *)
  Fixpoint collect {D I} (parse : D -> outcome I) (id : D -> N) (dup : string) (l : list D)
      (by_id : list (N * I)) (errors : list string) : outcome (list (N * I) * list string) :=
    match l with
    | [] => Ok (by_id, errors)
    | d :: l' =>
        match parse d with
        | Ok i =>
            match assoc_insert N.eqb (id d) i by_id with
            | Some by_id' => collect parse id dup l' by_id' errors
            | None => collect parse id dup l' by_id (errors ++ [dup])
            end
        | Err _ m => collect parse id dup l' by_id (errors ++ [m])
        | Crash w => Crash w
        end
    end.

  (** constraint_info.cc:354-398, P4ToConstraintInfo. *)
  Definition P4ToConstraintInfo (p : p4info) : outcome constraint_info :=
    let* (tables, errors) :=
      collect ParseTableInfo (fun t => pr_id (pt_preamble t)) "duplicate table: " (p4_tables p) [] [] in
    let* (actions, errors) :=
      collect ParseActionInfo (fun a => pr_id (pad_preamble a)) "duplicate action: " (p4_actions p) [] errors in
    match errors with
    | [] => Ok (mkInfo actions tables)
    | _ => Err InvalidArgument
             ("P4Info to constraint info translation failed with the following errors:" ++ nl ++ "- " ++
              join (nl ++ "- ") (map (fun m => m ++ nl) errors))
    end.
End WithPton.
