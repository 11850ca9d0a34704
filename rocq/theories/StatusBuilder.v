(** Model of gutils/status_builder.{h,cc}, status_macros.h and ret_check.{h,cc}: how statuses are
    built, extended and propagated. *)
From Coq Require Import String Ascii List ZArith NArith Bool.
From Verif Require Import Base Num.
Import ListNotations.
Open Scope string_scope.

(** absl::StatusCode, as in the builders of gutils/status_builder.h:99-130. *)
Inductive status_code :=
| kOk | kCancelled | kUnknown | kInvalidArgument | kDeadlineExceeded | kNotFound | kAlreadyExists | kPermissionDenied | kResourceExhausted
| kFailedPrecondition | kAborted | kOutOfRange | kUnimplemented | kInternal | kUnavailable | kDataLoss | kUnauthenticated.
(** absl::Status: code, message, payloads (type URL and contents). *)
Record status := mkStatus { st_code : status_code; st_message : string; st_payloads : list (string * string) }.
(** absl::Status(code, msg): the message of an OK status is dropped. *)
Definition Status (c : status_code) (msg : string) : status :=
  match c with kOk => mkStatus kOk "" [] | _ => mkStatus c msg [] end.
(** absl::Status::ok(). *)
Definition st_ok (s : status) : bool := match st_code s with kOk => true | _ => false end.

(** std::stringstream as used for output: contents and put position. A stream constructed from a
    string has its put position at the beginning ([std::ios_base::ate] is not given). *)
Record stringstream := mkSS { ss_text : string; ss_pos : nat }.
(** A default-constructed std::stringstream. *)
Definition ss_empty : stringstream := mkSS "" 0.
(** std::stringstream(text), as in gutils/status_builder.cc:55-56. *)
Definition ss_of (text : string) : stringstream := mkSS text 0.
(** Inserting characters overwrites from the put position on. *)
Definition ss_put (ss : stringstream) (x : string) : stringstream :=
  mkSS (substring 0 (ss_pos ss) (ss_text ss) ++ x ++ substring (ss_pos ss + String.length x) (String.length (ss_text ss) - (ss_pos ss + String.length x)) (ss_text ss))
       (ss_pos ss + String.length x).

(** gutils/status_builder.h:27-82, class StatusBuilder. [loc_] is never read. *)
Record builder := mkSB { sb_status : status; sb_stream : stringstream }.
(** gutils/status_builder.cc:47-53, StatusBuilder(status). *)
Definition sb_of_status (s : status) : builder := mkSB s ss_empty.
(** gutils/status_builder.cc:58-59, StatusBuilder(code); and 104-166, the builders per code. *)
Definition sb_of_code (c : status_code) : builder := mkSB (Status c "") ss_empty.
(** gutils/status_builder.cc:55-56 and 61-66, copying. Moving (status_builder.h:46-47) keeps the stream as it is. *)
Definition sb_copy (b : builder) : builder := mkSB (sb_status b) (ss_of (ss_text (sb_stream b))).
(** gutils/status_builder.h:84-93, operator<<; [x] is the value's text. *)
Definition sb_put (b : builder) (x : string) : builder :=
  if st_ok (sb_status b) then b else mkSB (sb_status b) (ss_put (sb_stream b) x).
(** gutils/status_builder.cc:75-77, ok() and code(). *)
Definition sb_ok (b : builder) : bool := st_ok (sb_status b).
(** gutils/status_builder.cc:75-77, code(). *)
Definition sb_code (b : builder) : status_code := st_code (sb_status b).
(** gutils/status_builder.cc:29-41, Annotate. *)
Definition Annotate (s : status) (msg : string) : status :=
  if st_ok s || String.eqb msg "" then s
  else Status (st_code s) (if String.eqb (st_message s) "" then msg else st_message s ++ "; " ++ msg).
(** gutils/status_builder.cc:90-94, JoinMessageToStatus. *)
Definition JoinMessageToStatus (s : status) (msg : string) : status := if String.eqb msg "" then s else Annotate s msg.
(** gutils/status_builder.cc:81-88, CreateStatus: the status, and what is left of the builder. *)
Definition CreateStatus (b : builder) : status * builder :=
  (JoinMessageToStatus (sb_status b) (ss_text (sb_stream b)), mkSB (Status kUnknown "") ss_empty).
(** gutils/status_builder.cc:68-73, conversion of an lvalue (const&) and of an rvalue (&&). *)
Definition to_status_const (b : builder) : status := fst (CreateStatus (sb_copy b)).
(** gutils/status_builder.cc:68-73, conversion of an rvalue. *)
Definition to_status_move (b : builder) : status * builder := CreateStatus b.

(** gutils/status_macros.h:27-32 and 74-105, RETURN_IF_ERROR(expr) << texts: the status that is returned, if any. The
    argument is a status or an lvalue builder or an rvalue builder. *)
Inductive arg := AStatus (s : status) | ALvalue (b : builder) | ARvalue (b : builder).
(** gutils/status_macros.h:82-105, the constructors of StatusAdaptorForMacros. *)
Definition adaptor (a : arg) : builder := match a with AStatus s => sb_of_status s | ALvalue b => sb_copy b | ARvalue b => b end.
(** gutils/status_macros.h:27-32. *)
Definition RETURN_IF_ERROR (a : arg) (texts : list string) : option status :=
  if sb_ok (adaptor a) then None else Some (fst (to_status_move (fold_left sb_put texts (adaptor a)))).
(** gutils/status_macros.h:37-67, ASSIGN_OR_RETURN(lhs, rexpr, _ << texts), texts possibly none: the value or the returned status.
    [_ << text] is an lvalue, [std::move(_)] an rvalue; both give the same. *)
Definition ASSIGN_OR_RETURN {A} (rexpr : A + status) (texts : list string) : A + status :=
  match rexpr with
  | inl a => inl a
  | inr s => match texts with
             | [] => inr (fst (to_status_move (sb_of_status s)))
             | _ => inr (to_status_const (fold_left sb_put texts (sb_of_status s)))
             end
  end.
(** gutils/ret_check.cc:21-39 and ret_check.h:46-52, RET_CHECK(cond) << texts, in file [file] at line [line]. *)
Definition RetCheckFailSlowPath (file : string) (line : N) (condition : string) : builder :=
  fold_left sb_put ["RET_CHECK failure ("; file; ":"; dec_N line; ") "; condition] (sb_of_code kInternal).
(** gutils/ret_check.h:46-52, RET_CHECK. *)
Definition RET_CHECK (cond : bool) (file : string) (line : N) (condition : string) (texts : list string) : option status :=
  if cond then None else Some (fst (to_status_move (fold_left sb_put texts (RetCheckFailSlowPath file line condition)))).
(** absl::StatusCodeToString. *)
Definition StatusCodeToString (c : status_code) : string :=
  match c with
  | kOk => "OK" | kCancelled => "CANCELLED" | kUnknown => "UNKNOWN" | kInvalidArgument => "INVALID_ARGUMENT" | kDeadlineExceeded => "DEADLINE_EXCEEDED" | kNotFound => "NOT_FOUND"
  | kAlreadyExists => "ALREADY_EXISTS" | kPermissionDenied => "PERMISSION_DENIED" | kResourceExhausted => "RESOURCE_EXHAUSTED" | kFailedPrecondition => "FAILED_PRECONDITION" | kAborted => "ABORTED"
  | kOutOfRange => "OUT_OF_RANGE" | kUnimplemented => "UNIMPLEMENTED" | kInternal => "INTERNAL" | kUnavailable => "UNAVAILABLE" | kDataLoss => "DATA_LOSS" | kUnauthenticated => "UNAUTHENTICATED"
  end.
(** gutils/status.cc:10-13, StableStatusToString. *)
Definition StableStatusToString (s : status) : string := StatusCodeToString (st_code s) ++ ": " ++ st_message s ++ String (Ascii.ascii_of_N 10) "".
