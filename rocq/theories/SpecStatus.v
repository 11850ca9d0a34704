(** What building a status means (C74). *)
From Coq Require Import String Ascii List.
From Verif Require Import Base StatusBuilder.
Import ListNotations.
Open Scope string_scope.

(** [Extended s x r]: [r] is [s] with the text [x] added to its message. OK statuses have none. *)
Inductive Extended (s : status) : string -> status -> Prop :=
| ex_ok x : st_code s = kOk -> Extended s x s
| ex_nothing : Extended s "" s
| ex_first x : st_code s <> kOk -> x <> "" -> st_message s = "" -> Extended s x (mkStatus (st_code s) x [])
| ex_more x : st_code s <> kOk -> x <> "" -> st_message s <> "" -> Extended s x (mkStatus (st_code s) (st_message s ++ "; " ++ x) []).
(** [Overlay old new r]: [new] written over the beginning of [old]. *)
Inductive Overlay : string -> string -> string -> Prop :=
| ov_inside x y new : String.length x = String.length new -> Overlay (x ++ y) new (new ++ y)
| ov_past old new : String.length old <= String.length new -> Overlay old new new.
(** A status as absl makes them: OK has no message and no payload. *)
Definition proper (s : status) : Prop := st_code s = kOk -> st_message s = "" /\ st_payloads s = [].
(** The outcomes of the model, as statuses. *)
Definition code_of (c : code) : status_code :=
  match c with InvalidArgument => kInvalidArgument | Internal => kInternal | Unimplemented => kUnimplemented | NotFound => kNotFound | UnknownCode => kUnknown end.
