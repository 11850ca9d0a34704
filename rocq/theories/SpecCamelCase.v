(** Names in camel case (C102), independent of the code. *)
From Coq Require Import String Ascii List NArith.
Import ListNotations.
Open Scope string_scope.

(** The two cases of a letter. *)
Inductive cases : ascii -> ascii -> Prop :=
| ca_letter n : (n < 26)%N -> cases (ascii_of_N (97 + n)) (ascii_of_N (65 + n)).
Definition small (c : ascii) : Prop := exists d, cases c d.
Definition capital (c : ascii) : Prop := exists d, cases d c.
(** [d] is [c], as a capital if [c] is a letter. *)
Definition Capitalized (c d : ascii) : Prop := cases c d \/ ~ small c /\ d = c.
Definition Lowered (c d : ascii) : Prop := cases d c \/ ~ capital c /\ d = c.
Definition free (s : string) : Prop := ~ In "_"%char (list_ascii_of_string s).
(** Words, separated by underscores (one or several, also at the ends). *)
Inductive Words : string -> list string -> Prop :=
| wo_none : Words "" []
| wo_skip s l : Words s l -> Words (String "_" s) l
| wo_last w : w <> "" -> free w -> Words w [w]
| wo_word w s l : w <> "" -> free w -> Words s l -> Words (w ++ String "_" s) (w :: l).
(** The word with its first letter capitalized. *)
Inductive Title : string -> string -> Prop :=
| ti_word c d s : Capitalized c d -> Title (String c s) (String d s).
(** The first character lower-cased. *)
Inductive Lower : string -> string -> Prop :=
| lw_none : Lower "" ""
| lw_first c d s : Lowered c d -> Lower (String c s) (String d s).
