(** C117: programs that differ only in where their constraints stand, as told by @file and @line, and in the names of tables and actions. *)
From Coq Require Import String List ZArith NArith.
From Verif Require Import Base Info SpecInfo.
Import ListNotations.

(** Annotations of these kinds may be added, removed and changed anywhere; the others are the same, in the same order. *)
Inductive notes_apart (note : string -> Prop) : list string -> list string -> Prop :=
| na_end : notes_apart note [] []
| na_same a l l' : notes_apart note l l' -> notes_apart note (a :: l) (a :: l')
| na_left a l l' : note a -> notes_apart note l l' -> notes_apart note (a :: l) l'
| na_right a l l' : note a -> notes_apart note l l' -> notes_apart note l (a :: l').
(** The name of a file. *)
Definition of_file (a : string) : Prop := exists f, file_note a f.
(** The name of a file or the number of a line. *)
Definition of_place (a : string) : Prop := of_file a \/ exists n, line_note a n.
Definition preamble_apart (note : string -> Prop) (p p' : preamble) : Prop := pr_id p = pr_id p' /\ notes_apart note (pr_annotations p) (pr_annotations p').
Definition info_apart (note : string -> Prop) (p p' : p4info) : Prop :=
  Forall2 (fun d d' => preamble_apart note (pt_preamble d) (pt_preamble d') /\ pt_match_fields d = pt_match_fields d') (p4_tables p) (p4_tables p') /\
  Forall2 (fun d d' => preamble_apart note (pad_preamble d) (pad_preamble d') /\ pad_params d = pad_params d') (p4_actions p) (p4_actions p').
