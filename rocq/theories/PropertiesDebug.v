(** C76: debug builds. *)
From Coq Require Import String Ascii List ZArith NArith Bool Lia.
From Verif Require Import Base Num Token Ast Lexer AstConstructors Parser Info TypeChecker ConstraintInfo Interpreter DebugBuild
  SpecLexer SpecInfo SpecDebug DebugFacts DebugFacts2 DebugFacts3 PropertiesInfo PropertiesParser.
Import ListNotations.
Open Scope string_scope.

(** The program starts. *)
Theorem C76_startup : map_dcheck kAllKinds [] = Some kind_keyword_map.
Proof. vm_compute. reflexivity. Qed.
Print Assumptions C76_startup.
(** The lexer aborts exactly on texts whose last lexeme is an unclosed comment followed by something,
    and otherwise gives the tokens of the release build. *)
Theorem C54_lexer_exact : forall c,
  (dTokenize c = None <-> trips (cs_string c)) /\
  (~ trips (cs_string c) -> dTokenize c = Some (Tokenize c)).
Proof.
  intros c. destruct (dTokenize_spec c) as [[E H]|[E H]]; split; try tauto.
  rewrite E. split; [discriminate|contradiction].
Qed.
Print Assumptions C54_lexer_exact.
(** It never does on a text made of characters. *)
Theorem C54_lexer_utf8 : forall c, runes (fun _ => False) (cs_string c) -> dTokenize c = Some (Tokenize c).
Proof. intros c H. apply C54_lexer_exact, trips_utf8, H. Qed.
Print Assumptions C54_lexer_utf8.
(** The parser never aborts, whatever the tokens. *)
Theorem C76_parser : forall pton ck tokens src, dParseTokens pton ck tokens src = Some (ParseTokens pton ck tokens src).
Proof. exact dParseTokens_eq. Qed.
Print Assumptions C76_parser.
(** Loading a P4Info aborts only for such a comment, unless a width is -1. *)
Theorem C76_loading : forall pton p, ~ minus_one p -> ~ info_trips p ->
  dP4ToConstraintInfo pton p = Some (P4ToConstraintInfo pton p).
Proof. intros pton p Hm Ht. destruct (dinfo_spec pton p Hm) as [[E _]|[_ H]]; [exact E|contradiction]. Qed.
Print Assumptions C76_loading.
(** Such a comment makes it abort, unless the release build crashes before. *)
Theorem C76_loading_exact : forall pton p, ~ minus_one p -> (forall w, P4ToConstraintInfo pton p <> Crash w) ->
  (dP4ToConstraintInfo pton p = None <-> info_trips p).
Proof.
  intros pton p Hm Hc. destruct (dinfo_spec pton p Hm) as [[E [H|[w H]]]|[E H]].
  - rewrite E. split; [discriminate|contradiction].
  - elim (Hc w H).
  - tauto.
Qed.
Print Assumptions C76_loading_exact.
(** Checking entries never aborts. *)
Theorem C76_checking : forall pton p ci entry, ~ minus_one p -> P4ToConstraintInfo pton p = Ok ci ->
  dReasonEntryViolatesConstraint entry ci = Some (ReasonEntryViolatesConstraint entry ci).
Proof. intros pton p ci entry Hm Hci. destruct (loaded_good _ _ _ Hm Hci). now apply dreason_eq. Qed.
Print Assumptions C76_checking.

(** A key of width -1 that is compared with a number makes a debug build abort where the release build
    loads the P4Info. *)
Definition odd_info (w : Z) : p4info := mkP4Info [mkP4Table (mkPre 1 "t" [restriction "entry" ["k == 1"]]) [mkMF 1 "k" w (MMatchType MTExact)]] [].
Theorem C76_width_needed : exists p ci, minus_one p /\ P4ToConstraintInfo pton1 p = Ok ci /\ dP4ToConstraintInfo pton1 p = None.
Proof.
  exists (odd_info (-1)). eexists. split; [|split; [vm_compute; reflexivity|vm_compute; reflexivity]].
  left. eexists _, _. split; [left; reflexivity|]. split; [left; reflexivity|reflexivity].
Qed.
Print Assumptions C76_width_needed.

(** The hypotheses hold of a P4Info with constraints, and the conclusions are about a loaded P4Info. *)
Example C76_case : ~ minus_one ex_info /\ ~ info_trips ex_info /\
  exists ci, P4ToConstraintInfo pton1 ex_info = Ok ci /\ dP4ToConstraintInfo pton1 ex_info = Some (Ok ci).
Proof.
  assert (exists ci, P4ToConstraintInfo pton1 ex_info = Ok ci /\ dP4ToConstraintInfo pton1 ex_info = Some (Ok ci)) as H
    by (eexists; split; vm_compute; reflexivity).
  assert (~ minus_one ex_info) as Hm.
  { intros [(d & f & Hd & Hf & E)|(d & f & Hd & Hf & E)]; cbn in Hd;
      repeat (destruct Hd as [<-|Hd]; [cbn in Hf; repeat (destruct Hf as [<-|Hf]; [discriminate E|]); destruct Hf|]); destruct Hd. }
  split; [exact Hm|]. split; [|exact H]. destruct H as (ci & Hci & Hd). intros Ht.
  assert (dP4ToConstraintInfo pton1 ex_info = None) as E; [|congruence].
  apply C76_loading_exact; [exact Hm|intros w; rewrite Hci; discriminate|exact Ht].
Qed.
(** A comment cut short by a stray byte. *)
Definition stray : string := "k == 1; /* note" ++ String (ascii_of_N 255) " */".
Example C54_case : trips stray /\ dTokenize (mkCSource stray default_loc) = None /\ ~ trips "k == 1; /* note */" /\ ~ trips "k == 1; /* note".
Proof.
  assert (forall s, dTokenize (mkCSource s default_loc) <> None -> ~ trips s) as Hn.
  { intros s H Ht. apply H. apply (C54_lexer_exact (mkCSource s default_loc)), Ht. }
  assert (dTokenize (mkCSource stray default_loc) = None) as E by (vm_compute; reflexivity).
  split; [apply (C54_lexer_exact (mkCSource stray default_loc)), E|]. split; [exact E|].
  split; apply Hn; vm_compute; discriminate.
Qed.
