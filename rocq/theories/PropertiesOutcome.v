(** What checking an entry reports (C71). *)
From Coq Require Import String Ascii List ZArith NArith Bool Lia Sorted.
From Verif Require Import Base Num Token Ast Lexer Quote AstConstructors Parser Info TypeChecker ConstraintInfo Interpreter SpecLexer SpecGrammar SpecParser SpecQuote SpecTyping SpecSemantics SpecInfo SpecExplain SpecCrash SpecReading SpecOutcome
  NumFacts InfoFacts2 InterpFacts2 PropertiesParser PropertiesVerdict PropertiesExplain PropertiesCrash OutcomeFacts3 OutcomeFacts5.
Import ListNotations.
Open Scope string_scope.

(** * C71 *)
(** Checking an entry always answers or fails in a way that the specification allows. *)
Theorem C71_outcome : forall pton p ci entry, pton_ok pton -> P4ToConstraintInfo pton p = Ok ci -> sane_widths p -> legible pton p ->
  exists v, entry_outcome pton p entry v /\ reports (ReasonEntryViolatesConstraint entry ci) v.
Proof. intros pton p ci entry Hp Hci Hs Hl. exact (entry_reports pton p ci Hp Hci Hs Hl entry). Qed.
Print Assumptions C71_outcome.
(** For standard keys it allows just one. *)
Theorem C71_exact : forall pton p ci entry v, pton_ok pton -> P4ToConstraintInfo pton p = Ok ci -> sane_widths p -> legible pton p -> standard_keys p ->
  (reports (ReasonEntryViolatesConstraint entry ci) v <-> entry_outcome pton p entry v).
Proof.
  intros pton p ci entry v Hp Hci Hs Hl Hst. split; [|exact (entry_reported pton p ci Hp Hci Hs Hl entry v Hst)].
  intros H. destruct (C71_outcome pton p ci entry Hp Hci Hs Hl) as (v' & Ho & Hr). rewrite (reports_fun _ _ _ H Hr). exact Ho.
Qed.
Print Assumptions C71_exact.
(** So an entry has exactly one verdict. *)
Theorem C71_unique : forall pton p ci entry, pton_ok pton -> P4ToConstraintInfo pton p = Ok ci -> sane_widths p -> legible pton p -> standard_keys p ->
  exists! v, entry_outcome pton p entry v.
Proof.
  intros pton p ci entry Hp Hci Hs Hl Hst. destruct (C71_outcome pton p ci entry Hp Hci Hs Hl) as (v & Ho & Hr). exists v. split; [exact Ho|].
  intros v' Ho'. apply (C71_exact pton p ci entry v' Hp Hci Hs Hl Hst) in Ho'. exact (reports_fun _ _ _ Hr Ho').
Qed.
Print Assumptions C71_unique.
(** Constraints that are written in one line can be quoted. *)
Theorem C71_one_line : forall pton p, pton_ok pton -> (forall ck cs, declares p ck cs -> one_line (cs_string cs)) -> legible pton p.
Proof.
  intros pton p Hp H ck cs e Hd Hra. destruct (H _ _ Hd) as [H1 H2]. destruct Hd as [d cs Hd Hr|d cs Hd Hr].
  - exact (C33_one_line_partial pton kTableConstraint (pt_preamble d) cs e Hp Hr Hra H1 H2).
  - exact (C33_one_line_partial pton kActionConstraint (pad_preamble d) cs e Hp Hr Hra H1 H2).
Qed.
Print Assumptions C71_one_line.
(** Numbers appear in all these texts (in quotes too) in decimal, without leading zeros, and with a minus sign iff they are negative. *)
Theorem C71_numbers : forall z s, dec z = s <-> (exists n, z = Z.of_N n /\ Decimal s n) \/ (exists n s', z = (- Z.of_N n)%Z /\ (0 < n)%N /\ s = String "-" s' /\ Decimal s' n).
Proof.
  intros z s. split.
  - intros <-. destruct z as [|p|p]; [left; exists 0%N; split; [reflexivity|now apply dec_Decimal]|left; exists (Npos p); split; [reflexivity|now apply dec_Decimal]|].
    right. exists (Npos p), (dec (Z.of_N (Npos p))). split; [reflexivity|]. split; [reflexivity|]. split; [reflexivity|now apply dec_Decimal].
  - intros [(n & -> & H)|(n & s' & -> & Hn & -> & H)]; apply dec_Decimal in H; subst; [reflexivity|]. destruct n as [|p]; [discriminate Hn|reflexivity].
Qed.
Print Assumptions C71_numbers.
Lemma demo_standard : standard_keys demo_info.
Proof. intros d f [<-|[<-|[]]] Hf; cbn in Hf; repeat destruct Hf as [<-|Hf]; try contradiction; eexists; reflexivity. Qed.
(** An accepted entry, a rejected one, one with a rejected action, and four failures. *)
Example C71_case : sane_widths demo_info /\ legible pton1 demo_info /\ standard_keys demo_info /\ P4ToConstraintInfo pton1 demo_info = Ok demo_ci /\
  entry_outcome pton1 demo_info (mkEntry 3 demo_match None 0) (Says "") /\
  entry_outcome pton1 demo_info (mkEntry 3 [mkFM 1 (FMExact "")] None 5) (Says ("All entries must satisfy:" ++ nl ++ nl ++ "In @entry_restriction of table 'demo'; at offset line 1, columns 1 to 6:" ++ nl ++ "1 | " ++ demo_source ++ nl ++ "  | ^^^^^^" ++ nl ++ nl ++
    "But your entry does not." ++ nl ++ ">>>Relevant Entry Info<<<" ++ nl ++ "Table Name: " ++ dq ++ "demo" ++ dq ++ nl ++ "Priority:5" ++ nl ++ "Field: " ++ dq ++ "e" ++ dq ++ " -> Value: Exact{.value = 0}" ++ nl)) /\
  (exists s, entry_outcome pton1 demo_info (mkEntry 3 demo_match (Some (TAction (mkP4Action 4 [(1%N, "a"); (2%N, "a")]))) 0) (Says s) /\ s <> "") /\
  entry_outcome pton1 demo_info (mkEntry 9 demo_match None 0) (Failed InvalidArgument) /\
  entry_outcome pton1 demo_info (mkEntry 3 [mkFM 1 (FMTernary "a" "b")] None 0) (Failed Internal) /\
  entry_outcome pton1 demo_info (mkEntry 3 [] None 0) (Failed InvalidArgument) /\
  entry_outcome pton1 demo_info (mkEntry 3 demo_match (Some (TAction (mkP4Action 4 [(2%N, "a")]))) 0) (Failed Internal).
Proof.
  destruct C64_case as (Hs & Ho & Hci & _). assert (legible pton1 demo_info) as Hl by exact (C71_one_line pton1 demo_info pton1_ok Ho).
  pose proof (fun entry v => proj1 (C71_exact pton1 demo_info demo_ci entry v pton1_ok Hci Hs Hl demo_standard)) as HX.
  split; [exact Hs|]. split; [exact Hl|]. split; [exact demo_standard|]. split; [exact Hci|].
  split; [apply HX; vm_compute; reflexivity|]. split; [apply HX; vm_compute; reflexivity|].
  split; [|repeat split; apply HX; vm_compute; eauto].
  exists (the "" (ReasonEntryViolatesConstraint (mkEntry 3 demo_match (Some (TAction (mkP4Action 4 [(1%N, "a"); (2%N, "a")]))) 0) demo_ci)). split; [apply HX; vm_compute; reflexivity|vm_compute; discriminate].
Qed.
