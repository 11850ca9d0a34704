(** C114: the words of messages. *)
From Coq Require Import String Ascii List ZArith NArith Bool Lia.
From Verif Require Import Base Num Token Ast Lexer Quote AstConstructors Info TypeChecker Parser Interpreter SpecLexer SpecGrammar SpecParser SpecQuote SpecInfo SpecCite SpecUncited SpecPrinted SpecWords
  StrFacts NumFacts LiteralFacts QuoteFacts QuoteFacts2 PropertiesLexer PropertiesCite PropertiesUncited PropertiesOutcome.
Import ListNotations.
Open Scope string_scope.

Lemma number_iff z s : dec z = s <-> number z s.
Proof.
  rewrite C71_numbers. split.
  - intros [(n & -> & H)|(n & s' & -> & Hn & -> & H)]; [now constructor|]. exact (nu_negative n s' Hn H).
  - intros H. destruct H as [n s H|n s Hn H]; [left; eauto|right; exists n, s; auto].
Qed.
Theorem C114_types : forall t s, TypeName t = s <-> type_word t s.
Proof.
  intros t s. split.
  - intros <-. destruct t; cbn [TypeName]; constructor; now apply number_iff.
  - intros H. destruct H as [|n| | |w s H|w s H|w s H|w s H|w s H|w s H|]; cbn [TypeName]; try reflexivity; apply number_iff in H as <-; reflexivity.
Qed.
Print Assumptions C114_types.
Theorem C114_kinds : forall k s, KindToKeyword k = s <-> In (k, s) (fixed_spelling ++ kind_words).
Proof.
  intros k s. split.
  - intros <-. destruct k; cbn; auto 30.
  - intros H. repeat (destruct H as [H|H]; [injection H as <- <-; reflexivity|]). destruct H.
Qed.
Print Assumptions C114_kinds.
Theorem C114_status : forall k m s, StableStatusToString k m = s <-> exists name, In (k, name) written_codes /\ s = name ++ ": " ++ m ++ nl.
Proof.
  intros k m s. split.
  - intros <-. exists (code_name k). split; [destruct k; cbn; auto 8|reflexivity].
  - intros (name & H & ->). repeat (destruct H as [H|H]; [injection H as <- <-; reflexivity|]). destruct H.
Qed.
Print Assumptions C114_status.

(** * Quoted errors *)
Lemma quote_crash c a b w : QuoteSubConstraint c a b = Crash w -> w = LengthError.
Proof.
  unfold QuoteSubConstraint. destruct (_ || _)%bool; [discriminate|]. destruct (Explain a b) as [h|k m|w'] eqn:Ex; [| discriminate|unfold Explain in Ex; destruct (l_src a); discriminate Ex]. cbn [bind].
  destruct (Quote c a b) as [q|k m|w'] eqn:Eq; [discriminate..|]. cbn [bind]. intros E. injection E as <-. revert Eq. unfold Quote, quote_line_error, std_string_fill. destruct (loc_proto_equal a b); [discriminate|].
  destruct (_ <? _)%nat; [discriminate|]. destruct (_ <? _)%nat; [discriminate|]. destruct (skipn _ (skipn _ _)); [discriminate|].
  destruct (_ <? _)%Z; cbn [bind]; [congruence|]. destruct (_ <? _)%Z; cbn [bind]; congruence.
Qed.
Lemma announced_iff {A} k label c a b text (o : outcome A) : (l_line (cs_loc c) <= l_line a)%Z ->
  (match QuoteSubConstraint c a b with Ok q => Err k (q ++ label ++ text) | Err k m => Err Internal ("Failed to quote sub-constraint: " ++ StableStatusToString k m ++ text) | Crash w => Crash w end = o <->
   Announced k label c a b text o).
Proof.
  intros Hle. pose proof (C49_cited c a b) as HC. pose proof (C49_refused c a b) as HU. split.
  - intros <-. destruct (QuoteSubConstraint c a b) as [q|k' m|w] eqn:E.
    + apply an_cited. now apply HC.
    + destruct (proj1 (HU k' m Hle) eq_refl) as (-> & H). unfold StableStatusToString. cbn [code_name]. rewrite !sapp_assoc. exact (an_uncited k label c a b text m H).
    + rewrite (quote_crash c a b w E). apply an_crash; [intros q H; apply (HC q Hle) in H; discriminate H|intros m H; pose proof (proj2 (HU InvalidArgument m Hle) (conj eq_refl H)) as X; discriminate X].
  - intros H. destruct H as [q H|m H|H1 H2].
    + apply (HC q Hle) in H. rewrite H. reflexivity.
    + rewrite (proj2 (HU InvalidArgument m Hle) (conj eq_refl H)). unfold StableStatusToString. cbn [code_name]. rewrite !sapp_assoc. reflexivity.
    + destruct (QuoteSubConstraint c a b) as [q|k' m|w] eqn:E; [destruct (H1 q); now apply HC|destruct (H2 m); exact (proj2 (proj1 (HU k' m Hle) eq_refl))|]. now rewrite (quote_crash c a b w E).
Qed.
(** Syntax errors, type errors, and errors during evaluation. *)
Theorem C114_announced : forall A c a b text (o : outcome A), (l_line (cs_loc c) <= l_line a)%Z ->
  (ParseErrorAt c a b text = o <-> Announced InvalidArgument "Parse error: " c a b text o) /\
  (StaticTypeError c a b text = o <-> Announced InvalidArgument "Type error: " c a b text o).
Proof. intros A c a b text o Hle. split; exact (announced_iff _ _ c a b text o Hle). Qed.
Print Assumptions C114_announced.
Theorem C114_runtime : forall A c e text (o : outcome A), (l_line (cs_loc c) <= l_line (e_start e))%Z ->
  (RuntimeTypeError c e text = o <-> Announced Internal "Runtime type error: " c (e_start e) (e_end e) text o).
Proof. intros A c e text o Hle. exact (announced_iff _ _ c _ _ text o Hle). Qed.
Print Assumptions C114_runtime.
(** Every error has exactly one announcement. *)
Theorem C114_unique : forall A k label c a b text, (l_line (cs_loc c) <= l_line a)%Z -> exists o : outcome A, Announced k label c a b text o /\ forall o', Announced k label c a b text o' -> o' = o.
Proof. intros A k label c a b text Hle. eexists. split; [now apply announced_iff|]. intros o' H. symmetry. exact (proj2 (announced_iff k label c a b text o' Hle) H). Qed.
Print Assumptions C114_unique.
Definition word_src : csource := mkCSource "x == true" (mkLoc 0 0 (SrcTable "t")).
Example C114_case : type_word (TTernary 16) "ternary<16>" /\ In (DECIMAL, "<DECIMAL>") (fixed_spelling ++ kind_words) /\ In (AND, "&&") (fixed_spelling ++ kind_words) /\
  (exists q, Cited word_src (mkLoc 0 0 (SrcTable "t")) (mkLoc 0 1 (SrcTable "t")) q /\ @Announced nat InvalidArgument "Type error: " word_src (mkLoc 0 0 (SrcTable "t")) (mkLoc 0 1 (SrcTable "t")) "bad" (Err InvalidArgument (q ++ "Type error: " ++ "bad"))) /\
  exists m, @Announced nat InvalidArgument "Type error: " word_src (mkLoc 5 0 (SrcTable "t")) (mkLoc 5 1 (SrcTable "t")) "bad" (Err Internal m).
Proof.
  split; [apply C114_types; reflexivity|]. split; [cbn; auto 30|]. split; [cbn; auto 30|]. split.
  - destruct (QuoteSubConstraint word_src (mkLoc 0 0 (SrcTable "t")) (mkLoc 0 1 (SrcTable "t"))) as [q| |] eqn:E; [|vm_compute in E; discriminate E..]. exists q.
    assert (Cited word_src (mkLoc 0 0 (SrcTable "t")) (mkLoc 0 1 (SrcTable "t")) q) as H by (apply C49_cited; [cbn; lia|exact E]). split; [exact H|]. exact (an_cited _ _ _ _ _ _ q H).
  - destruct (QuoteSubConstraint word_src (mkLoc 5 0 (SrcTable "t")) (mkLoc 5 1 (SrcTable "t"))) as [|k m|] eqn:E; [vm_compute in E; discriminate E| |vm_compute in E; discriminate E].
    apply C49_refused in E as (_ & H); [|cbn; lia]. eexists. exact (an_uncited _ _ _ _ _ _ m H).
Qed.
