(** C98: how many tokens an accepted constraint takes. C74: how statuses are written. *)
From Coq Require Import String Ascii List ZArith NArith Bool Lia.
From Verif Require Import Base Num Token Ast Lexer Quote AstConstructors Parser ParserWork StatusBuilder SpecLexer SpecGrammar SpecParser SpecStatus
  LexerFacts4 LexerFacts5 LexerFacts7 ParserFacts ParserFacts2 ParserFacts3 ParserFacts4 ReadCostFacts PropertiesParser PropertiesReadCost PropertiesStatus.
Import ListNotations.
Open Scope string_scope.
Local Notation len l := (Z.of_nat (List.length l)).

(** Every token of an accepted constraint is taken exactly once, the one for the end of the text included. *)
Theorem C98_taken : forall pton ck src e, pton_ok pton -> ParseConstraint pton ck src = Ok e ->
  taken (snd (wParseConstraint pton ck src)) = len (Tokenize src).
Proof.
  intros pton ck src e Hp H. pose proof (proj1 (Tokenize_Lex src _) eq_refl) as HL. destruct (Lex_sentinel _ _ _ HL) as (init & z & E & Hz & Hi). pose proof (lexed_numeral _ _ _ HL) as Hn. clear HL.
  unfold ParseConstraint, ParseTokens in H. unfold wParseConstraint, wParseTokens. cbv zeta in *. set (ts := Tokenize src) in *. set (eof := eof_location ts) in *.
  pose proof (proj1 (good_cost pton ck src eof (parse_fuel ts)) ts 0%nat) as HG. pose proof (proj1 (same_work pton ck src eof (parse_fuel ts)) ts 0%nat) as HS. unfold good in HG.
  apply bind_ok in H as ([a us] & H1 & H). apply bind_ok in H as ([t vs] & H2 & _). rewrite H1 in HS. destruct (wparse_above pton ck src eof (parse_fuel ts) ts 0) as [o w]. cbn [fst] in HS. subst o. destruct HG as (_ & _ & _ & _ & _ & _ & HG).
  apply (proj1 (sound pton Hp ck src eof _)) in H1 as (x & Ew & Hr); [|lia|exact Hn].
  assert (D pton ck 0 x a) as HD. { destruct Hr as [(n & Hn1 & _ & HD & _)|(_ & HD & _)]; [apply (D_down _ _ _ n); [exact HD|lia]|exact HD]. }
  assert (List.length us = 1%nat) as Hus.
  { pose proof (D_no_end pton ck _ _ _ HD) as Hne. rewrite E in Ew. pose proof H2 as H3. apply Expect_ok in H3 as (-> & Hk & ->). destruct us as [|u us].
    - rewrite app_nil_r in Ew. rewrite <- Ew in Hne. apply Forall_app in Hne as [_ Hne]. inversion Hne; subst. contradiction.
    - destruct us as [|y us]; [reflexivity|]. exfalso. destruct (@exists_last _ (y :: us)) as (r & q & Er); [discriminate|]. rewrite Er in Ew. replace (x ++ u :: r ++ [q])%list with ((x ++ u :: r) ++ [q])%list in Ew by now rewrite <- app_assoc.
      apply app_inj_tail in Ew as [-> _]. apply (Hi u); [apply in_or_app; right; now left|]. left. exact Hk. }
  cbn [wbind]. unfold wExpectTokenKind. rewrite H2. cbn [wbind after fst snd free plus_work taken take no_work]. lia.
Qed.
Print Assumptions C98_taken.
Example C98_taken_case : pton_ok pton1 /\ (exists e, ParseConstraint pton1 kTableConstraint cost_src = Ok e) /\ len (Tokenize cost_src) = 21%Z /\ taken (snd (wParseConstraint pton1 kTableConstraint cost_src)) = 21%Z.
Proof. split; [exact pton1_ok|]. split; [eexists; vm_compute; reflexivity|]. split; vm_compute; reflexivity. Qed.

(** Statuses are written as their code, a colon, the message and a line break; the model's shorter list of codes agrees. *)
Theorem C74_text : forall c m, StatusBuilder.StableStatusToString (Status (code_of c) m) = Quote.StableStatusToString c m.
Proof. intros c m. destruct c; reflexivity. Qed.
Print Assumptions C74_text.
Theorem C74_text_unique : forall s s', StatusBuilder.StableStatusToString s = StatusBuilder.StableStatusToString s' -> st_code s = st_code s' /\ st_message s = st_message s'.
Proof.
  intros [c m p] [c' m' p'] H. unfold StatusBuilder.StableStatusToString in H. cbn [st_code st_message] in *. assert (forall a b, a ++ String (Ascii.ascii_of_N 10) "" = b ++ String (Ascii.ascii_of_N 10) "" -> a = b) as Hc.
  { induction a as [|x a IH]; intros [|y b] E; cbn in E; [reflexivity|injection E as _ E; destruct b; discriminate E|injection E as _ E; destruct a; discriminate E|injection E as <- E; f_equal; now apply IH]. }
  destruct c, c'; cbn in H; try discriminate H; repeat (injection H as H); (split; [reflexivity|now apply Hc]).
Qed.
Print Assumptions C74_text_unique.
Example C74_text_case : StatusBuilder.StableStatusToString (Status kNotFound "k") = "NOT_FOUND: k" ++ nl /\ Status (code_of NotFound) "k" = mkStatus kNotFound "k" [].
Proof. split; reflexivity. Qed.
