(** Proofs about the lexer, continued: the locations of the tokens of any source. *)
From Coq Require Import String Ascii List ZArith NArith Bool Lia.
From Verif Require Import Base Token Lexer SpecLexer SpecLocations StrFacts LexerFacts LexerFacts2 LexerFacts3 LexerFacts4 LexerFacts5.
Import ListNotations.
Open Scope string_scope.

Lemma blur_length s : String.length (blur s) = String.length s.
Proof. induction s; cbn; congruence. Qed.
Lemma blur_nobreak s : nobreak (blur s).
Proof. induction s as [|c s IH]; intros d; cbn; [tauto|]. intros [<-|H]; [split; discriminate|exact (IH d H)]. Qed.
Lemma seen_app a b : seen (a ++ b) = seen a ++ seen b.
Proof. induction a as [|[lx it] a IH]; cbn; [reflexivity|]. now rewrite IH, sapp_assoc. Qed.
Lemma seen_one lx it : seen [(lx, it)] = match it with Tok STRING _ => blur lx | _ => lx end.
Proof. cbn. apply sapp_nil_r. Qed.
Lemma seen_tok n lx k t : shape n lx (Tok k t) ->
  nobreak (seen [(lx, Tok k t)]) /\ String.length (seen [(lx, Tok k t)]) = String.length lx.
Proof.
  intros H. rewrite seen_one. assert (k = STRING \/ k <> STRING) as [->|Hk] by (destruct k; (left; reflexivity) || (right; discriminate)).
  - split; [apply blur_nobreak|apply blur_length].
  - assert (nobreak lx) as Hn by (eapply shape_tok_nobreak; [exact H|congruence]).
    destruct k; try (split; [exact Hn|reflexivity]). congruence.
Qed.
Lemma nobreak_not_LF s r : nobreak s -> s <> "" -> ~ starts_LF (s ++ r).
Proof.
  intros H Hs [z Hz]. destruct s as [|c s]; [congruence|]. injection Hz as -> _.
  destruct (H LF (or_introl eq_refl)). congruence.
Qed.
Lemma nobreak_not_CR s : nobreak s -> ~ ends_CR s.
Proof.
  intros H [z ->]. destruct (H CR); [|congruence]. unfold chars. rewrite chars_app. apply in_or_app. right. now left.
Qed.

Definition last_token (l : loc) (rest : string) : token :=
  match rest with
  | "" => mkTok END_OF_INPUT "" l l
  | String c _ => mkTok UNEXPECTED_CHAR (String c "") l (shift 1 l)
  end.
Lemma Lex_seen l0 l s ts : Lex l s ts -> forall pre chunks rest,
  l = advance (seen pre) l0 -> ~ (ends_CR (seen pre) /\ starts_LF s) -> Tiles s chunks rest ->
  nth_error ts (List.length (tokens_of chunks)) = Some (last_token (advance (seen (pre ++ chunks)) l0) rest) /\
  (forall before lx k t after, chunks = (before ++ (lx, Tok k t) :: after)%list ->
     nth_error ts (List.length (tokens_of before)) =
     Some (mkTok k t (advance (seen (pre ++ before)) l0) (advance (seen (pre ++ before ++ [(lx, Tok k t)])) l0))).
Proof.
  induction 1 as [l|l c s Hno|l s lx rest ts Hx H IH|l s lx k t rest ts Hx H IH]; intros pre chunks stop -> Hsp HT.
  - inversion HT as [? Hn|? ? ? ? ? ? Hx]; subst; [|elim (not_next_nil _ _ _ Hx)].
    cbn. rewrite app_nil_r. split; [reflexivity|]. intros [|? ?]; discriminate.
  - inversion HT as [? Hn|? ? ? ? ? ? Hx]; subst; [|elim (Hno _ _ _ Hx)].
    cbn. rewrite app_nil_r. split; [reflexivity|]. intros [|? ?]; discriminate.
  - inversion HT as [? Hn|? ? ? ? cs ? Hx' HT']; subst; [elim (Hn _ _ _ Hx)|].
    destruct (next_fun _ _ _ _ _ _ _ Hx Hx') as (<- & <- & <-).
    pose proof (next_app _ _ _ _ Hx) as Es.
    assert (seen (pre ++ [(lx, Skip)]) = seen pre ++ lx) as Ep by now rewrite seen_app, seen_one.
    destruct (IH (pre ++ [(lx, Skip)])%list cs stop) as [I1 I2].
    + rewrite Ep, advance_app; [reflexivity|]. intros [Hcr [z Hz]]. apply Hsp. split; [exact Hcr|].
      rewrite Es, Hz. eexists. reflexivity.
    + rewrite Ep. intros [Hcr HLF]. apply (next_no_split _ _ _ _ Hx). split; [|exact HLF].
      eapply ends_CR_app; [|exact Hcr]. apply next_shape in Hx as [n Hn]. eapply shape_nonempty, Hn.
    + exact HT'.
    + rewrite <- app_assoc in I1. cbn [app] in I1. split; [exact I1|].
      intros [|[bx bi] before] lx' k t after E; [discriminate|]. injection E as <- <- E. specialize (I2 _ _ _ _ _ E).
      rewrite <- !app_assoc in I2. exact I2.
  - inversion HT as [? Hn|? ? ? ? cs ? Hx' HT']; subst; [elim (Hn _ _ _ Hx)|].
    destruct (next_fun _ _ _ _ _ _ _ Hx Hx') as (<- & <- & <-).
    pose proof (next_shape _ _ _ _ Hx) as [n Hn]. destruct (seen_tok _ _ _ _ Hn) as [Hnb Hlen].
    assert (seen [(lx, Tok k t)] <> "") as Hne.
    { intros E. rewrite E in Hlen. pose proof (shape_nonempty _ _ _ Hn). destruct lx; [congruence|discriminate]. }
    assert (shift (String.length lx) (advance (seen pre) l0) = advance (seen (pre ++ [(lx, Tok k t)])) l0) as Hloc.
    { rewrite seen_app, advance_app; [rewrite (advance_nobreak' (seen [_])) by exact Hnb; now rewrite Hlen|].
      intros [_ Hz]. apply (nobreak_not_LF _ "" Hnb Hne). now rewrite sapp_nil_r. }
    destruct (IH (pre ++ [(lx, Tok k t)])%list cs stop) as [I1 I2].
    + exact Hloc.
    + rewrite seen_app. intros [Hcr _]. apply ends_CR_app in Hcr; [|exact Hne]. exact (nobreak_not_CR _ Hnb Hcr).
    + exact HT'.
    + rewrite <- app_assoc in I1. cbn [app] in I1. split; [exact I1|].
      intros [|[bx bi] before] lx' k' t' after E.
      * injection E as <- <- <- <-. cbn [app tokens_of List.length nth_error]. rewrite app_nil_r, Hloc. reflexivity.
      * injection E as <- <- E. specialize (I2 _ _ _ _ _ E). rewrite <- !app_assoc in I2. exact I2.
Qed.
Lemma Tokenize_seen c chunks rest : Tiles (cs_string c) chunks rest ->
  nth_error (Tokenize c) (List.length (tokens_of chunks)) = Some (last_token (advance (seen chunks) (cs_loc c)) rest) /\
  (forall before lx k t after, chunks = (before ++ (lx, Tok k t) :: after)%list ->
     nth_error (Tokenize c) (List.length (tokens_of before)) =
     Some (mkTok k t (advance (seen before) (cs_loc c)) (advance (seen (before ++ [(lx, Tok k t)])) (cs_loc c)))).
Proof.
  intros HT. apply (Lex_seen (cs_loc c) (cs_loc c) _ _ (proj1 (Tokenize_Lex c _) eq_refl) [] chunks rest); auto.
  intros [[z Hz] _]. destruct z; discriminate.
Qed.
