(** Proofs about the lexer, continued: rendering, identifiers, keywords. *)
From Coq Require Import String Ascii List ZArith NArith Bool Lia ZifyBool ZifyN ZifyNat.
From Verif Require Import Base Regex Token Lexer SpecLexer StrFacts LexerFacts LexerFacts2 LexerFacts3 LexerFacts4 LexerFacts5 LexerFacts6.
Import ListNotations.
Open Scope string_scope.

Lemma letter_not_digit c : letter c -> digit c -> False.
Proof. unfold letter, digit, between. intros [->|H] Hd; [cbn in Hd|]; lia. Qed.
Lemma letter_squote : ~ letter SQUOTE.
Proof. intros [H|[[H1 H2]|[H1 H2]]]; first [discriminate H|now apply H1|now apply H2]. Qed.
Lemma digit_squote : ~ digit SQUOTE.
Proof. intros [H1 H2]; first [now apply H1|now apply H2]. Qed.
(** Second characters of prefixed numerals. *)
Lemma numeral_second m lx it : shape m lx it -> (6 <= m <= 9)%nat ->
  (exists x u, lx = String "0" (String x u) /\
     (m = 6%nat /\ (x = "b" \/ x = "B")%char \/ m = 7%nat /\ (x = "o" \/ x = "O")%char \/
      m = 8%nat /\ (x = "x" \/ x = "X")%char \/ m = 9%nat /\ (x = "d" \/ x = "D")%char)) \/
  m = 9%nat /\ only digit lx.
Proof.
  intros H Hm. inversion H as [| | | | |k' t' Hin E|c' t' Hc E|p t' Hp|p t' Hp|p t' Hp|p t' Hp Ht Ho|]; subst; try lia.
  - left. destruct Hp as [->| ->]; cbn; eexists _, _; (split; [reflexivity|]); tauto.
  - left. destruct Hp as [->| ->]; cbn; eexists _, _; (split; [reflexivity|]); tauto.
  - left. destruct Hp as [->| ->]; cbn; eexists _, _; (split; [reflexivity|]); tauto.
  - destruct Hp as [->|[->| ->]]; [right; auto|left; eexists _, _; (split; [reflexivity|]); tauto..].
Qed.
Lemma spelling_next k t sp : spelling k t sp -> Next sp sp (Tok k t) "".
Proof.
  intros [[n Hsh] Hid]. split; [now rewrite sapp_nil_r|]. exists n. split; [exact Hsh|]. split.
  2:{ intros lx' it' rest' E _. rewrite E, slength_app. lia. }
  intros m lx' it' rest' Hm E Hsh'.
  destruct (tok_head _ _ _ _ Hsh) as (c & u & Esp & Hw & H5 & H69 & H10).
  destruct (Nat.leb_spec m 3) as [H3|H3].
  { apply Hw. eapply early_class; [exact Hsh'|exact H3|right; exists rest'; now rewrite <- Esp]. }
  destruct it' as [|k' t']; [apply shape_skip_class in Hsh'; lia|].
  destruct (tok_head _ _ _ _ Hsh') as (c' & u' & Esp' & _ & H5' & H69' & _).
  assert (c' = c) as -> by (rewrite Esp, Esp' in E; cbn in E; now injection E as <- _).
  pose proof (shape_tok_class _ _ _ _ Hsh) as Hn.
  destruct (Nat.eq_dec m 4) as [->|Hm4].
  { inversion Hsh' as [| | | | |? ? Hin| | | | | |]; subst k' t' .
    apply fixed_head in Hin as [[-> Htr]|[[-> Htr]|(d & v & Ed & Hd1 & Hd2 & Hd3)]].
    - rewrite Esp' in *. injection Htr as -> ->. destruct (Nat.eq_dec n 5) as [->|Hn5].
      + inversion Hsh; subst. now apply (proj1 (Hid eq_refl) rest').
      + destruct (Nat.eq_dec n 10) as [->|Hn10]; [specialize (H10 eq_refl); discriminate|].
        specialize (H69 ltac:(lia)). destruct H69 as [_ H69]. now apply H69.
    - rewrite Esp' in *. injection Htr as -> ->. destruct (Nat.eq_dec n 5) as [->|Hn5].
      + inversion Hsh; subst. now apply (proj2 (Hid eq_refl) rest').
      + destruct (Nat.eq_dec n 10) as [->|Hn10]; [specialize (H10 eq_refl); discriminate|].
        specialize (H69 ltac:(lia)). destruct H69 as [_ H69]. now apply H69.
    - rewrite Esp' in Ed. injection Ed as <- _.
      destruct (Nat.eq_dec n 5) as [->|Hn5]; [auto|].
      destruct (Nat.eq_dec n 10) as [->|Hn10]; [auto|]. apply Hd2, H69. lia. }
  destruct (Nat.eq_dec n 10) as [->|Hn10].
  { specialize (H10 eq_refl). subst c. destruct (Nat.eq_dec m 5) as [->|Hm5].
    - now apply letter_squote, H5'.
    - apply digit_squote, H69'. lia. }
  specialize (H69 ltac:(lia)). destruct (Nat.eq_dec m 5) as [->|Hm5].
  { eapply letter_not_digit; [now apply H5'|exact H69]. }
  destruct (numeral_second _ _ _ Hsh' ltac:(lia)) as [(x & v & Ex & Hx)|[? _]]; [|lia].
  destruct (numeral_second _ _ _ Hsh ltac:(lia)) as [(y & v2 & Ey & Hy)|[-> Ho]].
  - rewrite Ex, Ey in E. cbn in E. injection E as -> _.
    destruct Hx as [[-> Hx]|[[-> Hx]|[[-> Hx]|[-> Hx]]]]; destruct Hx as [->| ->];
    destruct Hy as [[-> Hy]|[[-> Hy]|[[-> Hy]|[-> Hy]]]]; destruct Hy as [Hy|Hy]; try lia; discriminate.
  - assert (digit x) as [Hd1 Hd2].
    { apply Ho. rewrite E, Ex. cbn. auto. }
    destruct Hx as [[-> Hx]|[[-> Hx]|[[-> Hx]|[-> Hx]]]]; [..|lia]; destruct Hx as [->| ->]; first [now apply Hd1|now apply Hd2].
Qed.
Lemma kts_white s x : white s -> kts (s ++ x) = kts x.
Proof.
  induction s as [|c s IH]; intros Ho; [reflexivity|]. apply only_cons in Ho as [Hc Ho].
  rewrite <- (IH Ho). cbn [append]. destruct Hc as [Hc|[->| ->]].
  - now apply kts_blank.
  - apply (kts_break (str1 CR)). unfold line_break, str1. auto.
  - apply (kts_break (str1 LF)). unfold line_break, str1. auto.
Qed.
Lemma kts_render l :
  (forall k t sp sep, In (k, t, sp, sep) l -> spelling k t sp /\ white sep /\ sep <> "") ->
  kts (render l) = (map (fun '(k, t, _, _) => (k, t)) l ++ [(END_OF_INPUT, "")])%list.
Proof.
  induction l as [|[[[k t] sp] sep] l IH]; intros H; [reflexivity|].
  destruct (H k t sp sep (or_introl eq_refl)) as (Hsp & Hw & Hne).
  cbn [render map app]. apply spelling_next in Hsp.
  rewrite (kts_tok _ sp k t (sep ++ render l)).
  - rewrite kts_white by assumption. f_equal. apply IH. intros. apply H. now right.
  - apply (next_tok_extend sp sp k t ""); [exact Hsp|].
    destruct sep as [|c sep]; [congruence|]. exists c, (sep ++ render l). split; [reflexivity|].
    apply only_cons in Hw as [Hc _]. tauto.
Qed.

(** * Identifiers *)
Lemma kts_word_id w : word w -> (forall u, w <> "true" ++ u) -> (forall u, w <> "false" ++ u) ->
  kts w = [(ID, w); (END_OF_INPUT, "")].
Proof.
  intros (c & t & -> & Hc & Ho) H1 H2.
  rewrite (kts_tok _ (String c t) ID (String c t) ""); [reflexivity|].
  apply spelling_next. split; [exists 5%nat; now constructor|auto].
Qed.
Lemma next_fixed_prefix k t u : In (k, t) [(TRUE, "true"); (FALSE, "false")] -> Next (t ++ u) t (Tok k t) u.
Proof.
  intros Hin. split; [reflexivity|]. exists 4%nat.
  assert (In (k, t) fixed_spelling) as Hf by (cbn in *; tauto).
  split; [now constructor|].
  assert (exists c v, t = String c v /\ letter c) as (c & v & -> & Hc).
  { destruct Hin as [H|[H|[]]]; injection H as <- <-; eexists _, _; (split; [reflexivity|]); right; left; split; discriminate. }
  split.
  - intros m lx' it' rest' Hm E Hsh. eapply (letter_not_white c Hc).
    eapply early_class; [exact Hsh|lia|right; exists rest'; exact E].
  - intros lx' it' rest' E Hsh. inversion Hsh as [| | | | |k' t' Hin'| | | | | |]; subst.
    cbn [append] in E. apply fixed_head in Hin' as [[-> ->]|[[-> ->]|(d & v' & -> & Hd & _)]].
    + destruct Hin as [H|[H|[]]]; injection H as <- <- <-; [cbn; lia|discriminate E].
    + destruct Hin as [H|[H|[]]]; injection H as <- <- <-; [discriminate E|cbn; lia].
    + cbn in E. injection E as <- _. now elim Hd.
Qed.
Lemma kts_word w : word w ->
  (kts w = [(ID, w); (END_OF_INPUT, "")] <-> (forall u, w <> "true" ++ u) /\ (forall u, w <> "false" ++ u)).
Proof.
  intros Hw. split.
  - intros E. split; intros u ->; revert E.
    + rewrite (kts_tok _ "true" TRUE "true" u); [discriminate|]. apply next_fixed_prefix. cbn; auto.
    + rewrite (kts_tok _ "false" FALSE "false" u); [discriminate|]. apply next_fixed_prefix. cbn; auto.
  - intros [H1 H2]. now apply kts_word_id.
Qed.

(** * Keywords *)
Lemma keyword_inverse k : KeywordToKind (KindToKeyword k) = Some k.
Proof. destruct k; reflexivity. Qed.
Lemma assoc_find_In {V} s (m : list (string * V)) v : assoc_find String.eqb s m = Some v -> In (s, v) m.
Proof.
  induction m as [|[s' v'] m IH]; cbn; [discriminate|]. destruct (String.eqb_spec s s') as [->|].
  - intros H. injection H as ->. auto.
  - auto.
Qed.
Lemma keyword_inverse2 s k : KeywordToKind s = Some k -> KindToKeyword k = s.
Proof.
  unfold KeywordToKind.
  assert (kind_keyword_map = map (fun k => (KindToKeyword k, k)) (rev kAllKinds) \/ kind_keyword_map = map (fun k => (KindToKeyword k, k)) kAllKinds) as Hm
    by (vm_compute; auto).
  assert (forall s k, In (s, k) kind_keyword_map -> KindToKeyword k = s) as Hin.
  { intros s' k' H. destruct Hm as [Hm|Hm]; rewrite Hm in H; apply in_map_iff in H as (x & Hx & _); now injection Hx as <- <-. }
  generalize dependent kind_keyword_map. intros m _ Hin H. now apply Hin, assoc_find_In.
Qed.
Lemma kinds_complete k : In k kAllKinds.
Proof. destruct k; cbn; tauto. Qed.
Lemma kinds_nodup : NoDup kAllKinds.
Proof. unfold kAllKinds. repeat constructor; cbn; intuition discriminate. Qed.
Lemma fixed_keyword k t : In (k, t) fixed_spelling -> KindToKeyword k = t.
Proof. cbn. intros H. repeat (destruct H as [H|H]; [injection H as <- <-; reflexivity|]). destruct H. Qed.
Lemma keyword_lexed k : ~ In k [ID; BINARY; OCTARY; DECIMAL; HEXADEC; STRING; END_OF_INPUT; UNEXPECTED_CHAR] ->
  kts (KindToKeyword k) = [(k, KindToKeyword k); (END_OF_INPUT, "")].
Proof. intros H. destruct k; cbn in H; try tauto; vm_compute; reflexivity. Qed.

(** * Debug assertion in the comment loop *)
Lemma swallow_dcheck_valid s : runes (fun _ => False) s -> swallow_dcheck (String.length s) s = true.
Proof.
  intros Hs. destruct (swallow_spec (String.length s) s default_loc (le_n _))
    as (body & closed & rest & _ & E & Hb & _ & Hno & ->).
  destruct closed; [reflexivity|]. specialize (Hno eq_refl). cbn [append orb] in *.
  rewrite E in Hs. apply runes_app_inv in Hs; [|exact Hb].
  inversion Hs as [|r x Hr Hb' Hx Ex]; subst; [reflexivity|].
  rewrite match_rune_complete in Hno; [discriminate|exact Hr|reflexivity].
Qed.

(** * Texts of tokens *)
Lemma Lex_shapes l s ts t : Lex l s ts -> In t ts ->
  sentinel (t_kind t) \/ exists n lx, shape n lx (Tok (t_kind t) (t_text t)).
Proof.
  induction 1 as [l|l c s Hno|l s lx rest ts Hx H IH|l s lx k tx rest ts Hx H IH]; intros Hin.
  - destruct Hin as [<-|[]]. left. now left.
  - destruct Hin as [<-|[]]. left. now right.
  - auto.
  - destruct Hin as [<-|Hin]; [|auto]. right. apply next_shape in Hx as [n Hn]. eauto.
Qed.

(** * Where the end of input is *)
Lemma Lex_end_iff l s ts init last : Lex l s ts -> ts = (init ++ [last])%list ->
  (t_kind last = END_OF_INPUT <-> exists chunks, Tiles s chunks "").
Proof.
  intros H E. apply Lex_Tiles in H as (chunks & rest & HT & Hk).
  rewrite E, map_app in Hk. cbn [map] in Hk. apply app_inj_tail in Hk as [_ Hk]. split.
  - intros He. destruct rest as [|c rest]; [eauto|]. unfold kt in Hk. rewrite He in Hk. discriminate.
  - intros [chunks' HT']. destruct (Tiles_fun _ _ _ _ _ HT HT') as [_ ->]. unfold kt in Hk. now injection Hk as -> _.
Qed.
