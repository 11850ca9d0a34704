(** C118: what is printed for values, symbolic results and keys tells them apart. *)
From Coq Require Import String Ascii List ZArith NArith Bool Lia.
From Verif Require Import Base Num Token Ast Info Interpreter Z3 Symbolic Printers SpecLexer SpecGrammar SpecParser StrFacts NumFacts MessageFacts SharedFacts2.
Import ListNotations.
Open Scope string_scope.

Definition is_boolean (v : value) : Prop := exists b, v = VBool b.
Lemma shown_end v v' : EvalResultToString v = EvalResultToString v' -> v = v'.
Proof.
  assert (forall a c u, ~ digit c -> c <> "-"%char -> dec a = String c u -> False) as Hd.
  { intros a c u H1 H2 E. apply (dec_start a "" c H1 H2 u). rewrite sapp_nil_r. exact E. }
  assert (forall a b, dec a = dec b -> a = b) as Hi.
  { intros a b E. apply (dec_split a b "" "" I I). now rewrite E. }
  intros E.
  destruct v as [[|]|z|z|z m|z m|z m], v' as [[|]|z'|z'|z' m'|z' m'|z' m']; cbn [EvalResultToString] in E; try discriminate E; try reflexivity;
    try (exfalso; refine (Hd _ _ _ _ _ E); [unfold digit, between; cbn; lia|discriminate]); try (exfalso; symmetry in E; refine (Hd _ _ _ _ _ E); [unfold digit, between; cbn; lia|discriminate]).
  - now apply Hi in E as ->.
  - apply sapp_inv_head in E. apply dec_split in E as [-> _]; [auto|nd|nd].
  - apply sapp_inv_head in E. apply dec_split in E as [-> E]; [|nd|nd]. apply sapp_inv_head in E. apply dec_split in E as [-> _]; [auto|nd|nd].
  - apply sapp_inv_head in E. apply dec_split in E as [-> E]; [|nd|nd]. apply sapp_inv_head in E. apply dec_split in E as [-> _]; [auto|nd|nd].
  - apply sapp_inv_head in E. apply dec_split in E as [-> E]; [|nd|nd]. apply sapp_inv_head in E. apply dec_split in E as [-> _]; [auto|nd|nd].
Qed.
(** Different values have different texts in explanations. *)
Theorem C118_shown : forall v w, EvalResultToString v = EvalResultToString w -> v = w.
Proof. exact shown_end. Qed.
Print Assumptions C118_shown.
(** Streaming a value gives the text used in explanations, and so tells values apart, except that Booleans are streamed as numbers. *)
Theorem C118_streamed : forall v, ~ is_boolean v -> print_value v = EvalResultToString v.
Proof. intros [b|z|z|z m|z m|z m] H; try reflexivity. destruct H. now exists b. Qed.
Print Assumptions C118_streamed.

(** The kind of a symbolic result and the expressions in it. *)
Definition kind_of (r : sym_result) : string :=
  match r with RTerm _ => "expression" | RKey (SymExact _) => "exact" | RKey (SymTernary _ _) => "ternary" | RKey (SymLpm _ _) => "lpm" end.
Definition terms_of (r : sym_result) : list term :=
  match r with RTerm t => [t] | RKey (SymExact v) => [v] | RKey (SymTernary v m) => [v; m] | RKey (SymLpm v p) => [v; p] end.

Lemma quote_split n : forall n' r r', ~ In SQUOTE (list_ascii_of_string n) -> ~ In SQUOTE (list_ascii_of_string n') ->
  n ++ String SQUOTE r = n' ++ String SQUOTE r' -> n = n' /\ r = r'.
Proof.
  induction n as [|c n IH]; intros n' r r' H H' E.
  - destruct n' as [|c' n']; [injection E; auto|]. exfalso. cbn [append] in E. injection E as <- _. apply H'. now left.
  - destruct n' as [|c' n']; cbn [append] in E.
    + exfalso. injection E as -> _. apply H. now left.
    + injection E as -> E. destruct (IH n' r r') as [-> ->]; auto; intros Hx; [apply H|apply H']; now right.
Qed.

(** If the texts of the expressions hold no single quote, the text of a result tells its kind and the texts of its expressions. *)
Theorem C118_symbolic : forall to_string r r',
  (forall t, In t (terms_of r ++ terms_of r') -> ~ In SQUOTE (list_ascii_of_string (to_string t))) ->
  print_symbolic_result to_string r = print_symbolic_result to_string r' ->
  kind_of r = kind_of r' /\ map to_string (terms_of r) = map to_string (terms_of r').
Proof.
  intros ts r r' H E.
  destruct r as [[v|v m|v p]|t], r' as [[v'|v' m'|v' p']|t']; cbn [print_symbolic_result print_symbolic_key] in E; try discriminate E; split; try reflexivity; cbn [terms_of map app In] in *;
    apply sapp_inv_head in E.
  - apply quote_split in E as [-> _]; auto.
  - apply quote_split in E as [Ev E]; auto. apply (sapp_inv_head " mask: '") in E. apply quote_split in E as [Em _]; auto 6. now rewrite Ev, Em.
  - apply quote_split in E as [Ev E]; auto. apply (sapp_inv_head " prefix_length: '") in E. apply quote_split in E as [Em _]; auto 6. now rewrite Ev, Em.
  - apply quote_split in E as [-> _]; auto.
Qed.
Print Assumptions C118_symbolic.
(** Names may hold single quotes; then two results may have the same text. *)
Definition plain_text (t : term) : string := match t with ZConst n _ => n | _ => "" end.
Theorem C118_symbolic_refuted : exists r r', print_symbolic_result plain_text r = print_symbolic_result plain_text r' /\
  map plain_text (terms_of r) <> map plain_text (terms_of r').
Proof.
  exists (RKey (SymTernary (ZConst "a' mask: 'b" (SBV 8)) (ZConst "c" (SBV 8)))), (RKey (SymTernary (ZConst "a" (SBV 8)) (ZConst "b' mask: 'c" (SBV 8)))).
  split; [reflexivity|discriminate].
Qed.
Print Assumptions C118_symbolic_refuted.

Lemma last_quote t : forall n n' t', unquoted t -> unquoted t' -> n ++ dq ++ t = n' ++ dq ++ t' -> n = n' /\ t = t'.
Proof.
  intros n. induction n as [|c n IH]; intros n' t' H H' E.
  - destruct n' as [|c' n']; [injection E; auto|]. exfalso. cbn [append] in E. injection E as _ E. apply H. rewrite E. unfold chars. rewrite chars_app. apply in_or_app. right. now left.
  - destruct n' as [|c' n']; cbn [append] in E.
    + exfalso. injection E as _ E. apply H'. rewrite <- E. unfold chars. rewrite chars_app. apply in_or_app. right. now left.
    + injection E as -> E. destruct (IH n' t' H H' E) as [-> ->]. auto.
Qed.
Lemma dec_of_N n : dec_N n = dec (Z.of_N n).
Proof. destruct n; reflexivity. Qed.
(** The text of a key tells its number, its name, whatever characters that has, and the text of its type, unless that one holds a
    double quote (those of unsupported types do). *)
Theorem C118_keys : forall show k k', unquoted (show (k_type k)) -> unquoted (show (k_type k')) ->
  print_key_info show k = print_key_info show k' -> k_id k = k_id k' /\ k_name k = k_name k' /\ show (k_type k) = show (k_type k').
Proof.
  intros show k k' H H' E. unfold print_key_info in E. rewrite !dec_of_N in E. apply sapp_inv_head in E.
  apply dec_split in E as [Ei E]; [|nd|nd]. apply (sapp_inv_head ("; name: " ++ dq)) in E.
  assert (forall s, unquoted s -> unquoted ("; type: { " ++ s ++ " }; }")) as Hu.
  { intros s Hs Hin. unfold chars in Hin. rewrite !chars_app in Hin. apply in_app_or in Hin as [Hin|Hin]; [cbn in Hin; intuition discriminate|].
    apply in_app_or in Hin as [Hin|Hin]; [exact (Hs Hin)|cbn in Hin; intuition discriminate]. }
  apply last_quote in E as [En E]; [|now apply Hu|now apply Hu]. apply sapp_inv_head in E. apply suffix_inj in E.
  split; [now apply N2Z.inj in Ei|]. auto.
Qed.
Print Assumptions C118_keys.

(** Concrete cases: a ternary value, an LPM key's encoding, and a key whose name holds quotes. *)
Example C118_case :
  EvalResultToString (VTernary 10 15) = "Ternary{.value = 10, .mask = 15}" /\ print_value (VRange (-1) 5) = "Range{.low = -1, .high = 5}" /\
  print_symbolic_result plain_text (RKey (SymLpm (ZConst "k_value" (SBV 8)) (ZConst "k_prefix_length" SInt))) = "SymbolicLpm{ value: 'k_value' prefix_length: 'k_prefix_length' }" /\
  (forall t, In t (terms_of (RKey (SymLpm (ZConst "k_value" (SBV 8)) (ZConst "k_prefix_length" SInt)))) -> ~ In SQUOTE (list_ascii_of_string (plain_text t))) /\
  print_key_info (fun _ => "exact { bitwidth: 8 }") (mkKey 7 (dq ++ "; type: {") (TExact 8)) = "KeyInfo{ id: 7; name: """"; type: {""; type: { exact { bitwidth: 8 } }; }" /\
  unquoted "exact { bitwidth: 8 }".
Proof.
  repeat split; try reflexivity.
  - intros t [<-|[<-|[]]] H; cbn in H; intuition discriminate.
  - intros H. cbn in H. intuition discriminate.
Qed.
