(** C75: locations, sizes and depths are bounded by the length of the text. *)
From Coq Require Import String Ascii List ZArith NArith Bool Lia.
From Verif Require Import Base Num Token Ast Lexer Quote AstConstructors Parser Info TypeChecker SpecLexer SpecGrammar SpecParser SpecTyping SpecSemantics SpecInfo SpecMisc SpecExplain SpecBounds
  StrFacts NumFacts LexerFacts LexerFacts4 LexerFacts5 LiteralFacts ParserFacts4 ParserFacts5 TypeFacts EvalFacts SemFacts SemFacts2 CrashFacts PropertiesLexer PropertiesParser PropertiesTypes PropertiesMisc.
Import ListNotations.
Open Scope string_scope.

Local Notation len s := (Z.of_nat (String.length s)).
Lemma within_refl l n : (0 <= n)%Z -> within l n l.
Proof. unfold within. lia. Qed.
Lemma within_advance l : forall s l1 n, within l n l1 -> within l (n + len s) (advance s l1).
Proof.
  assert (forall k s l1 n, (String.length s <= k)%nat -> within l n l1 -> within l (n + len s) (advance s l1)) as H; [|intros s l1 n; now apply (H (String.length s))].
  induction k as [|k IH]; intros s l1 n Hk H; [destruct s; [|cbn in Hk; lia]; cbn; now rewrite Z.add_0_r|]. destruct s as [|c s]; [cbn; now rewrite Z.add_0_r|]. cbn [advance].
  assert (forall x j, (j <= len (String c s))%Z -> within l (n + j) x -> within l (n + len (String c s)) x) as Hm by (unfold within; intros; lia).
  assert (within l (n + 1) (mkLoc (l_line l1 + 1) 0 (l_src l1))) as Hn by (unfold within in *; cbn; lia). cbn [String.length] in Hk.
  destruct (Ascii.eqb c LF); [apply (Hm _ (1 + len s)%Z); [cbn [String.length]; lia|]; rewrite Z.add_assoc; apply IH; [lia|exact Hn]|]. destruct (Ascii.eqb c CR).
  - destruct s as [|d s]; [apply (Hm _ 1%Z); [cbn; lia|exact Hn]|]. cbn [String.length] in Hk. destruct (Ascii.eqb d LF).
    + apply (Hm _ (1 + len s)%Z); [cbn [String.length]; lia|]. rewrite Z.add_assoc. apply IH; [lia|exact Hn].
    + apply (Hm _ (1 + len (String d s))%Z); [cbn [String.length]; lia|]. rewrite Z.add_assoc. apply IH; [cbn; lia|exact Hn].
  - apply (Hm _ (1 + len s)%Z); [cbn [String.length]; lia|]. rewrite Z.add_assoc. apply IH; [lia|]. unfold within in *; cbn; lia.
Qed.
Lemma within_shift l n l1 k : within l n l1 -> within l (n + Z.of_nat k) (shift k l1).
Proof. unfold within, shift. cbn. lia. Qed.
Lemma within_more l n n' l1 : (n <= n')%Z -> within l n l1 -> within l n' l1.
Proof. unfold within. lia. Qed.
Lemma next_nonempty s lx it rest : Next s lx it rest -> (0 < String.length lx)%nat.
Proof.
  intros (_ & n & H & _). destruct lx; [|cbn; lia]. exfalso. inversion H; subst; try congruence;
    repeat match goal with X : _ \/ _ |- _ => destruct X | X : line_break _ |- _ => inversion X; clear X | X : _ ++ _ = "" |- _ => apply sapp_eq_nil in X as [? ?] | X : "" = _ ++ _ |- _ => symmetry in X end; subst; try discriminate; try congruence.
  cbn in *. intuition discriminate.
Qed.
Lemma lex_bounds l0 n0 l s ts : Lex l s ts -> within l0 n0 l -> Forall (fun t => within l0 (n0 + len s) (t_start t) /\ within l0 (n0 + len s) (t_end t)) ts /\ (List.length ts <= S (String.length s))%nat.
Proof.
  intros H. revert n0. induction H as [l|l c s Hno|l s lx rest ts Hn H IH|l s lx k text rest ts Hn H IH]; intros n0 Hw.
  - split; [|cbn; lia]. constructor; [|constructor]. cbn. rewrite Z.add_0_r. auto.
  - split; [|cbn; lia]. constructor; [|constructor]. cbn [t_start t_end]. pose proof (within_shift _ _ _ 1 Hw) as H1. split; eapply within_more; [|exact Hw| |exact H1]; cbn [String.length]; lia.
  - destruct (IH _ (within_advance _ lx _ _ Hw)) as [H1 H2]. destruct Hn as [-> Hn]. rewrite slength_app. split; [|lia]. eapply Forall_impl; [|exact H1]. intros t [A B]. split; eapply within_more; [|exact A| |exact B]; lia.
  - pose proof (next_nonempty _ _ _ _ Hn) as Hpos. destruct (IH _ (within_shift _ _ _ (String.length lx) Hw)) as [H1 H2]. destruct Hn as [-> Hn]. rewrite slength_app. split; [|cbn; lia]. constructor.
    + cbn [t_start t_end]. pose proof (within_shift _ _ _ (String.length lx) Hw) as H3. split; eapply within_more; [|exact Hw| |exact H3]; lia.
    + eapply Forall_impl; [|exact H1]. intros t [A B]. split; eapply within_more; [|exact A| |exact B]; lia.
Qed.
(** Every location the lexer computes lies within the text, and there is at most one token per byte, and the one that marks the end. *)
Theorem C75_tokens : forall c, (forall t, In t (Tokenize c) -> within (cs_loc c) (len (cs_string c)) (t_start t) /\ within (cs_loc c) (len (cs_string c)) (t_end t)) /\
  (List.length (Tokenize c) <= S (String.length (cs_string c)))%nat.
Proof.
  intros c. assert (Lex (cs_loc c) (cs_string c) (Tokenize c)) as H by now apply Tokenize_Lex. destruct (lex_bounds (cs_loc c) 0 _ _ _ H (within_refl _ _ (Z.le_refl 0))) as [H1 H2]. rewrite Z.add_0_l in H1. split; [|exact H2].
  now apply Forall_forall.
Qed.
Print Assumptions C75_tokens.
Lemma D_nodes pton ck n w e : D pton ck n w e -> (nodes e <= Z.of_nat (List.length w))%Z.
Proof.
  induction 1; cbn [nodes List.length] in *; rewrite ?app_length in *; cbn [List.length] in *; try lia.
  unfold variable. destruct ck; cbn [nodes]; lia.
Qed.
Lemma nodes_pos e : (1 <= nodes e)%Z.
Proof. induction e; cbn [nodes]; lia. Qed.
Lemma height_nodes e : (height e <= nodes e)%Z.
Proof. induction e; cbn [nodes height]; try lia; pose proof (nodes_pos e1); pose proof (nodes_pos e2); lia. Qed.
(** Every location in the tree lies within the text; the tree has at most one node per byte, so it is no deeper than that. *)
Theorem C75_tree : forall pton ck c e, pton_ok pton -> ParseConstraint pton ck c = Ok e ->
  (forall s, sub s e -> within (cs_loc c) (len (cs_string c)) (e_start s) /\ within (cs_loc c) (len (cs_string c)) (e_end s)) /\
  (height e <= nodes e <= len (cs_string c))%Z.
Proof.
  intros pton ck c e Hp H. apply (text_iff pton Hp) in H as (w & t & Et & _ & HD). destruct (C75_tokens c) as [H1 H2]. rewrite Et in H1, H2. rewrite app_length in H2. cbn [List.length] in H2. split.
  - apply (D_locs pton ck (within (cs_loc c) (len (cs_string c))) 0 w e HD). apply Forall_forall. intros x Hx. apply H1, in_app_iff. auto.
  - split; [apply height_nodes|]. pose proof (D_nodes _ _ _ _ _ HD). lia.
Qed.
Print Assumptions C75_tree.
Lemma nodes_cast x t : (nodes x <= nodes (CastTransitivelyTo x t) <= nodes x + 2)%Z /\ (height (CastTransitivelyTo x t) <= height x + 2)%Z.
Proof. unfold CastTransitivelyTo. do 2 (destruct (_ && _)%bool; cbn [WrapWithCast nodes height]); lia. Qed.
Lemma nodes_type x t : nodes (set_type t x) = nodes x /\ height (set_type t x) = height x.
Proof. now destruct x. Qed.
Lemma size_cast x t n : Nodes (CastTransitivelyTo x t) n -> n = 1%Z \/ Nodes x n.
Proof. unfold CastTransitivelyTo. do 2 (destruct (_ && _)%bool; cbn [WrapWithCast]); intros H; auto; inversion H; auto. Qed.
Lemma infer_nodes ai ti G : in_scope ai ti G -> forall e e', Infer ai ti e = Ok e' -> (nodes e <= nodes e')%Z /\ (nodes e' + 4 <= 5 * nodes e)%Z /\ (height e' + 2 <= 3 * height e)%Z /\ forall n, Nodes e' n -> (n <= nodes e)%Z.
Proof.
  intros HG. induction e as [m b|m s|m n|m n|m e IH|m e IH|m e IH|m o l IHl r IHr|m f e IH|m n|m]; intros e' Hi.
  all: try (pose proof (inv_atom ai ti G HG _ _ Hi) as Ha; cbn in Ha; try contradiction; first [subst e'|destruct Ha as (? & ->)]; cbn; repeat split; try lia; intros k Hk; inversion Hk; lia).
  - apply (inv_not ai ti G HG) in Hi as (x & Hx & _ & ->). destruct (IH _ Hx) as (H1 & H2 & H3 & H4). cbn [set_type nodes height]. (split; [lia|split; [lia|split; [lia|]]]). intros k Hk. inversion Hk as [| | | | | | |m1 e1 k1 Hk1|]; subst. specialize (H4 _ Hk1). lia.
  - apply (inv_neg ai ti G HG) in Hi as (x & Hx & _ & ->). destruct (IH _ Hx) as (H1 & H2 & H3 & H4). cbn [set_type nodes height]. (split; [lia|split; [lia|split; [lia|]]]). intros k Hk. inversion Hk; subst. pose proof (nodes_pos e). lia.
  - apply (inv_bin ai ti G HG) in Hi as (x & y & Hx & Hy & [(_ & _ & _ & ->)|(t & Hco & _ & ->)]); destruct (IHl _ Hx) as (H1 & H2 & H3 & H4), (IHr _ Hy) as (H5 & H6 & H7 & H8).
    + cbn [set_type nodes height]. (split; [lia|split; [lia|split; [lia|]]]). intros k Hk. inversion Hk as [| | | | | | | |m1 o1 a1 b1 i j Hk1 Hk2]; subst. specialize (H4 _ Hk1). specialize (H8 _ Hk2). lia.
    + pose proof (nodes_cast x t) as [N1 N2]. pose proof (nodes_cast y t) as [N3 N4]. cbn [set_type nodes height]. (split; [lia|split; [lia|split; [lia|]]]). intros k Hk. inversion Hk as [| | | | | | | |m1 o1 a1 b1 i j Hk1 Hk2]; subst.
      pose proof (nodes_pos l). pose proof (nodes_pos r). assert (i <= nodes l)%Z by (apply size_cast in Hk1 as [->|Hk1]; [lia|auto]). assert (j <= nodes r)%Z by (apply size_cast in Hk2 as [->|Hk2]; [lia|auto]). lia.
  - apply (inv_field ai ti G HG) in Hi as (x & t & Hx & _ & ->). destruct (IH _ Hx) as (H1 & H2 & H3 & H4). cbn [set_type nodes height]. (split; [lia|split; [lia|split; [lia|]]]). intros k Hk. inversion Hk; subst. pose proof (nodes_pos e). lia.
Qed.
(** The same after type checking, which adds at most two casts per operand; so evaluation, symbolic evaluation and the search for an explanation
    recurse at most three times the length of the text deep, and the size that is compared is at most that length. *)
Theorem C75_typed : forall pton ck c e0 e ai ti G, pton_ok pton -> in_scope ai ti G -> ParseConstraint pton ck c = Ok e0 -> Infer ai ti e0 = Ok e ->
  (forall s, sub s e -> within (cs_loc c) (len (cs_string c)) (e_start s) /\ within (cs_loc c) (len (cs_string c)) (e_end s)) /\
  (height e <= 3 * len (cs_string c))%Z /\ (nodes e <= 5 * len (cs_string c))%Z /\ (forall p n, fst (Size e p None) = Ok n -> 1 <= n <= len (cs_string c))%Z.
Proof.
  intros pton ck c e0 e ai ti G Hp HG H Hi. destruct (C75_tree pton ck c e0 Hp H) as [H1 H2]. destruct (infer_nodes ai ti G HG _ _ Hi) as (H3 & H4 & H5 & H6). split; [|split; [lia|split; [lia|]]].
  - intros s Hs. destruct (infer_sub ai ti G HG _ _ Hi s Hs) as (s0 & Hs0 & <- & <-). auto.
  - intros p n Hn. pose proof (C51_positive e p n Hn). rewrite Size_size in Hn. apply ExplainFacts.size_Nodes, H6 in Hn. lia.
Qed.
Print Assumptions C75_typed.
(** So for texts of less than 2^31 bytes, placed accordingly, every line, column and size is a nonnegative int32: the 32-bit fields do not overflow. *)
Theorem C75_no_overflow : forall pton ck c, pton_ok pton -> (0 <= l_line (cs_loc c))%Z -> (0 <= l_col (cs_loc c))%Z -> counts (l_line (cs_loc c) + len (cs_string c)) -> counts (l_col (cs_loc c) + len (cs_string c)) ->
  (forall t, In t (Tokenize c) -> countable (t_start t) /\ countable (t_end t)) /\
  forall e0, ParseConstraint pton ck c = Ok e0 -> (forall s, sub s e0 -> countable (e_start s) /\ countable (e_end s)) /\
  forall ai ti G e, in_scope ai ti G -> Infer ai ti e0 = Ok e -> (forall s, sub s e -> countable (e_start s) /\ countable (e_end s)) /\ forall p n, fst (Size e p None) = Ok n -> counts n.
Proof.
  intros pton ck c Hp H1 H2 H3 H4. assert (forall l, within (cs_loc c) (len (cs_string c)) l -> countable l) as Hw by (unfold within, countable, counts in *; lia).
  split; [intros t Ht; destruct (proj1 (C75_tokens c) t Ht); auto|]. intros e0 He. split; [intros s Hs; destruct (proj1 (C75_tree _ _ _ _ Hp He) s Hs); auto|]. intros ai ti G e HG Hi. destruct (C75_typed _ _ _ _ _ _ _ _ Hp HG He Hi) as (H5 & _ & _ & H6). split.
  - intros s Hs. destruct (H5 s Hs). auto.
  - intros p n Hn. specialize (H6 p n Hn). unfold counts in *. lia.
Qed.
Print Assumptions C75_no_overflow.
(** The bound on the number of nodes is attained up to one byte per operator, and that on columns exactly. *)
Example C75_case : exists e, ParseConstraint (fun _ => None) kTableConstraint (mkCSource "a==!!b" (mkLoc 2 5 (SrcTable "t"))) = Ok e /\ nodes e = 5%Z /\ height e = 4%Z /\ l_col (e_end e) = (5 + 6)%Z /\
  counts (2 + 6) /\ counts (5 + 6).
Proof. eexists. split; [vm_compute; reflexivity|]. repeat split; reflexivity || (unfold counts; lia). Qed.
