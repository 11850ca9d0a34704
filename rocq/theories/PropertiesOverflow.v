(** C75, continued: which of the constraints that a P4 program may declare keep the 32-bit counters from overflowing. *)
From Coq Require Import String Ascii List ZArith NArith Bool Lia.
From Verif Require Import Base Num Token Ast Regex Lexer AstConstructors Parser Info TypeChecker ConstraintInfo SpecLexer SpecGrammar SpecParser SpecTyping SpecSemantics SpecInfo SpecMisc SpecCrash SpecExplain SpecBounds InfoFacts CrashFacts PropertiesParser PropertiesInfo PropertiesVerdict PropertiesBounds.
Import ListNotations.
Open Scope string_scope.

Local Notation len s := (Z.of_nat (String.length s)).

Lemma notes_line ck l f n r f2 n2 : Notes ck l f n r f2 n2 -> counts n -> counts n2.
Proof.
  intros H. induction H; intros Hn; auto.
  apply IHNotes. destruct H as (ds & k & rest & H). unfold counts. decompose [and] H. subst. lia.
Qed.
(** Reading a program places every constraint at column 0 of a line that a 32-bit counter holds, whatever its @line annotations say. *)
Theorem C75_declared : forall p ck cs, declares p ck cs -> counts (l_line (cs_loc cs)) /\ l_col (cs_loc cs) = 0%Z.
Proof.
  intros p ck cs H. assert (exists pre, restricted ck pre cs) as (pre & rest & f & n & ss & HN & _ & _ & _ & ->) by (destruct H as [d cs _ H|d cs _ H]; eauto).
  split; [|reflexivity]. cbn [cs_loc l_line]. apply (notes_line _ _ _ _ _ _ _ HN). unfold counts. lia.
Qed.
Print Assumptions C75_declared.
(** Constraints that end before line 2^31 - 1 do not overflow the counters, nor do the line numbers in messages, which start at 1. *)
Theorem C75_program : forall pton p ck cs, pton_ok pton -> declares p ck cs -> counts (l_line (cs_loc cs) + len (cs_string cs) + 1) ->
  (forall t l, In t (Tokenize cs) -> l = t_start t \/ l = t_end t -> countable l /\ counts (l_line l + 1)) /\
  forall e0, ParseConstraint pton ck cs = Ok e0 -> (forall s l, sub s e0 -> l = e_start s \/ l = e_end s -> countable l /\ counts (l_line l + 1)) /\
  forall ai ti G e, in_scope ai ti G -> Infer ai ti e0 = Ok e -> (forall s l, sub s e -> l = e_start s \/ l = e_end s -> countable l /\ counts (l_line l + 1)) /\ forall p n, fst (Size e p None) = Ok n -> counts n.
Proof.
  intros pton p ck cs Hp Hd Hc. destruct (C75_declared p ck cs Hd) as [H1 H2].
  assert (forall l, within (cs_loc cs) (len (cs_string cs)) l -> countable l /\ counts (l_line l + 1)) as Hw by (unfold within, countable, counts in *; lia).
  split; [intros t l Ht Hl; destruct (proj1 (C75_tokens cs) t Ht); destruct Hl as [-> | ->]; auto|].
  intros e0 He. split; [intros s l Hs Hl; destruct (proj1 (C75_tree _ _ _ _ Hp He) s Hs); destruct Hl as [-> | ->]; auto|].
  intros ai ti G e HG Hi. destruct (C75_typed _ _ _ _ _ _ _ _ Hp HG He Hi) as (H5 & _ & _ & H6). split.
  - intros s l Hs Hl. destruct (H5 s Hs). destruct Hl as [-> | ->]; auto.
  - intros q n Hn. specialize (H6 q n Hn). unfold counts in *. lia.
Qed.
Print Assumptions C75_program.
(** The condition is needed: a short program that is read without objection, whose @line annotation is the largest that is read,
    has a token whose line exceeds 2^31 - 1. (There the counters of the model differ from those of the code, in which the addition overflows.) *)
Definition last_line : p4info := mkP4Info [mkP4Table (mkPre 5 "t" ["@line(2147483647)"; restriction "entry" ["x =="; "1"]]) [mkMF 1 "x" 8 (MMatchType MTExact)]] [].
Definition last_ci : constraint_info := Eval vm_compute in the (mkInfo [] []) (P4ToConstraintInfo pton1 last_line).
Definition last_cs : csource := Eval vm_compute in match ExtractConstraint kTableConstraint (mkPre 5 "t" ["@line(2147483647)"; restriction "entry" ["x =="; "1"]]) with Ok (Some c) => c | _ => mkCSource "" (mkLoc 0 0 SrcNone) end.
Theorem C75_lines_refuted : exists p ci cs t, P4ToConstraintInfo pton1 p = Ok ci /\ declares p kTableConstraint cs /\ In t (Tokenize cs) /\ ~ countable (t_start t).
Proof.
  exists last_line, last_ci, last_cs, (nth 2 (Tokenize last_cs) (mkTok BINARY "" (mkLoc 0 0 SrcNone) (mkLoc 0 0 SrcNone))).
  split; [vm_compute; reflexivity|]. split; [eapply dc_table; [left; reflexivity|apply extract_some; vm_compute; reflexivity]|]. split; [apply nth_In; vm_compute; lia|].
  intros [[_ H] _]. vm_compute in H. discriminate H.
Qed.
Print Assumptions C75_lines_refuted.
Example C75_program_case : exists cs e, declares (mkP4Info [mkP4Table (mkPre 5 "t" ["@line(12)"; restriction "entry" ["x =="; "1"]]) [mkMF 1 "x" 8 (MMatchType MTExact)]] []) kTableConstraint cs /\
  counts (l_line (cs_loc cs) + len (cs_string cs) + 1) /\ ParseConstraint pton1 kTableConstraint cs = Ok e /\ l_line (e_end e) = 13%Z.
Proof.
  exists (mkCSource ("x ==" ++ nl ++ "1") (mkLoc 12 0 (SrcTable "t"))). eexists.
  split; [eapply dc_table; [left; reflexivity|apply extract_some; vm_compute; reflexivity]|]. split; [vm_compute; split; [discriminate|reflexivity]|]. split; [vm_compute; reflexivity|]. reflexivity.
Qed.
