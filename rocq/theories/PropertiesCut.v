(** Reported parts of constraints, cut out of their text (C103). *)
From Coq Require Import String Ascii List ZArith NArith Bool Lia Sorted.
From Verif Require Import Base Num Token Ast Lexer Quote AstConstructors Parser Info TypeChecker ConstraintInfo Interpreter SpecLexer SpecGrammar SpecParser SpecQuote SpecTyping SpecSemantics SpecInfo SpecExplain SpecCrash SpecMisc SpecReading SpecOutcome SpecCut
  StrFacts LexerFacts5 ParserFacts3 ParserFacts4 ParserFacts5 LawFacts RenameFacts InfoFacts2 InterpFacts2 ReadingFacts2 CombineFacts PropertiesParser PropertiesInfo PropertiesVerdict PropertiesExplain PropertiesEntries PropertiesReading PropertiesSession PropertiesCrash OutcomeFacts3 OutcomeFacts5 PropertiesOutcome MessageFacts2 CutFacts.
Import ListNotations.
Open Scope string_scope.

(** * C103 *)
Lemma cut_some pton ck c w t e a u v z b s n : Tokenize c = (w ++ [t])%list -> D pton ck 0 w e -> w = (a ++ (u ++ v ++ z) ++ b)%list -> D pton ck n (u ++ v ++ z) s -> v <> [] -> exists cut l, Cut c v cut l.
Proof.
  intros E HD Ew HD' Hv. destruct (exists_last Hv) as (v' & f & ->). pose proof (D_no_end _ _ _ _ _ HD') as HF. apply Forall_app in HF as [_ HF]. apply Forall_app in HF as [HF _].
  apply (cut_tokens c (a ++ u) v' f (z ++ b ++ [t])); [|exact HF]. rewrite E, Ew, <- !app_assoc. reflexivity.
Qed.
(** Every part of a constraint is written in it as a constraint of its own: there is a piece of the text that is read as just
    this part, and has the part's source interval, up to parentheses and a semicolon around it. *)
Theorem C103_part : forall pton ck c e s, pton_ok pton -> ParseConstraint pton ck c = Ok e -> sub s e ->
  exists ts cut l, Cut c ts cut l /\ ParseConstraint pton ck (mkCSource cut l) = Ok s /\
    exists u v z, ts = (u ++ v ++ z)%list /\ Forall (fun t => t_kind t = LPAR) u /\ Forall (fun t => t_kind t = RPAR \/ t_kind t = SEMICOLON) z /\ Spans v s.
Proof.
  intros pton ck c e s Hp H Hsub. apply (text_iff pton Hp ck) in H as (w & t & E & Ht & HD).
  destruct (D_sub pton ck _ _ _ HD s Hsub) as (a & w' & b & n & Ew & HD'). destruct (D_core pton ck _ _ _ HD') as (u & v & z & -> & Hu & Hz & Hv).
  assert (u ++ v ++ z <> [])%list as Hne. { destruct Hv as [(f & v' & -> & _) _]. destruct u; discriminate. }
  destruct (cut_some pton ck c w t e a [] (u ++ v ++ z) [] b s n E HD) as (cut & l & HC); [cbn; rewrite app_nil_r; exact Ew|cbn; rewrite app_nil_r; exact HD'|exact Hne|].
  exists (u ++ v ++ z)%list, cut, l. split; [exact HC|]. split.
  - destruct HC as (_ & _ & _ & final & Hf & Hk & _). apply (text_iff pton Hp ck). exists (u ++ v ++ z)%list, final. split; [exact Hf|]. split; [exact Hk|]. apply (D_low pton ck 0 n); [lia|exact HD'].
  - exists u, v, z. auto.
Qed.
Print Assumptions C103_part.
Lemma opened_kt w w' : map kt w = map kt w' -> opened w = opened w'.
Proof. revert w'. induction w as [|t w IH]; intros [|t' w'] E; try discriminate; [reflexivity|]. injection E as E1 E2 E. cbn [opened]. now rewrite E1, (IH _ E). Qed.
Lemma balanced_kt w w' : map kt w = map kt w' -> balanced w -> balanced w'.
Proof.
  intros E [H1 H2]. split; [now rewrite <- (opened_kt _ _ E)|]. intros a b ->. rewrite map_app in E. apply map_eq_app in E as (a' & b' & -> & Ea & Eb). rewrite <- (opened_kt _ _ Ea). exact (H2 _ _ eq_refl).
Qed.
(** The source interval itself is read as the part if its parentheses are balanced, and as nothing otherwise. *)
Theorem C103_interval : forall pton ck c e s, pton_ok pton -> ParseConstraint pton ck c = Ok e -> sub s e ->
  exists ts cut, Cut c ts cut (e_start s) /\ (exists ts' t, ts = (ts' ++ [t])%list /\ e_end s = t_end t) /\
    (balanced ts -> ParseConstraint pton ck (mkCSource cut (e_start s)) = Ok s) /\
    (~ balanced ts -> forall l s', ParseConstraint pton ck (mkCSource cut l) <> Ok s').
Proof.
  intros pton ck c e s Hp H Hsub. apply (text_iff pton Hp ck) in H as (w & t & E & Ht & HD).
  destruct (D_sub pton ck _ _ _ HD s Hsub) as (a & w' & b & n & Ew & HD'). destruct (D_piece pton ck _ _ _ HD') as (u & v & z & -> & Hu & Hz & (f & v' & Ev & Es) & Hl & _ & Hb).
  assert (v <> []) as Hne by (rewrite Ev; discriminate). destruct (cut_some pton ck c w t e a u v z b s n E HD Ew HD' Hne) as (cut & l & HC).
  assert (l = e_start s) as ->. { destruct HC as (_ & _ & _ & final & _ & _ & Hs & _). rewrite Es. exact (Hs _ _ Ev). }
  exists v, cut. split; [exact HC|]. split; [exact Hl|]. destruct HC as (_ & _ & _ & final & Hf & Hk & _). split.
  - intros HB. destruct (Hb HB) as (n' & Hd). apply (text_iff pton Hp ck). exists v, final. split; [exact Hf|]. split; [exact Hk|]. apply (D_low pton ck 0 n'); [lia|exact Hd].
  - intros HB l s' Hx. apply HB. apply (text_iff pton Hp ck) in Hx as (w1 & t1 & E1 & Ht1 & HD1). apply D_balanced in HD1. refine (balanced_kt w1 v _ HD1).
    pose proof (kts_loc (mkCSource cut l)) as K1. pose proof (kts_loc (mkCSource cut (e_start s))) as K2. cbn [cs_string] in K1, K2. rewrite <- K2, E1, Hf, !map_app in K1. apply app_inj_tail in K1 as [K1 _]. exact K1.
Qed.
Print Assumptions C103_interval.
(** In [(a == 1) || b::mask != 2], the interval of the disjunction starts after the parenthesis; that of the right operand is
    a constraint. *)
Example C103_case : exists e s, ParseConstraint pton1 kTableConstraint (table_src "(a == 1) || b::mask != 2;") = Ok e /\ sub s e /\
  Cut (table_src "(a == 1) || b::mask != 2;") (firstn 5 (skipn 6 (Tokenize (table_src "(a == 1) || b::mask != 2;")))) "b::mask != 2" (e_start s) /\
  balanced (firstn 5 (skipn 6 (Tokenize (table_src "(a == 1) || b::mask != 2;")))) /\
  ParseConstraint pton1 kTableConstraint (mkCSource "b::mask != 2" (e_start s)) = Ok s /\
  e_start e = mkLoc 0 1 (SrcTable "t") /\ forall l s', ParseConstraint pton1 kTableConstraint (mkCSource "a == 1) || b::mask != 2" l) <> Ok s'.
Proof.
  eexists _, _. split; [vm_compute; reflexivity|]. split; [apply sub_right, sub_refl|]. split; [|split; [|split; [|split]]].
  - split; [vm_compute; discriminate|]. split; [exists (firstn 6 (Tokenize (table_src "(a == 1) || b::mask != 2;"))), (skipn 11 (Tokenize (table_src "(a == 1) || b::mask != 2;"))); vm_compute; reflexivity|].
    split; [exists "(a == 1) || ", ";"; reflexivity|]. eexists. split; [vm_compute; reflexivity|]. split; [reflexivity|]. split.
    + intros t ts' E. vm_compute in E. injection E as <- _. reflexivity.
    + intros t ts' E. vm_compute in E. do 4 (destruct ts' as [|? ts']; [discriminate E|injection E as <- E]). destruct ts' as [|? ts']; [|injection E as _ E; destruct ts'; discriminate E]. injection E as <-. reflexivity.
  - apply flat_balanced. vm_compute. repeat constructor; discriminate.
  - vm_compute. reflexivity.
  - vm_compute. reflexivity.
  - intros l s' H. apply (text_iff pton1 pton1_ok) in H as (w & t & E & Ht & HD). apply D_balanced in HD as [HB _].
    assert (opened (Tokenize (mkCSource "a == 1) || b::mask != 2" l)) = (-1)%Z) as Eo. { rewrite (opened_kt _ (Tokenize (mkCSource "a == 1) || b::mask != 2" default_loc))); [vm_compute; reflexivity|]. exact (kts_loc (mkCSource "a == 1) || b::mask != 2" l)). }
    rewrite E, opened_app, HB in Eo. cbn [opened] in Eo. rewrite Ht in Eo. discriminate Eo.
Qed.
Lemma explained_typed holds G e s : Explained holds e s -> Typed G e TBool -> Typed G s TBool.
Proof.
  induction 1 as [m b|m o a b Hc|m e s H IH|m o a b x y Hc Ha Hb Hl Hr|m o a b x y s Hc Ha Hb Hl Hr H IH|m o a b x y s Hc Ha Hb Hl Hr H IH|m o a b x y s t i j Hc Ha Hb Hl Hr H1 IH1 H2 IH2 Hi Hj Hij|m o a b x y s t i j Hc Ha Hb Hl Hr H1 IH1 H2 IH2 Hi Hj Hij];
    intros HT; try exact HT; inversion HT; subst; auto;
    match goal with C : connective _, E : equality _ |- _ => destruct C; inversion E | C : connective _, E : ordering _ |- _ => destruct C; inversion E end.
Qed.
(** A piece of a text, used as a constraint, means what the part means that it is. *)
Lemma piece_reads pton ck cut l s cs : pton_ok pton -> ParseConstraint pton ck (mkCSource cut l) = Ok s -> cs_string cs = cut -> exists s', reads_as pton ck cs s' /\ Alike s s'.
Proof.
  intros Hp H E. apply (text_iff pton Hp) in H. refine (reads_as_kt pton ck _ cs s H _). unfold same_kt. pose proof (kts_loc (mkCSource cut l)) as K1. pose proof (kts_loc cs) as K2. cbn [cs_string] in K1. rewrite E in K2. unfold kt in *. congruence.
Qed.
(** What is reported to be violated, or to hold and to violate the constraint by that, can be tried on its own: there is a
    piece of the table's constraint that is quoted in the report and that alone, as a constraint of a table with the
    same keys, rejects the same match fields and priority, or accepts them. *)
Theorem C103_reproduced : forall pton p ci entry (x : bool) u, pton_ok pton -> P4ToConstraintInfo pton p = Ok ci -> sane_widths p -> legible pton p ->
  ReasonEntryViolatesConstraint entry ci = Ok ("All entries must " ++ (if x then "not " else "") ++ "satisfy:" ++ u) ->
  exists d cs e s quote rest ts cut l, In d (p4_tables p) /\ pr_id (pt_preamble d) = pe_table_id entry /\ restricted kTableConstraint (pt_preamble d) cs /\ ParseConstraint pton kTableConstraint cs = Ok e /\ sub s e /\
    QuoteSubConstraint cs (e_start s) (e_end s) = Ok quote /\ u = nl ++ nl ++ quote ++ rest /\ Cut cs ts cut l /\ ParseConstraint pton kTableConstraint (mkCSource cut l) = Ok s /\
    forall p' ci' d' cs' entry', P4ToConstraintInfo pton p' = Ok ci' -> In d' (p4_tables p') -> pt_match_fields d' = pt_match_fields d -> restricted kTableConstraint (pt_preamble d') cs' -> cs_string cs' = cut ->
      pe_table_id entry' = pr_id (pt_preamble d') -> pe_match entry' = pe_match entry -> pe_priority entry' = pe_priority entry -> pe_action entry' = None ->
      (ReasonEntryViolatesConstraint entry' ci' = Ok "" <-> x = true).
Proof.
  intros pton p ci en x u Hp Hci Hs Hl He. set (text := "All entries must " ++ (if x then "not " else "") ++ "satisfy:" ++ u) in *.
  destruct (C71_outcome pton p ci en Hp Hci Hs Hl) as (v & Ho & Hr). rewrite He in Hr. destruct v as [text'|c]; [|destruct Hr as [m Hm]; discriminate]. cbn [reports] in Hr. injection Hr as <-.
  assert (forall d a, action_outcome pton d a (Says text) -> False) as Hna.
  { intros d a Ha. inversion Ha as [| | |ps cs e param v Hf Hr Hra Hty Hac Hpa HJ]; subst. inversion HJ as [|s y text0 Hh Hx Hsx Hrep| |]; subst. destruct Hrep as (q & l & _ & _ & _ & E). discriminate E. }
  assert (forall l, actions_outcome pton p l (Says text) -> False) as Hnl.
  { intros l. remember (Says text) as v0 eqn:Ev. induction 1 as [|a l Hu|d a l v Hd Hi Ha Hne|d a l v Hd Hi Ha Hl' IH]; subst; try discriminate; [exact (Hna _ _ Ha)|exact (IH eq_refl Ho Hna)]. }
  inversion Ho as [|d v Hd Hi Ht Hne|d|d l v Hd Hi Ht Hli Hac]; subst; [|destruct (Hnl _ Hac)].
  inversion Ht as [| | |ks cs e key v Hf Hr Hra Hty Hco Hkey HJ]; subst. inversion HJ as [|s y text0 Hh Hx Hsx Hrep| |]; subst.
  destruct Hrep as (quote & fields & Hq & _ & _ & E). unfold text, told in E.
  assert (y = x /\ exists rest, u = nl ++ nl ++ quote ++ rest) as [-> [rest Eu]].
  { clear - E. rewrite !sapp_assoc in E. cbn [append] in E. destruct x, y; cbn [append] in E; try discriminate E; injection E as ->; (split; [reflexivity|]); eexists; reflexivity. }
  pose proof (explained_sub _ _ _ Hx) as Hsub. pose proof (explained_typed _ _ _ _ Hx Hty) as HTs. pose proof (proj2 (text_iff pton Hp _ _ _) Hra) as HP. destruct (C103_part pton kTableConstraint cs e s Hp HP Hsub) as (ts & cut & l & HC & Hcut & _).
  exists d, cs, e, s, quote, rest, ts, cut, l. repeat (split; [assumption|]). intros p' ci' d' cs' en' Hci' Hd' Hmf Hr' Hcs' Hid' Hm' Hp' Ha'.
  destruct (piece_reads pton kTableConstraint cut l s cs' Hp Hcut Hcs') as (s' & Hs' & HA).
  assert (table_says pton d' en' x) as Hsays.
  { exists ks, cs', s', key. rewrite Hmf, Hm', Hp'. split; [exact Hf|]. split; [exact Hr'|]. split; [exact Hs'|]. split; [exact Hco|]. split; [exact Hkey|]. split; [exact (typed_alike _ _ _ _ HA HTs)|exact (meant_alike _ _ _ _ _ _ HA Hsx)]. }
  rewrite (C58_accepted_iff pton p' ci' en' Hp Hci'). split.
  - intros ((d'' & Hd'' & Hid'' & [Hun|Hall]) & _).
    + exfalso. assert (d'' = d') as -> by (apply (table_decl_same pton p' ci' Hci'); unfold table_id in Hid''; congruence). exact (restricted_not _ _ _ Hun Hr').
    + assert (d'' = d') as -> by (apply (table_decl_same pton p' ci' Hci'); unfold table_id in Hid''; congruence). exact (proj1 (C58_one_answer pton p' ci' Hp Hci') d' en' x true Hd' Hsays Hall).
  - intros ->. split; [exists d'; split; [exact Hd'|]; split; [unfold table_id; congruence|right; exact Hsays]|]. unfold direct, actions_of. rewrite Ha'. split; [exact I|intros a []].
Qed.
Print Assumptions C103_reproduced.
(** The same for the arguments of an action. *)
Theorem C103_reproduced_action : forall pton p ci entry (x : bool) u, pton_ok pton -> P4ToConstraintInfo pton p = Ok ci -> sane_widths p -> legible pton p ->
  ReasonEntryViolatesConstraint entry ci = Ok ("All actions must " ++ (if x then "not " else "") ++ "satisfy:" ++ u) ->
  exists a d cs e s quote rest ts cut l, In a (actions_of entry) /\ In d (p4_actions p) /\ pr_id (pad_preamble d) = pa_id a /\ restricted kActionConstraint (pad_preamble d) cs /\ ParseConstraint pton kActionConstraint cs = Ok e /\ sub s e /\
    QuoteSubConstraint cs (e_start s) (e_end s) = Ok quote /\ u = nl ++ nl ++ quote ++ rest /\ Cut cs ts cut l /\ ParseConstraint pton kActionConstraint (mkCSource cut l) = Ok s /\
    forall p' ci' t' d' cs' entry' a', P4ToConstraintInfo pton p' = Ok ci' -> In t' (p4_tables p') -> unrestricted kTableConstraint (pt_preamble t') -> In d' (p4_actions p') -> pad_params d' = pad_params d ->
      restricted kActionConstraint (pad_preamble d') cs' -> cs_string cs' = cut -> pe_table_id entry' = pr_id (pt_preamble t') -> pe_action entry' = Some (TAction a') -> pa_id a' = pr_id (pad_preamble d') -> pa_params a' = pa_params a ->
      (ReasonEntryViolatesConstraint entry' ci' = Ok "" <-> x = true).
Proof.
  intros pton p ci en x u Hp Hci Hs Hl He. set (text := "All actions must " ++ (if x then "not " else "") ++ "satisfy:" ++ u) in *.
  destruct (C71_outcome pton p ci en Hp Hci Hs Hl) as (v & Ho & Hr). rewrite He in Hr. destruct v as [text'|c]; [|destruct Hr as [m Hm]; discriminate]. cbn [reports] in Hr. injection Hr as <-.
  inversion Ho as [|d v Hd Hi Ht Hne|d|d l v Hd Hi Ht Hli Hac]; subst.
  { exfalso. inversion Ht as [| | |ks cs e key v Hf Hr Hra Hty Hco Hkey HJ]; subst. inversion HJ as [|s y text0 Hh Hx Hsx Hrep| |]; subst. destruct Hrep as (q & l & _ & _ & _ & E). discriminate E. }
  assert (exists a d, In a l /\ In d (p4_actions p) /\ pr_id (pad_preamble d) = pa_id a /\ action_outcome pton d a (Says text)) as (a & dd & Hal & Hdd & Hidd & Hout).
  { clear - Hac. remember (Says text) as v0 eqn:Ev. induction Hac as [|a l Hu|d a l v Hd Hi Ha Hne|d a l v Hd Hi Ha Hl' IH]; subst; try discriminate.
    - exists a, d. split; [now left|auto].
    - destruct (IH eq_refl) as (a' & d' & H1 & H2). exists a', d'. split; [now right|exact H2]. }
  assert (In a (actions_of en)) as Han. { clear - Hli Hal. unfold action_list in Hli. unfold actions_of. destruct (pe_action en) as [[]|]; try discriminate Hli; injection Hli as <-; exact Hal. }
  inversion Hout as [| | |ps cs e param v Hf Hr Hra Hty Hacc Hpa HJ]; subst. inversion HJ as [|s y text0 Hh Hx Hsx Hrep| |]; subst.
  destruct Hrep as (quote & fields & Hq & _ & _ & E). unfold text, told in E.
  assert (y = x /\ exists rest, u = nl ++ nl ++ quote ++ rest) as [-> [rest Eu]].
  { clear - E. rewrite !sapp_assoc in E. cbn [append] in E. destruct x, y; cbn [append] in E; try discriminate E; injection E as ->; (split; [reflexivity|]); eexists; reflexivity. }
  pose proof (explained_sub _ _ _ Hx) as Hsub. pose proof (explained_typed _ _ _ _ Hx Hty) as HTs. pose proof (proj2 (text_iff pton Hp _ _ _) Hra) as HP. destruct (C103_part pton kActionConstraint cs e s Hp HP Hsub) as (ts & cut & lc & HC & Hcut & _).
  exists a, dd, cs, e, s, quote, rest, ts, cut, lc. repeat (split; [assumption|]). intros p' ci' t' d' cs' en' a' Hci' Ht' Hun' Hd' Hpar Hr' Hcs' Hid' Ha' Hida' Hpa'.
  destruct (piece_reads pton kActionConstraint cut lc s cs' Hp Hcut Hcs') as (s' & Hs' & HA).
  assert (action_says pton d' a' x) as Hsays.
  { exists ps, cs', s', param. rewrite Hpar, Hpa'. split; [exact Hf|]. split; [exact Hr'|]. split; [exact Hs'|]. split; [exact Hacc|]. split; [exact Hpa|]. split; [exact (typed_alike _ _ _ _ HA HTs)|exact (meant_alike _ _ _ _ _ _ HA Hsx)]. }
  rewrite (C58_accepted_iff pton p' ci' en' Hp Hci'). unfold actions_of. rewrite Ha'. split.
  - intros (_ & _ & Hall). destruct (Hall a' (or_introl eq_refl)) as (d'' & Hd'' & Hid'' & Hal'). assert (d'' = d') as -> by (apply (action_decl_same pton p' ci' Hci'); unfold action_id in Hid''; congruence). destruct Hal' as [Hun|Hsay].
    + destruct (restricted_not _ _ _ Hun Hr').
    + exact (proj2 (C58_one_answer pton p' ci' Hp Hci') d' a' x true Hd' Hsays Hsay).
  - intros ->. split; [exists t'; split; [exact Ht'|]; split; [unfold table_id; congruence|left; exact Hun']|]. split; [unfold direct; now rewrite Ha'|]. intros a0 [<-|[]]. exists d'. split; [exact Hd'|]. split; [unfold action_id; congruence|right; exact Hsays].
Qed.
Print Assumptions C103_reproduced_action.
(** The constraint [e != 0 && (...)] is violated because [e] is zero; the constraint [e != 0] alone is violated as well. *)
Definition cut_entry : p4_entry := mkEntry 3 [mkFM 1 (FMExact "")] None 5.
Definition cut_info : p4info := mkP4Info [mkP4Table (mkPre 3 "cut" [restriction "entry" ["e != 0"]]) (pt_match_fields demo_decl)] [].
Definition cut_ci : constraint_info := Eval vm_compute in the (mkInfo [] []) (P4ToConstraintInfo pton1 cut_info).
Example C103_reproduced_case : P4ToConstraintInfo pton1 demo_info = Ok demo_ci /\ sane_widths demo_info /\ legible pton1 demo_info /\
  (exists u, ReasonEntryViolatesConstraint cut_entry demo_ci = Ok ("All entries must " ++ "" ++ "satisfy:" ++ u)) /\
  (exists before after, demo_source = before ++ "e != 0" ++ after) /\ P4ToConstraintInfo pton1 cut_info = Ok cut_ci /\
  (exists u, ReasonEntryViolatesConstraint cut_entry cut_ci = Ok ("All entries must satisfy:" ++ u)).
Proof.
  destruct C64_case as (Hs & Ho & Hci & _). split; [exact Hci|]. split; [exact Hs|]. split; [exact (C71_one_line pton1 demo_info pton1_ok Ho)|]. split; [eexists; vm_compute; reflexivity|].
  split; [exists "", " && (t::mask == 0 || ::priority > 3)"; reflexivity|]. split; [vm_compute; reflexivity|]. eexists. vm_compute. reflexivity.
Qed.
