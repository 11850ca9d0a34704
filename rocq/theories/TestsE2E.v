(** Conformance of the model: the repository's own golden and end-to-end tests,
    evaluated in the model. These are tests of the model, not proofs of
    properties. Sources: backend/interpreter_golden_test_runner.{cc,expected},
    e2e_tests/{in,}valid_constraints.{p4,expected.output}, e2e_tests/table_entries. *)
From Coq Require Import String Ascii List ZArith NArith Bool.
From Verif Require Import Base Num Token Ast Quote Lexer AstConstructors Parser Info TypeChecker
  ConstraintInfo Interpreter Cli.
Import ListNotations.
Open Scope string_scope.

(** inet_pton for the addresses that occur in the tests. *)
Definition test_pton : inet_pton6 := fun s =>
  if String.eqb s "::" then Some (repeat_char 16 NUL)
  else if String.eqb s "::1" then Some (repeat_char 15 NUL ++ str1 (ascii_of_N 1))
  else None.
Definition result_is (o : outcome string) (s : string) : bool :=
  match o with Ok r => String.eqb r s | _ => false end.
Definition error_is {A} (o : outcome A) (s : string) : bool :=
  match o with Err InvalidArgument m => String.eqb m s | _ => false end.

(** interpreter_golden_test_runner.cc, MakeConstraintInfo. *)
Definition golden_table (text : string) (l : loc) : outcome table_info :=
  let k1 := mkKey 1 "exact32" (TExact 32) in
  let k2 := mkKey 2 "ternary32" (TTernary 32) in
  let src := mkCSource text l in
  let t := mkTable 1 "golden_table" None (if String.eqb text "" then default_csource else src)
    [(1%N, k1); (2%N, k2)]
    [("exact32", k1); ("ternary32", k2); ("lpm32", mkKey 3 "lpm32" (TLpm 32));
     ("range32", mkKey 4 "range32" (TRange 32)); ("optional32", mkKey 5 "optional32" (TOptional 32))] in
  if String.eqb text "" then Ok t else
  let* e := ParseConstraint test_pton kTableConstraint src in
  let* e := InferTable e t in
  Ok (mkTable 1 "golden_table" (Some e) src (ti_keys_by_id t) (ti_keys_by_name t)).
Definition golden_action (a : action_info) (text : string) (l : loc) : outcome action_info :=
  let src := mkCSource text l in
  let* e := ParseConstraint test_pton kActionConstraint src in
  let* e := InferAction e (mkAction (ai_id a) (ai_name a) None src (ai_params_by_id a) (ai_params_by_name a)) in
  Ok (mkAction (ai_id a) (ai_name a) (Some e) src (ai_params_by_id a) (ai_params_by_name a)).
Definition multicast_action : action_info :=
  let p1 := mkKey 1 "multicast_group_id" (TBit 32) in
  let p2 := mkKey 2 "dummy_var" (TBit 32) in
  mkAction 1 "multicast_group_id" None default_csource [(1%N, p1); (2%N, p2)]
    [("multicast_group_id", p1); ("dummy_var", p2)].
Definition vlan_action : action_info :=
  let p1 := mkKey 1 "vlan_id" (TBit 32) in
  mkAction 2 "vlan_id" None default_csource [(1%N, p1)] [("vlan_id", p1)].
Fixpoint golden_actions (cs : list (N * string)) (l : loc) : outcome (list (N * action_info)) :=
  match cs with
  | [] => Ok []
  | (i, text) :: cs' =>
      let* a := golden_action (if N.eqb i 1 then multicast_action else vlan_action) text l in
      let* r := golden_actions cs' l in
      Ok ((i, a) :: r)
  end.
Definition golden (table : string) (actions : list (N * string)) (s : source) (e : p4_entry) : outcome string :=
  let l := mkLoc 0 0 s in
  let* t := golden_table table l in
  let* a := golden_actions actions l in
  ReasonEntryViolatesConstraint e (mkInfo a [(1%N, t)]).
Definition ex (v : string) := mkFM 1 (FMExact v).
Definition tern (v m : string) := mkFM 2 (FMTernary v m).
Definition c1 (n : N) : string := str1 (ascii_of_N n).
Definition gf := SrcFile "golden_test.p4".
Definition gt := SrcTable "golden_table".
Definition ga := SrcAction "golden_action".

Example golden_1 :
  result_is (golden ("true;") [(1%N, ("multicast_group_id != 0"))] gf (mkEntry 1 [ex (c1 10)] (Some (TAction (mkP4Action 1 [(1%N, c1 0)]))) 0))
    ("All actions must satisfy:

golden_test.p4:1:1-23:
1 | multicast_group_id != 0
  | ^^^^^^^^^^^^^^^^^^^^^^^

But your entry does not.
>>>Relevant Action Info<<<
Action Name: ""multicast_group_id""
Param name: ""multicast_group_id"" -> Value: 0
") = true.
Proof. vm_compute. reflexivity. Qed.

Example golden_2 :
  result_is (golden ("") [(1%N, ("multicast_group_id != 0"))] ga (mkEntry 1 [] (Some (TAction (mkP4Action 1 [(1%N, c1 0)]))) 0))
    ("All actions must satisfy:

In @action_restriction of action 'golden_action'; at offset line 1, columns 1 to 23:
1 | multicast_group_id != 0
  | ^^^^^^^^^^^^^^^^^^^^^^^

But your entry does not.
>>>Relevant Action Info<<<
Action Name: ""multicast_group_id""
Param name: ""multicast_group_id"" -> Value: 0
") = true.
Proof. vm_compute. reflexivity. Qed.

Example golden_3 :
  result_is (golden ("") [(1%N, ("multicast_group_id != 0"))] ga (mkEntry 1 [] (Some (TAction (mkP4Action 1 [(1%N, c1 6)]))) 0))
    ("") = true.
Proof. vm_compute. reflexivity. Qed.

Example golden_4 :
  result_is (golden ("") [(1%N, ("multicast_group_id != dummy_var"))] ga (mkEntry 1 [] (Some (TAction (mkP4Action 1 [(1%N, c1 6); (2%N, c1 0)]))) 0))
    ("") = true.
Proof. vm_compute. reflexivity. Qed.

Example golden_5 :
  result_is (golden ("") [(1%N, ("multicast_group_id != 0")); (2%N, ("vlan_id != 0"))] ga (mkEntry 1 [] (Some (TActionSet [mkP4Action 1 [(1%N, c1 6)]; mkP4Action 2 [(1%N, c1 6)]])) 0))
    ("") = true.
Proof. vm_compute. reflexivity. Qed.

Example golden_6 :
  result_is (golden ("") [(1%N, ("multicast_group_id != 0")); (2%N, ("vlan_id != 0"))] ga (mkEntry 1 [] (Some (TActionSet [mkP4Action 1 [(1%N, c1 6)]; mkP4Action 2 [(1%N, c1 0)]])) 0))
    ("All actions must satisfy:

In @action_restriction of action 'golden_action'; at offset line 1, columns 1 to 12:
1 | vlan_id != 0
  | ^^^^^^^^^^^^

But your entry does not.
>>>Relevant Action Info<<<
Action Name: ""vlan_id""
Param name: ""vlan_id"" -> Value: 0
") = true.
Proof. vm_compute. reflexivity. Qed.

Example golden_7 :
  result_is (golden ("true;") [] gt (mkEntry 1 [ex (c1 10)] None 0))
    ("") = true.
Proof. vm_compute. reflexivity. Qed.

Example golden_8 :
  result_is (golden ("exact32::value != 10 || exact32::value == 10;") [] gt (mkEntry 1 [ex (c1 10)] None 0))
    ("") = true.
Proof. vm_compute. reflexivity. Qed.

Example golden_9 :
  result_is (golden ("exact32::value > 6 && exact32::value < 5;") [] gt (mkEntry 1 [ex (c1 10); tern (c1 10) (c1 64)] None 0))
    ("All entries must satisfy:

In @entry_restriction of table 'golden_table'; at offset line 1, columns 23 to 40:
1 | exact32::value > 6 && exact32::value < 5;
  |                       ^^^^^^^^^^^^^^^^^^

But your entry does not.
>>>Relevant Entry Info<<<
Table Name: ""golden_table""
Priority:0
Field: ""exact32"" -> Value: Exact{.value = 10}
") = true.
Proof. vm_compute. reflexivity. Qed.

Example golden_10 :
  result_is (golden ("exact32::value > 5;
exact32::value < 20;
exact32::value == 14;") [] gt (mkEntry 1 [ex (c1 10)] None 0))
    ("All entries must satisfy:

In @entry_restriction of table 'golden_table'; at offset line 3, columns 1 to 20:
  | exact32::value < 20;
3 | exact32::value == 14;
  | ^^^^^^^^^^^^^^^^^^^^

But your entry does not.
>>>Relevant Entry Info<<<
Table Name: ""golden_table""
Priority:0
Field: ""exact32"" -> Value: Exact{.value = 10}
") = true.
Proof. vm_compute. reflexivity. Qed.

Example golden_11 :
  result_is (golden ("exact32::value > 0;
exact32::value > 7 || exact32::value == 5;
exact32::value == 9;") [] gf (mkEntry 1 [ex (c1 10)] None 0))
    ("All entries must satisfy:

golden_test.p4:3:1-19:
  | exact32::value > 7 || exact32::value == 5;
3 | exact32::value == 9;
  | ^^^^^^^^^^^^^^^^^^^

But your entry does not.
>>>Relevant Entry Info<<<
Table Name: ""golden_table""
Priority:0
Field: ""exact32"" -> Value: Exact{.value = 10}
") = true.
Proof. vm_compute. reflexivity. Qed.

Example golden_12 :
  result_is (golden ("exact32::value > 0;
exact32::value < 42;
exact32::value < 20 -> exact32::value == 14;") [] gf (mkEntry 1 [ex (c1 10)] None 0))
    ("All entries must satisfy:

golden_test.p4:3:1-43:
  | exact32::value < 42;
3 | exact32::value < 20 -> exact32::value == 14;
  | ^^^^^^^^^^^^^^^^^^^^^^^^^^^^^^^^^^^^^^^^^^^

But your entry does not.
>>>Relevant Entry Info<<<
Table Name: ""golden_table""
Priority:0
Field: ""exact32"" -> Value: Exact{.value = 10}
") = true.
Proof. vm_compute. reflexivity. Qed.

Example golden_13 :
  result_is (golden ("exact32::value == 1 || exact32::value == 2;
!(exact32::value == 10 -> exact32::value == 10);
exact32::value == 3 || exact32::value == 4;") [] gf (mkEntry 1 [ex (c1 10)] None 0))
    ("All entries must not satisfy:

golden_test.p4:2:27-46:
  | exact32::value == 1 || exact32::value == 2;
2 | !(exact32::value == 10 -> exact32::value == 10);
  |                           ^^^^^^^^^^^^^^^^^^^^

But your entry does.
>>>Relevant Entry Info<<<
Table Name: ""golden_table""
Priority:0
Field: ""exact32"" -> Value: Exact{.value = 10}
") = true.
Proof. vm_compute. reflexivity. Qed.

Example golden_14 :
  result_is (golden ("exact32::value == 80 || ternary32::value == 3096;
ternary32::mask == 255 && exact32::value == 3;") [] gt (mkEntry 1 [ex (c1 10); tern (c1 42) (c1 64)] None 0))
    ("All entries must satisfy:

In @entry_restriction of table 'golden_table'; at offset line 2, columns 1 to 22:
  | exact32::value == 80 || ternary32::value == 3096;
2 | ternary32::mask == 255 && exact32::value == 3;
  | ^^^^^^^^^^^^^^^^^^^^^^

But your entry does not.
>>>Relevant Entry Info<<<
Table Name: ""golden_table""
Priority:0
Field: ""ternary32"" -> Value: Ternary{.value = 42, .mask = 64}
") = true.
Proof. vm_compute. reflexivity. Qed.

Example golden_15 :
  result_is (golden ("(false || false) && (!(true -> true) && (false || false));") [] gf (mkEntry 1 [ex (c1 10)] None 0))
    ("All entries must not satisfy:

golden_test.p4:1:32-35:
1 | (false || false) && (!(true -> true) && (false || false));
  |                                ^^^^

But your entry does.
>>>Relevant Entry Info<<<
Table Name: ""golden_table""
Priority:0
") = true.
Proof. vm_compute. reflexivity. Qed.

(** e2e_tests/invalid_constraints.p4, as p4c puts it into P4Info. *)
Definition invalid_p4info : p4info := mkP4Info [
  mkP4Table (mkPre 1 "invalid_constraints.forgot_quotes"
    [("@entry_restriction(forgot)")])
    [];
  mkP4Table (mkPre 2 "invalid_constraints.forgot_quotes_with_srcloc"
    [("@file(""e2e_tests/invalid_constraints.p4"")");
     ("@line(11)");
     ("@entry_restriction(forgot)")])
    [];
  mkP4Table (mkPre 3 "invalid_constraints.empty_restriction"
    [("@entry_restriction("""")")])
    [];
  mkP4Table (mkPre 4 "invalid_constraints.empty_restriction_with_src_loc"
    [("@file(""e2e_tests/invalid_constraints.p4"")");
     ("@line(19)");
     ("@entry_restriction(""
  "")")])
    [];
  mkP4Table (mkPre 5 "invalid_constraints.unknown_key"
    [("@file(""e2e_tests/invalid_constraints.p4"")");
     ("@line(25)");
     ("@entry_restriction(""
    foo.bar.baz == 2
  "")")])
    [];
  mkP4Table (mkPre 6 "invalid_constraints.unknown_key_no_srcloc"
    [("@entry_restriction(""foo.bar.baz == 2"")")])
    [];
  mkP4Table (mkPre 7 "invalid_constraints.bad_binary_numeral"
    [("@file(""e2e_tests/invalid_constraints.p4"")");
     ("@line(36)");
     ("@entry_restriction(""
    foo.bar.baz == 0b2
  "")")])
    [];
  mkP4Table (mkPre 8 "invalid_constraints.bad_binary_numeral_no_srcloc"
    [("@entry_restriction(""foo.bar.baz == 0b2"")")])
    [];
  mkP4Table (mkPre 9 "invalid_constraints.multiline_comment"
    [("@file(""e2e_tests/invalid_constraints.p4"")");
     ("@line(47)");
     ("@entry_restriction(""
    /* This is to demonstrate that the lexer correctly updates the source
       location when scanning through multi-line comments such as this one */
    /**************************************************************************/
    error here
  "")")])
    [];
  mkP4Table (mkPre 10 "invalid_constraints.unknown_field"
    [("@file(""e2e_tests/invalid_constraints.p4"")");
     ("@line(58)");
     ("@entry_restriction(""
    ternary_key::prefix_length
  "")")])
    [mkMF 1 "ternary_key" 32 (MMatchType MTTernary)];
  mkP4Table (mkPre 11 "invalid_constraints.scalar_has_no_field"
    [("@file(""e2e_tests/invalid_constraints.p4"")");
     ("@line(68)");
     ("@entry_restriction(""
    0x0F0F :: value
  "")")])
    [];
  mkP4Table (mkPre 12 "invalid_constraints.arithmetic_negation_of_boolean"
    [("@file(""e2e_tests/invalid_constraints.p4"")");
     ("@line(75)");
     ("@entry_restriction(""
    -0x0F0F == -0o01234567 -> !false && -false
  "")")])
    [];
  mkP4Table (mkPre 13 "invalid_constraints.boolean_negation_of_integer"
    [("@file(""e2e_tests/invalid_constraints.p4"")");
     ("@line(82)");
     ("@entry_restriction(""
    !false -> -8 == -0b1000 || !1
  "")")])
    [];
  mkP4Table (mkPre 14 "invalid_constraints.optional_does_not_support_ordered_comparison"
    [("@file(""e2e_tests/invalid_constraints.p4"")");
     ("@line(90)");
     ("@entry_restriction(""
    optional_key > 10;
  "")")])
    [mkMF 1 "optional_key" 32 (MMatchType MTOptional)];
  mkP4Table (mkPre 15 "invalid_constraints.unknown_metadata"
    [("@file(""e2e_tests/invalid_constraints.p4"")");
     ("@line(100)");
     ("@entry_restriction(""
    ::unknown > 10;
  "")")])
    [];
  mkP4Table (mkPre 16 "invalid_constraints.invalid_vrf_classifier_table_with_multiline_strings"
    [("@file(""e2e_tests/invalid_constraints.p4"")");
     ("@line(107)");
     ("@entry_restriction(""headers.ipv4.dst_addr::mask == 0 || headers.ipv4.dst_addr::mask == -1;"" ""headers.ipv4.dst_addr::mask != 0 ->     "" ""  headers.ethernet.ether_type == 0x0800;"" ""headers.ipv6.dst_addr::mask != 0 ->
      headers.ethernet.ether_type == 0x86DD;"" ""::unknown > 10;"" ""local_metadata.dscp::mask != 0 -> (
      headers.ethernet.ether_type == 0x0800 ||
      headers.ethernet.ether_type == 0x86DD ||
      local_metadata.is_ip_packet == 1
    );
  "")")])
    [mkMF 1 "headers.ethernet.ether_type" 16 (MMatchType MTTernary); mkMF 2 "headers.ipv4.dst_addr" 32 (MMatchType MTTernary); mkMF 3 "headers.ipv6.dst_addr" 128 (MMatchType MTTernary); mkMF 4 "local_metadata.dscp" 6 (MMatchType MTTernary); mkMF 5 "local_metadata.is_ip_packet" 1 (MMatchType MTTernary)];
  mkP4Table (mkPre 17 "invalid_constraints.invalid_vrf_classifier_table_without_multiline_strings"
    [("@file(""e2e_tests/invalid_constraints.p4"")");
     ("@line(143)");
     ("@entry_restriction(""
    // Either wildcard or exact match (i.e., 'optional' match).
    headers.ipv4.dst_addr::mask == 0 || headers.ipv4.dst_addr::mask == -1;

    // Only match on IPv4 addresses of IPv4 packets.
    headers.ipv4.dst_addr::mask != 0 ->
      headers.ethernet.ether_type == 0x0800;

    // Only match on IPv6 addresses of IPv6 packets.
    headers.ipv6.dst_addr::mask != 0 ->
      headers.ethernet.ether_type == 0x86DD;

    // An invalid constraint to ensure error messages are sensible.
    ::unknown > 10;

    // More valid stuff.
    local_metadata.dscp::mask != 0 -> (
      headers.ethernet.ether_type == 0x0800 ||
      headers.ethernet.ether_type == 0x86DD ||
      local_metadata.is_ip_packet == 1
    );
  "")")])
    [mkMF 1 "headers.ethernet.ether_type" 16 (MMatchType MTTernary); mkMF 2 "headers.ipv4.dst_addr" 32 (MMatchType MTTernary); mkMF 3 "headers.ipv6.dst_addr" 128 (MMatchType MTTernary); mkMF 4 "local_metadata.dscp" 6 (MMatchType MTTernary); mkMF 5 "local_metadata.is_ip_packet" 1 (MMatchType MTTernary)]] [].
Example e2e_invalid :
  error_is (P4ToConstraintInfo test_pton (coerce_p4info invalid_p4info))
    ("P4Info to constraint info translation failed with the following errors:
- In table invalid_constraints.forgot_quotes:
Syntax error: @entry_restriction must be enclosed in '(""' and '"")'

- In table invalid_constraints.forgot_quotes_with_srcloc:
Syntax error: @entry_restriction must be enclosed in '(""' and '"")'

- In @entry_restriction of table 'invalid_constraints.empty_restriction'; at offset line 1, column 1:
Parse error: unexpected token: <END_OF_INPUT>. Expected true, false, <BINARY>, <OCTARY>, <DECIMAL>, <HEXADEC>, <ID>, ::, !, -, or (.

- e2e_tests/invalid_constraints.p4:21:3:
Parse error: unexpected token: <END_OF_INPUT>. Expected true, false, <BINARY>, <OCTARY>, <DECIMAL>, <HEXADEC>, <ID>, ::, !, -, or (.

- e2e_tests/invalid_constraints.p4:27:5-15:
   | 
27 |     foo.bar.baz == 2
   |     ^^^^^^^^^^^
Type error: unknown key foo.bar.baz

- In @entry_restriction of table 'invalid_constraints.unknown_key_no_srcloc'; at offset line 1, columns 1 to 11:
1 | foo.bar.baz == 2
  | ^^^^^^^^^^^
Type error: unknown key foo.bar.baz

- e2e_tests/invalid_constraints.p4:38:21-22:
   | 
38 |     foo.bar.baz == 0b2
   |                     ^^
Parse error: unexpected token: <ID>. Expected <END_OF_INPUT>, ), ::, &&, ;, ||, ->, ==, !=, >, >=, <, or <=.

- In @entry_restriction of table 'invalid_constraints.bad_binary_numeral_no_srcloc'; at offset line 1, columns 17 to 18:
1 | foo.bar.baz == 0b2
  |                 ^^
Parse error: unexpected token: <ID>. Expected <END_OF_INPUT>, ), ::, &&, ;, ||, ->, ==, !=, >, >=, <, or <=.

- e2e_tests/invalid_constraints.p4:52:11-14:
   |     /**************************************************************************/
52 |     error here
   |           ^^^^
Parse error: unexpected token: <ID>. Expected <END_OF_INPUT>, ), ::, &&, ;, ||, ->, ==, !=, >, >=, <, or <=.

- e2e_tests/invalid_constraints.p4:60:5-30:
   | 
60 |     ternary_key::prefix_length
   |     ^^^^^^^^^^^^^^^^^^^^^^^^^^
Type error: expression of type ternary<32> has no field 'prefix_length'

- e2e_tests/invalid_constraints.p4:70:5-19:
   | 
70 |     0x0F0F :: value
   |     ^^^^^^^^^^^^^^^
Type error: expression of type int has no field 'value'

- e2e_tests/invalid_constraints.p4:77:42-46:
   | 
77 |     -0x0F0F == -0o01234567 -> !false && -false
   |                                          ^^^^^
Type error: expected type int, got bool

- e2e_tests/invalid_constraints.p4:84:33:
   | 
84 |     !false -> -8 == -0b1000 || !1
   |                                 ^
Type error: expected type bool, got int

- e2e_tests/invalid_constraints.p4:92:5-21:
   | 
92 |     optional_key > 10;
   |     ^^^^^^^^^^^^^^^^^
Type error: operand type optional<32> does not support ordered comparison

- e2e_tests/invalid_constraints.p4:102:5-13:
    | 
102 |     ::unknown > 10;
    |     ^^^^^^^^^
Type error: unknown attribute 'unknown'

- e2e_tests/invalid_constraints.p4:113:1-9:
    |       headers.ethernet.ether_type == 0x86DD;
113 | ::unknown > 10;
    | ^^^^^^^^^
Type error: unknown attribute 'unknown'

- e2e_tests/invalid_constraints.p4:157:5-13:
    |     // An invalid constraint to ensure error messages are sensible.
157 |     ::unknown > 10;
    |     ^^^^^^^^^
Type error: unknown attribute 'unknown'
") = true.
Proof. vm_compute. reflexivity. Qed.

(** e2e_tests/valid_constraints.p4. *)
Definition valid_p4info : p4info := mkP4Info [
  mkP4Table (mkPre 1 "valid_constraints.accept_all_entries"
    [("@file(""e2e_tests/valid_constraints.p4"")");
     ("@line(7)");
     ("@entry_restriction(""true"")")])
    [];
  mkP4Table (mkPre 2 "valid_constraints.reject_all_entries"
    [("@file(""e2e_tests/valid_constraints.p4"")");
     ("@line(13)");
     ("@entry_restriction(""false"")")])
    [];
  mkP4Table (mkPre 3 "valid_constraints.vrf_classifier_table"
    [("@file(""e2e_tests/valid_constraints.p4"")");
     ("@line(19)");
     ("@entry_restriction(""
    // Either wildcard or exact match (i.e., 'optional' match).
    hdr.ipv4.dst_addr::mask == 0 || hdr.ipv4.dst_addr::mask == -1;

    // Only match on IPv4 addresses of IPv4 packets.
    hdr.ipv4.dst_addr::mask != 0 ->
      hdr.ethernet.ether_type == 0x0800;

    // Only match on IPv6 addresses of IPv6 packets.
    hdr.ipv6.dst_addr::mask != 0 ->
      hdr.ethernet.ether_type == 0x86DD;

    local_metadata.dscp::mask != 0 -> (
      hdr.ethernet.ether_type == 0x0800 ||
      hdr.ethernet.ether_type == 0x86DD ||
      local_metadata.is_ip_packet == 1
    );
  "")")])
    [mkMF 1 "hdr.ethernet.ether_type" 16 (MMatchType MTTernary); mkMF 2 "hdr.ethernet.src_addr" 48 (MMatchType MTTernary); mkMF 3 "hdr.ipv4.dst_addr" 32 (MMatchType MTTernary); mkMF 4 "standard_metadata.ingress_port" 9 (MMatchType MTTernary); mkMF 5 "hdr.ipv6.dst_addr" 128 (MMatchType MTTernary); mkMF 6 "hdr.ipv4.src_addr" 32 (MMatchType MTOptional); mkMF 7 "local_metadata.dscp" 6 (MMatchType MTTernary); mkMF 8 "local_metadata.is_ip_packet" 1 (MMatchType MTTernary)];
  mkP4Table (mkPre 6 "valid_constraints.vrf_classifier_table_with_multiline_strings"
    [("@file(""e2e_tests/valid_constraints.p4"")");
     ("@line(55)");
     ("@entry_restriction(""hdr.ipv4.dst_addr::mask == 0 || hdr.ipv4.dst_addr::mask == -1;"" ""hdr.ipv4.dst_addr::mask != 0 ->     "" ""  hdr.ethernet.ether_type == 0x0800;"" ""hdr.ipv6.dst_addr::mask != 0 ->
      hdr.ethernet.ether_type == 0x86DD;

    local_metadata.dscp::mask != 0 -> (
      hdr.ethernet.ether_type == 0x0800 ||
      hdr.ethernet.ether_type == 0x86DD ||
      local_metadata.is_ip_packet == 1
    );
  "")")])
    [mkMF 1 "hdr.ethernet.ether_type" 16 (MMatchType MTTernary); mkMF 2 "hdr.ethernet.src_addr" 48 (MMatchType MTTernary); mkMF 3 "hdr.ipv4.dst_addr" 32 (MMatchType MTTernary); mkMF 4 "standard_metadata.ingress_port" 9 (MMatchType MTTernary); mkMF 5 "hdr.ipv6.dst_addr" 128 (MMatchType MTTernary); mkMF 6 "hdr.ipv4.src_addr" 32 (MMatchType MTOptional); mkMF 7 "local_metadata.dscp" 6 (MMatchType MTTernary); mkMF 8 "local_metadata.is_ip_packet" 1 (MMatchType MTTernary)];
  mkP4Table (mkPre 4 "valid_constraints.optional_match_table"
    [("@file(""e2e_tests/valid_constraints.p4"")");
     ("@line(92)");
     ("@entry_restriction(""
    // Vacuously true, just to test syntax and implicit conversions.
    hdr.ipv4.dst_addr::mask == 0 || hdr.ipv4.dst_addr::mask == -1;
    hdr.ipv4.dst_addr::value == 10 || hdr.ipv4.dst_addr::value != 10;
    // Same as above, but using implicit conversion.
    hdr.ipv4.dst_addr == 10 || hdr.ipv4.dst_addr != 10;
    // A real constraint: only wildcard match is okay.
    hdr.ipv4.dst_addr::mask == 0;
    // A constraint on metadata.
    ::priority < 0x7fffffff;
  "")")])
    [mkMF 1 "hdr.ipv4.dst_addr" 32 (MMatchType MTOptional)];
  mkP4Table (mkPre 5 "valid_constraints.network_address_table"
    [("@entry_restriction(""
    hdr.ethernet.dst_addr::value < mac('00:00:00:00:00:05');
    hdr.ipv4.dst_addr == ipv4('0.0.0.255');
    hdr.ipv6.dst_addr::value > ipv6('::');
  "")")])
    [mkMF 1 "hdr.ethernet.dst_addr" 48 (MMatchType MTExact); mkMF 2 "hdr.ipv4.dst_addr" 32 (MMatchType MTExact); mkMF 3 "hdr.ipv6.dst_addr" 128 (MMatchType MTExact)]] [].
Definition valid_entries : list (string * file p4_entry) := [
  ("e2e_tests/table_entries/accept_all_entries_1.pb.txt", FileOk (mkEntry 1 [] None 0));
  ("e2e_tests/table_entries/acl_table_1.pb.txt", FileOk (mkEntry 3 [mkFM 3 (FMTernary "123" "123")] None 0));
  ("e2e_tests/table_entries/network_address_table_invalid_ipv4.pb.txt", FileOk (mkEntry 5 [mkFM 1 (FMExact (c1 4)); mkFM 2 (FMExact (c1 254)); mkFM 3 (FMExact (c1 1))] None 0));
  ("e2e_tests/table_entries/network_address_table_invalid_ipv6.pb.txt", FileOk (mkEntry 5 [mkFM 1 (FMExact (c1 4)); mkFM 2 (FMExact (c1 255)); mkFM 3 (FMExact (c1 0))] None 0));
  ("e2e_tests/table_entries/network_address_table_invalid_mac.pb.txt", FileOk (mkEntry 5 [mkFM 1 (FMExact (c1 6)); mkFM 2 (FMExact (c1 255)); mkFM 3 (FMExact (c1 1))] None 0));
  ("e2e_tests/table_entries/network_address_table_valid.pb.txt", FileOk (mkEntry 5 [mkFM 1 (FMExact (c1 4)); mkFM 2 (FMExact (c1 255)); mkFM 3 (FMExact (c1 1))] None 0));
  ("e2e_tests/table_entries/optional_match_table_invalid_1.pb.txt", FileOk (mkEntry 4 [mkFM 1 (FMOptional "123")] None 0));
  ("e2e_tests/table_entries/optional_match_table_valid_1.pb.txt", FileOk (mkEntry 4 [] None 0));
  ("e2e_tests/table_entries/optional_match_table_valid_max_priority.pb.txt", FileOk (mkEntry 4 [] None 2147483647));
  ("e2e_tests/table_entries/reject_all_entries_1.pb.txt", FileOk (mkEntry 2 [] None 0));
  ("e2e_tests/table_entries/unknown_table_entry.pb.txt", FileOk (mkEntry 0 [] None 0))].
Example e2e_valid :
  match p4check test_pton "p4info" (FileOk valid_p4info) valid_entries with
  | Ok r => Z.eqb (r_exit r) 0 && String.eqb (r_stdout r)
    ("### P4Constraints Table Entry Test #######################
=== Input Table Entry File ===
e2e_tests/table_entries/accept_all_entries_1.pb.txt
=== Output ===
Constraint satisfied

### P4Constraints Table Entry Test #######################
=== Input Table Entry File ===
e2e_tests/table_entries/acl_table_1.pb.txt
=== Output ===
All entries must satisfy:

e2e_tests/valid_constraints.p4:22:5-65:
   |     // Either wildcard or exact match (i.e., 'optional' match).
22 |     hdr.ipv4.dst_addr::mask == 0 || hdr.ipv4.dst_addr::mask == -1;
   |     ^^^^^^^^^^^^^^^^^^^^^^^^^^^^^^^^^^^^^^^^^^^^^^^^^^^^^^^^^^^^^

But your entry does not.
>>>Relevant Entry Info<<<
Table Name: ""valid_constraints.vrf_classifier_table""
Priority:0
Field: ""hdr.ipv4.dst_addr"" -> Value: Ternary{.value = 3224115, .mask = 3224115}

### P4Constraints Table Entry Test #######################
=== Input Table Entry File ===
e2e_tests/table_entries/network_address_table_invalid_ipv4.pb.txt
=== Output ===
All entries must satisfy:

In @entry_restriction of table 'valid_constraints.network_address_table'; at offset line 3, columns 5 to 42:
  |     hdr.ethernet.dst_addr::value < mac('00:00:00:00:00:05');
3 |     hdr.ipv4.dst_addr == ipv4('0.0.0.255');
  |     ^^^^^^^^^^^^^^^^^^^^^^^^^^^^^^^^^^^^^^

But your entry does not.
>>>Relevant Entry Info<<<
Table Name: ""valid_constraints.network_address_table""
Priority:0
Field: ""hdr.ipv4.dst_addr"" -> Value: Exact{.value = 254}

### P4Constraints Table Entry Test #######################
=== Input Table Entry File ===
e2e_tests/table_entries/network_address_table_invalid_ipv6.pb.txt
=== Output ===
All entries must satisfy:

In @entry_restriction of table 'valid_constraints.network_address_table'; at offset line 4, columns 5 to 41:
  |     hdr.ipv4.dst_addr == ipv4('0.0.0.255');
4 |     hdr.ipv6.dst_addr::value > ipv6('::');
  |     ^^^^^^^^^^^^^^^^^^^^^^^^^^^^^^^^^^^^^

But your entry does not.
>>>Relevant Entry Info<<<
Table Name: ""valid_constraints.network_address_table""
Priority:0
Field: ""hdr.ipv6.dst_addr"" -> Value: Exact{.value = 0}

### P4Constraints Table Entry Test #######################
=== Input Table Entry File ===
e2e_tests/table_entries/network_address_table_invalid_mac.pb.txt
=== Output ===
All entries must satisfy:

In @entry_restriction of table 'valid_constraints.network_address_table'; at offset line 2, columns 5 to 59:
  | 
2 |     hdr.ethernet.dst_addr::value < mac('00:00:00:00:00:05');
  |     ^^^^^^^^^^^^^^^^^^^^^^^^^^^^^^^^^^^^^^^^^^^^^^^^^^^^^^^

But your entry does not.
>>>Relevant Entry Info<<<
Table Name: ""valid_constraints.network_address_table""
Priority:0
Field: ""hdr.ethernet.dst_addr"" -> Value: Exact{.value = 6}

### P4Constraints Table Entry Test #######################
=== Input Table Entry File ===
e2e_tests/table_entries/network_address_table_valid.pb.txt
=== Output ===
Constraint satisfied

### P4Constraints Table Entry Test #######################
=== Input Table Entry File ===
e2e_tests/table_entries/optional_match_table_invalid_1.pb.txt
=== Output ===
All entries must satisfy:

e2e_tests/valid_constraints.p4:100:5-32:
    |     // A real constraint: only wildcard match is okay.
100 |     hdr.ipv4.dst_addr::mask == 0;
    |     ^^^^^^^^^^^^^^^^^^^^^^^^^^^^

But your entry does not.
>>>Relevant Entry Info<<<
Table Name: ""valid_constraints.optional_match_table""
Priority:0
Field: ""hdr.ipv4.dst_addr"" -> Value: Ternary{.value = 3224115, .mask = 4294967295}

### P4Constraints Table Entry Test #######################
=== Input Table Entry File ===
e2e_tests/table_entries/optional_match_table_valid_1.pb.txt
=== Output ===
Constraint satisfied

### P4Constraints Table Entry Test #######################
=== Input Table Entry File ===
e2e_tests/table_entries/optional_match_table_valid_max_priority.pb.txt
=== Output ===
All entries must satisfy:

e2e_tests/valid_constraints.p4:102:5-27:
    |     // A constraint on metadata.
102 |     ::priority < 0x7fffffff;
    |     ^^^^^^^^^^^^^^^^^^^^^^^

But your entry does not.
>>>Relevant Entry Info<<<
Table Name: ""valid_constraints.optional_match_table""
Priority:2147483647

### P4Constraints Table Entry Test #######################
=== Input Table Entry File ===
e2e_tests/table_entries/reject_all_entries_1.pb.txt
=== Output ===
All entries must satisfy:

e2e_tests/valid_constraints.p4:14:1-5:
14 | false
   | ^^^^^

But your entry does not.
>>>Relevant Entry Info<<<
Table Name: ""valid_constraints.reject_all_entries""
Priority:0

### P4Constraints Table Entry Test #######################
=== Input Table Entry File ===
e2e_tests/table_entries/unknown_table_entry.pb.txt
=== Output ===
Error: INVALID_ARGUMENT: table entry with unknown table ID 0 (full ID: 33554432 (0x02000000))

") && String.eqb (r_stderr r) ""
  | _ => false
  end = true.
Proof. vm_compute. reflexivity. Qed.
