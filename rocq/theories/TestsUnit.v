(** Conformance of the model: the repository's unit tests of the lexer, the
    parser, the type checker, the AST helpers and the constraint extraction
    (frontend/{token,lexer,parser}_test.cc, ast_test.cc,
    backend/{type_checker,constraint_info}_test.cc), evaluated in the model.
    These are tests of the model, not proofs of properties. *)
From Coq Require Import String Ascii List ZArith NArith Bool.
From Verif Require Import Base Num Token Ast Quote Lexer AstConstructors Parser Info TypeChecker
  ConstraintInfo Interpreter.
Import ListNotations.
Open Scope string_scope.

Definition is_ok {A} (o : outcome A) : bool := match o with Ok _ => true | _ => false end.
Definition is_invalid {A} (o : outcome A) : bool :=
  match o with Err InvalidArgument _ => true | _ => false end.
Definition is_internal {A} (o : outcome A) : bool :=
  match o with Err Internal _ => true | _ => false end.
Definition is_err {A} (o : outcome A) : bool := match o with Err _ _ => true | _ => false end.

(** * token_test.cc *)
Example token_roundtrip :
  forallb (fun k => match KeywordToKind (KindToKeyword k) with
                    | Some k' => kind_eqb k k' | None => false end) kAllKinds = true /\
  List.length kAllKinds = 26%nat.
Proof. vm_compute. auto. Qed.

(** * lexer_test.cc *)
Definition kinds (s : string) : list kind := map t_kind (Tokenize (mkCSource s default_loc)).
Fixpoint kinds_eqb (a b : list kind) : bool :=
  match a, b with
  | [], [] => true
  | x :: a', y :: b' => kind_eqb x y && kinds_eqb a' b'
  | _, _ => false
  end.
Definition lexes (t : string * list kind) : bool := kinds_eqb (kinds (fst t)) (snd t).
Definition keyword_kinds : list kind :=
  filter (fun k => negb (existsb (kind_eqb k)
    [ID; BINARY; OCTARY; DECIMAL; HEXADEC; STRING; END_OF_INPUT; UNEXPECTED_CHAR])) kAllKinds.
Example lexer_keywords :
  forallb (fun k => lexes (KindToKeyword k, [k; END_OF_INPUT])) keyword_kinds = true /\
  lexes (fold_right (fun k s => KindToKeyword k ++ " " ++ s) "" keyword_kinds,
         app keyword_kinds [END_OF_INPUT]) = true.
Proof. vm_compute. auto. Qed.

Definition one (k : kind) (l : list string) : list (string * list kind) :=
  map (fun s => (s, [k; END_OF_INPUT])) l.
Example lexer_positive : forallb lexes
  (app (one ID ["_"; "d"; "D"; "__"; "a1234567890"])
  (app (one DECIMAL ["0"; "00"; "000"; "00001"; "1234567890"; "0d0"; "0d1234567890"; "0D0"; "0D1234567890"])
  (app (one BINARY ["0b0"; "0b1"; "0b00"; "0b01"; "0b10"; "0b11"; "0B0"; "0B1"; "0B00"; "0B01"; "0B10"; "0B11"])
  (app (one OCTARY ["0o0"; "0o1"; "0o00"; "0o001"; "0o12345670"; "0O0"; "0O1"; "0O00"; "0O001"; "0O12345670"])
  (app (one HEXADEC ["0x0"; "0x1"; "0x00"; "0x001"; "0x1234567890aAbBcCdDeEfF"; "0X0"; "0X1"; "0X00";
                     "0X001"; "0X1234567890aAbBcCdDeEfF"])
  [("_._", [ID; DOT; ID; END_OF_INPUT]);
   ("_.d._01234567890.a0.b1", [ID; DOT; ID; DOT; ID; DOT; ID; DOT; ID; END_OF_INPUT]);
   ("_.3", [ID; DOT; DECIMAL; END_OF_INPUT]);
   ("0b012", [BINARY; DECIMAL; END_OF_INPUT]); ("0b01 2", [BINARY; DECIMAL; END_OF_INPUT]);
   ("0b01a", [BINARY; ID; END_OF_INPUT]); ("0b01 a", [BINARY; ID; END_OF_INPUT]);
   ("0o128", [OCTARY; DECIMAL; END_OF_INPUT]); ("0o12 8", [OCTARY; DECIMAL; END_OF_INPUT]);
   ("0o23a", [OCTARY; ID; END_OF_INPUT]); ("0o23 a", [OCTARY; ID; END_OF_INPUT]);
   ("0xfF0o", [HEXADEC; ID; END_OF_INPUT]); ("0xfF0 o", [HEXADEC; ID; END_OF_INPUT]);
   ("", [END_OF_INPUT]);
   ("0b2", [DECIMAL; ID; END_OF_INPUT]); ("0o8", [DECIMAL; ID; END_OF_INPUT]);
   ("0df", [DECIMAL; ID; END_OF_INPUT]); ("0xg", [DECIMAL; ID; END_OF_INPUT])]))))) = true.
Proof. vm_compute. reflexivity. Qed.
Example lexer_unexpected :
  forallb (fun s => match kinds s with UNEXPECTED_CHAR :: _ => true | _ => false end)
    ["@"; "#"; "$"; "%"; "^"; "&"; "*"; "+"; "="; "~"; "|"; "\"; "/"; "{"; "}"; "["; "]"; "`"] = true.
Proof. vm_compute. reflexivity. Qed.
Example lexer_negative :
  forallb (fun t => match kinds (fst t) with k :: _ => negb (kind_eqb k (snd t)) | [] => false end)
    [("True", TRUE); ("trUe", TRUE); ("ture", TRUE); ("False", FALSE); ("falsE", FALSE);
     ("FALSE", FALSE); ("fasle", FALSE); ("~", BANG); ("not", BANG); ("&", AND); ("and", AND);
     ("|", OR); ("or", OR); ("=>", IMPLIES); ("implies", IMPLIES); ("{", LPAR); ("begin", LPAR);
     ("}", RPAR); ("end", RPAR); (".", ID); ("..", ID); (".abc", ID); ("7", ID); ("+0", DECIMAL);
     ("-0", DECIMAL); ("+0b0", BINARY); ("-0b1", BINARY); ("0b2", BINARY)] = true.
Proof. vm_compute. reflexivity. Qed.
Example lexer_comments : forallb lexes
  [("// just a comment", [END_OF_INPUT]);
   ("// comment followed by token" ++ str1 LF ++ "true", [TRUE; END_OF_INPUT]);
   ("true // trailing comment" ++ str1 LF ++ " false", [TRUE; FALSE; END_OF_INPUT]);
   ("/* just a" ++ str1 LF ++ " multiline" ++ str1 LF ++ " comment */", [END_OF_INPUT]);
   ("/* comment followed by token" ++ str1 LF ++ "*/true", [TRUE; END_OF_INPUT]);
   ("true /* trailing comment */ false", [TRUE; FALSE; END_OF_INPUT])] = true.
Proof. vm_compute. reflexivity. Qed.
Definition first_text (s : string) : string :=
  match Tokenize (mkCSource s default_loc) with t :: _ => t_text t | [] => "none" end.
Example lexer_strings :
  forallb lexes
    [("''", [STRING; END_OF_INPUT]); ("'''", [STRING; UNEXPECTED_CHAR]);
     ("'192.168.2.1'", [STRING; END_OF_INPUT]);
     ("ipv4('192.168.2.1')", [ID; LPAR; STRING; RPAR; END_OF_INPUT]);
     ("ipv4(""192.168.2.1"")", [ID; LPAR; UNEXPECTED_CHAR]);
     ("ipv4(""192.168.2.1')", [ID; LPAR; UNEXPECTED_CHAR]);
     ("ipv4('192.168.2.1"")", [ID; LPAR; UNEXPECTED_CHAR])] = true /\
  first_text "''" = "" /\ first_text "'192.168.2.1'" = "192.168.2.1".
Proof. vm_compute. auto. Qed.

(** * parser_test.cc. Trees are compared up to locations and types, as the
    tests' partial comparison does. *)
Inductive tree :=
| B (b : bool) | I (s : string) | K (s : string) | P (s : string) | Not (a : tree) | Neg (a : tree)
| Cast (a : tree) | Bin (o : binop) (a b : tree) | Fld (f : string) (a : tree) | Attr (s : string) | Nil.
Fixpoint tree_of (e : expr) : tree :=
  match e with
  | EBool _ b => B b | EInt _ s => I s | EKey _ s => K s | EParam _ s => P s
  | ENot _ a => Not (tree_of a) | ENeg _ a => Neg (tree_of a) | ECast _ a => Cast (tree_of a)
  | EBin _ o a b => Bin o (tree_of a) (tree_of b) | EField _ f a => Fld f (tree_of a)
  | EAttr _ s => Attr s | ENotSet _ => Nil
  end.
Definition binop_eqb (a b : binop) : bool :=
  match a, b with
  | UNKNOWN_OPERATOR, UNKNOWN_OPERATOR | OEQ, OEQ | ONE, ONE | OGT, OGT | OGE, OGE | OLT, OLT
  | OLE, OLE | OAND, OAND | OOR, OOR | OIMPLIES, OIMPLIES => true
  | _, _ => false
  end.
Fixpoint tree_eqb (a b : tree) : bool :=
  match a, b with
  | B x, B y => Bool.eqb x y
  | I x, I y | K x, K y | P x, P y | Attr x, Attr y => String.eqb x y
  | Not x, Not y | Neg x, Neg y | Cast x, Cast y => tree_eqb x y
  | Bin o x y, Bin o' x' y' => binop_eqb o o' && tree_eqb x x' && tree_eqb y y'
  | Fld f x, Fld g y => String.eqb f g && tree_eqb x y
  | Nil, Nil => true
  | _, _ => false
  end.

(** inet_pton for the addresses of the tests. *)
Definition unit_pton : inet_pton6 := fun s =>
  let v n := Some (repeat_char 15 NUL ++ str1 (ascii_of_N n)) in
  if String.eqb s "::" then v 0%N
  else if String.eqb s "0000:0000:0000:0000:0000:0000:0000:0009" then v 9%N
  else if String.eqb s "::0000:0005" then v 5%N
  else if String.eqb s "0000:0000::0000:4" then v 4%N
  else if String.eqb s "0000:0000::" then v 0%N
  else None.
Definition T (k : kind) (s : string) : token := mkTok k s default_loc default_loc.
Definition D (k : kind) : token := T k "".
Definition dummy_source : csource := mkCSource " " default_loc.
Definition parse (ck : constraint_kind) (l : list token) : outcome expr :=
  ParseTokens unit_pton ck l dummy_source.
Definition parses_in (ck : constraint_kind) (t : list token * tree) : bool :=
  match parse ck (fst t) with Ok e => tree_eqb (tree_of e) (snd t) | _ => false end.
Definition parses := parses_in kTableConstraint.
Definition tt' := B true.
Example parser_positive : forallb parses
  [([D TRUE], B true); ([D FALSE], B false);
   ([D ID; D EQ; T BINARY "11"], Bin OEQ (K "") (I "3"));
   ([D ID; D NE; T OCTARY "11"], Bin ONE (K "") (I "9"));
   ([D ID; D GT; T DECIMAL "11"], Bin OGT (K "") (I "11"));
   ([D ID; D GE; T HEXADEC "11"], Bin OGE (K "") (I "17"));
   ([D ID; D LT; T HEXADEC "1f"], Bin OLT (K "") (I "31"));
   ([D ID; D LE; T HEXADEC "af"], Bin OLE (K "") (I "175"));
   ([D BANG; D TRUE], Not (B true)); ([D BANG; D FALSE], Not (B false));
   ([D BANG; D LPAR; D ID; D EQ; T DECIMAL "000123"; D RPAR], Not (Bin OEQ (K "") (I "123")));
   ([D BANG; D BANG; D TRUE], Not (Not (B true)));
   ([D TRUE; D AND; D TRUE], Bin OAND tt' tt'); ([D TRUE; D OR; D TRUE], Bin OOR tt' tt');
   ([D TRUE; D IMPLIES; D TRUE], Bin OIMPLIES tt' tt');
   ([D TRUE; D AND; D TRUE; D AND; D TRUE], Bin OAND (Bin OAND tt' tt') tt');
   ([D TRUE; D AND; D LPAR; D TRUE; D AND; D TRUE; D RPAR], Bin OAND tt' (Bin OAND tt' tt'));
   ([D TRUE; D OR; D TRUE; D OR; D TRUE], Bin OOR (Bin OOR tt' tt') tt');
   ([D TRUE; D OR; D LPAR; D TRUE; D OR; D TRUE; D RPAR], Bin OOR tt' (Bin OOR tt' tt'));
   ([D BANG; D TRUE; D AND; D TRUE; D OR; D TRUE; D IMPLIES; D TRUE],
    Bin OIMPLIES (Bin OOR (Bin OAND (Not tt') tt') tt') tt');
   ([D BANG; D TRUE; D IMPLIES; D TRUE; D OR; D TRUE; D AND; D TRUE],
    Bin OIMPLIES (Not tt') (Bin OOR tt' (Bin OAND tt' tt')));
   ([D LPAR; D TRUE; D RPAR], tt'); ([D LPAR; D LPAR; D TRUE; D RPAR; D RPAR], tt');
   ([D LPAR; D LPAR; D LPAR; D TRUE; D RPAR; D RPAR; D RPAR], tt');
   ([D DOUBLE_COLON; D ID], Attr "")] = true.
Proof. vm_compute. reflexivity. Qed.
Example parser_negative : forallb (fun l => is_err (parse kTableConstraint (map D l)))
  [[TRUE; FALSE]; [BANG]; [TRUE; BANG]; [TRUE; BANG; TRUE]; [TRUE; AND]; [AND; TRUE; TRUE];
   [LPAR; TRUE]; [LPAR; TRUE; RPAR; RPAR]; [LPAR; LPAR; TRUE; RPAR]; [RPAR; TRUE];
   [RPAR; TRUE; RPAR]; [RPAR; TRUE; LPAR]; [TRUE; IMPLIES; TRUE; IMPLIES; TRUE];
   [TRUE; EQ; TRUE; NE; TRUE]; [TRUE; NE; TRUE; GT; TRUE]; [TRUE; GT; TRUE; GE; TRUE];
   [TRUE; GE; TRUE; LT; TRUE]; [TRUE; LT; TRUE; LE; TRUE]] = true.
Proof. vm_compute. reflexivity. Qed.
Example parser_ids :
  parses_in kActionConstraint ([D ID; D EQ; T BINARY "1"], Bin OEQ (P "") (I "1")) = true /\
  parses_in kTableConstraint ([D ID; D EQ; T BINARY "1"], Bin OEQ (K "") (I "1")) = true.
Proof. vm_compute. auto. Qed.
Definition addr (f s : string) : list token := [T ID f; D LPAR; T STRING s; D RPAR].
Example parser_addresses :
  forallb parses
    [(addr "ipv4" "0.0.0.13", I "13");
     (D ID :: D LE :: addr "ipv4" "0.0.0.255", Bin OLE (K "") (I "255"));
     (addr "mac" "00:00:00:00:00:0F", I "15");
     (addr "ipv6" "::", I "0"); (addr "ipv6" "0000:0000:0000:0000:0000:0000:0000:0009", I "9");
     (addr "ipv6" "::0000:0005", I "5"); (addr "ipv6" "0000:0000::0000:4", I "4");
     (addr "ipv6" "0000:0000::", I "0")] = true /\
  forallb (fun t => is_invalid (parse kTableConstraint (addr (fst t) (snd t))))
    [("ipv4", "239.255.255"); ("ipv4", "239.abc.255.1"); ("ipv4", "DE:EF:CA:FE");
     ("ipv4", "DE:GH:RS:EF:CA:FE"); ("ipv6", "2001:db8::lmno:5678");
     ("ipv6", "2001:db8:3333:4444:5555:6666:7777:8888:5000:5000:5000"); ("ipv6", ":::")] = true.
Proof. vm_compute. auto. Qed.

(** * ast_test.cc *)
Definition dm := default_meta.
Definition k_ := EKey dm.
Definition i_ := EInt dm.
Definition bin := EBin dm.
Definition ne (k v : string) := bin ONE (k_ k) (i_ v).
Definition eq_ (k v : string) := bin OEQ (k_ k) (i_ v).
Definition sizes (e : expr) : outcome Z * option size_cache := Size e [] (Some []).
Example size_leaves :
  forallb (fun e => match sizes e with (Ok 1%Z, Some []) => true | _ => false end)
    (app [EBool dm true; EBool dm false; EField dm "B" (k_ "A");
          EField dm "D" (EField dm "C" (EField dm "B" (k_ "A"))); EAttr dm "priority";
          ENeg dm (i_ "42"); ENeg dm (ENeg dm (i_ "42")); ENeg dm (ENeg dm (ENeg dm (i_ "42")));
          ENeg dm (ENeg dm (ENeg dm (ENeg dm (i_ "42"))))]
      (map i_ ["0"; "-1"; "1"; "42"; "-9042852073498123679518173785123857"])) = true.
Proof. vm_compute. reflexivity. Qed.
Definition has (c : size_cache) (t : path * Z) : bool :=
  match assoc_find path_eqb (fst t) c with Some n => Z.eqb n (snd t) | None => false end.
Definition size_case (e : expr) (n : Z) (c : size_cache) : bool :=
  match sizes e with
  | (Ok m, Some c') => Z.eqb m n && forallb (has c') c && Nat.eqb (List.length c) (List.length c')
  | _ => false
  end.
(** Paths are read from the expression towards the root: [true] is the right operand. *)
Definition constraint1 := bin OAND (ne "ether_type" "2048") (ne "ether_type" "34525").
Definition constraint2 :=
  bin OIMPLIES (bin ONE (EField dm "mask" (k_ "ttl")) (i_ "0"))
    (bin OOR (bin OOR (eq_ "is_ip" "1") (eq_ "is_ipv4" "1")) (eq_ "is_ipv6" "1")).
Example size_cases :
  size_case (ENot dm (EBool dm true)) 2 [([], 2%Z)] = true /\
  size_case (ENot dm (ENot dm (EBool dm true))) 3 [([], 3%Z); ([false], 2%Z)] = true /\
  size_case (ENot dm (ENot dm (ENot dm (EBool dm true)))) 4
    [([], 4%Z); ([false], 3%Z); ([false; false], 2%Z)] = true /\
  size_case (bin OAND (EBool dm true) (EBool dm false)) 3 [([], 3%Z)] = true /\
  size_case (ne "ether_type" "2048") 3 [([], 3%Z)] = true /\
  size_case constraint1 7 [([], 7%Z); ([false], 3%Z); ([true], 3%Z)] = true /\
  size_case constraint2 15
    [([], 15%Z); ([false], 3%Z); ([true], 11%Z); ([false; true], 7%Z); ([true; true], 3%Z);
     ([false; false; true], 3%Z); ([true; false; true], 3%Z)] = true /\
  Size constraint1 [] (Some [([], 343%Z)]) = (Ok 343%Z, Some [([], 343%Z)]) /\
  Size constraint1 [] None = (Ok 7%Z, None).
Proof. vm_compute. repeat split. Qed.
Example variables_of_params :
  let v := GetVariables (bin OGE (EParam dm "1") (EParam dm "2")) in
  (mem_string "1" v && mem_string "2" v && Nat.eqb (List.length v) 2)%bool = true.
Proof. vm_compute. reflexivity. Qed.

(** * type_checker_test.cc *)
Definition mock : loc := mkLoc 0 0 (SrcFile "Mock").
Definition mm : meta := mkMeta mock mock TNotSet.
Definition tc_key (n : string) (t : ty) : string * key_info := (n, mkKey 0 n t).
Definition tc_table : table_info :=
  mkTable 0 "table" None (mkCSource " " mock) []
    [tc_key "unknown" TUnknown; tc_key "unsupported" (TUnsupported "optional"); tc_key "bool" TBool;
     tc_key "int" TInt; tc_key "bit16" (TBit 16); tc_key "bit32" (TBit 32); tc_key "exact32" (TExact 32);
     tc_key "ternary32" (TTernary 32); tc_key "lpm32" (TLpm 32); tc_key "range32" (TRange 32)].
Definition tc_action : action_info :=
  mkAction 0 "action" None (mkCSource " " mock) []
    [tc_key "bit16" (TBit 16); tc_key "bit32" (TBit 32)].
Definition infer (e : expr) := InferTable e tc_table.
Definition infer_a (e : expr) := InferAction e tc_action.
Definition has_type (t : ty) (o : outcome expr) : bool :=
  match o with Ok e => ty_eqb (e_type e) t | _ => false end.
Example tc_invalid : forallb (fun e => is_invalid (infer e))
  [ENotSet mm; ENot mm (ENotSet mm); ECast mm (ENotSet mm); EBin mm OEQ (ENotSet mm) (ENotSet mm);
   ENeg mm (ENotSet mm); ENot mm (EInt mm "0"); ENeg mm (EBool mm true); ECast mm (EInt mm "0")] = true.
Proof. vm_compute. reflexivity. Qed.
Example tc_leaves :
  forallb (fun t => has_type (snd t) (infer (fst t)))
    [(EBool dm true, TBool); (EBool dm false, TBool); (i_ "123", TInt);
     (k_ "bool", TBool); (k_ "int", TInt); (k_ "bit32", TBit 32); (k_ "exact32", TExact 32);
     (k_ "ternary32", TTernary 32); (k_ "lpm32", TLpm 32); (k_ "range32", TRange 32);
     (ENot dm (EBool dm true), TBool); (ENot dm (ENot dm (EBool dm false)), TBool);
     (ENot dm (k_ "bool"), TBool); (ENeg dm (i_ "0"), TInt); (ENeg dm (ENeg dm (i_ "1")), TInt);
     (ENeg dm (k_ "int"), TInt); (EAttr dm "priority", TInt)] = true /\
  forallb (fun t => has_type (snd t) (infer_a (EParam dm (fst t))))
    [("bit16", TBit 16); ("bit32", TBit 32)] = true.
Proof. vm_compute. auto. Qed.
Example tc_unknown :
  forallb (fun v => is_invalid (infer (EKey mm v)) && is_invalid (infer_a (EParam mm v)))%bool
    ["unknown"; "unsupported"; "not even valid"] = true.
Proof. vm_compute. reflexivity. Qed.
Example tc_negations :
  forallb (fun k => is_invalid (infer (ENot mm (EKey mm k))))
    ["unknown"; "unsupported"; "int"; "bit32"; "exact32"; "ternary32"; "lpm32"; "range32"] = true /\
  forallb (fun k => is_invalid (infer (ENeg mm (EKey mm k))))
    ["unknown"; "unsupported"; "bool"; "bit32"; "exact32"; "ternary32"; "lpm32"; "range32"] = true /\
  forallb (fun k => is_invalid (infer_a (ENot mm (EParam mm k))) &&
                    is_invalid (infer_a (ENeg mm (EParam mm k))))%bool ["bit16"; "bit32"] = true.
Proof. vm_compute. auto. Qed.
Example tc_casts :
  forallb (fun op => forallb (fun t =>
      match infer (bin op (k_ (fst t)) (k_ (snd t))) with
      | Ok (EBin _ _ (ECast m _) r) => ty_eqb (m_type m) (e_type r)
      | _ => false
      end)
    [("int", "bit16"); ("int", "exact32"); ("int", "ternary32"); ("int", "lpm32"); ("int", "range32");
     ("bit32", "exact32"); ("bit32", "ternary32"); ("bit32", "lpm32"); ("bit32", "range32")])
    [OEQ; ONE] = true /\
  forallb (fun op => forallb (fun t => is_invalid (infer (EBin mm op (EKey mm (fst t)) (EKey mm (snd t)))))
    [("bool", "int"); ("bool", "bit32"); ("bool", "exact32"); ("bool", "ternary32"); ("bool", "lpm32");
     ("bool", "range32"); ("bit16", "bit32"); ("bit16", "exact32"); ("bit16", "ternary32");
     ("bit16", "lpm32"); ("bit16", "range32"); ("exact32", "ternary32"); ("ternary32", "lpm32");
     ("lpm32", "range32")]) [OEQ; ONE] = true.
Proof. vm_compute. auto. Qed.
Example tc_boolean_operators :
  forallb (fun op =>
      let e m r := EBin m op (EKey m "bool") r in
      let nested o m r := EBin m o (e m (EBool m false)) r in
      (has_type TBool (infer (e dm (EBool dm false))) &&
       has_type TBool (infer (nested op dm (e dm (EBool dm false)))) &&
       is_internal (infer (nested UNKNOWN_OPERATOR dm (e dm (EBool dm false)))) &&
       forallb (fun k => is_invalid (infer (e mm (EKey mm k))) &&
                         is_invalid (infer (nested op mm (e mm (EKey mm k)))))
         ["int"; "bit32"; "exact32"; "ternary32"; "lpm32"; "range32"])%bool)
    [OAND; OOR; OIMPLIES] = true.
Proof. vm_compute. reflexivity. Qed.
Example tc_ordered :
  forallb (fun op =>
      (forallb (fun k => is_invalid (infer (EBin mm op (EKey mm k) (EKey mm k))))
         ["bool"; "ternary32"; "lpm32"; "range32"] &&
       forallb (fun k => has_type TBool (infer (bin op (k_ k) (k_ k)))) ["int"; "bit16"; "exact32"])%bool)
    [OGT; OGE; OLT; OLE] = true.
Proof. vm_compute. reflexivity. Qed.
Example tc_fields :
  forallb (fun t => match t with (k, f, u) => has_type u (infer (EField dm f (k_ k))) end)
    [("exact32", "value", TBit 32); ("ternary32", "value", TBit 32); ("ternary32", "mask", TBit 32);
     ("lpm32", "value", TBit 32); ("lpm32", "prefix_length", TInt); ("range32", "low", TBit 32);
     ("range32", "high", TBit 32)] = true /\
  forallb (fun t => forallb (fun f => is_invalid (infer (EField mm f (EKey mm (fst t))))) (snd t))
    [("exact32", ["mask"; "prefix_length"; "low"; "high"; "foo"; "bar"]);
     ("ternary32", ["prefix_length"; "low"; "high"; "foo"; "bar"]);
     ("lpm32", ["mask"; "low"; "high"; "foo"; "bar"]);
     ("range32", ["mask"; "prefix_length"; "foo"; "bar"])] = true /\
  forallb (fun k => forallb (fun f => is_invalid (infer (EField mm f (EKey mm k))))
      ["value"; "mask"; "prefix_length"; "low"; "high"; "foo"; "bar"])
    ["unknown"; "unsupported"; "bool"; "int"; "bit16"; "bit32"] = true.
Proof. vm_compute. auto. Qed.

(** * constraint_info_test.cc *)
Definition load (p : p4info) : outcome constraint_info := P4ToConstraintInfo unit_pton p.
Definition act (name annotation : string) (ps : list action_param) : p4info :=
  mkP4Info [] [mkP4ActionDecl (mkPre 123 name [annotation]) ps].
Definition message_is {A} (o : outcome A) (s : string) : bool :=
  match o with Err _ m => String.eqb m s | _ => false end.
Example info_constraint_string :
  match load (act "MyIngress.act_1" "@action_restriction(""multicast_group_id != 0"")"
                [mkAP 1 "multicast_group_id" 16 ""]) with
  | Ok ci => match GetActionInfoOrNull ci 123 with
             | Some a => String.eqb (cs_string (ai_source a)) "multicast_group_id != 0"
             | None => false
             end
  | _ => false
  end = true.
Proof. vm_compute. reflexivity. Qed.
Example info_named_type :
  is_ok (load (act "MyIngress.act_2" "@action_restriction(""custom_type_param != 0"")"
                 [mkAP 1 "custom_type_param" 16 "custom_type_t"])) = false.
Proof. vm_compute. reflexivity. Qed.
Example info_parentheses :
  message_is (load (act "MyIngress.act_1" "@action_restriction x != 0" []))
"P4Info to constraint info translation failed with the following errors:
- In action MyIngress.act_1:
Syntax error: @action_restriction must be enclosed in '(""' and '"")'
" = true.
Proof. vm_compute. reflexivity. Qed.
Example info_lookup :
  match load (mkP4Info [mkP4Table (mkPre 1 "table" []) []] [mkP4ActionDecl (mkPre 123 "MyIngress.act_1" []) []]) with
  | Ok ci => match GetTableInfoOrNull ci 1, GetActionInfoOrNull ci 123 with
             | Some _, Some _ => true | _, _ => false end
  | _ => false
  end = true.
Proof. vm_compute. reflexivity. Qed.

(** * interpreter_test.cc *)
Definition ik (id : N) (n : string) (t : ty) : string * key_info := (n, mkKey id n t).
Definition unit_keys : list (string * key_info) :=
  [ik 1 "exact32" (TExact 32); ik 2 "ternary32" (TTernary 32); ik 3 "lpm32" (TLpm 32);
   ik 4 "range32" (TRange 32); ik 5 "optional32" (TOptional 32)].
Definition unit_table (c : option expr) (l : loc) : table_info :=
  mkTable 1 "table" c (mkCSource "" l) [(1%N, mkKey 1 "exact32" (TExact 32))] unit_keys.
Definition unit_entry (v : string) : p4_entry := mkEntry 1 [mkFM 1 (FMExact v)] None 0.
Definition with_constraint (e : expr) : constraint_info :=
  mkInfo [] [(1%N, unit_table (Some e) (mkLoc 0 0 (SrcTable "table")))].
Definition ok_empty (o : outcome string) : bool := match o with Ok "" => true | _ => false end.
Definition ok_nonempty (o : outcome string) : bool := match o with Ok "" => false | Ok _ => true | _ => false end.
Definition typed (t : ty) : meta := mkMeta default_loc default_loc t.
Definition typed_at (s : source) (t : ty) : meta := mkMeta (mkLoc 0 0 s) (mkLoc 0 0 s) t.
Definition nonzero (s : source) (p : string) : expr :=
  EBin (typed_at s TBool) ONE (EParam (typed (TBit 32)) p) (ECast (typed (TBit 32)) (EInt (typed TInt) "0")).
Definition unit_action (id : N) (name : string) (s : source) : N * action_info :=
  (id, mkAction id name (Some (nonzero s name)) (mkCSource "" (mkLoc 0 0 s))
         [(1%N, mkKey 1 name (TBit 32))] [(name, mkKey 1 name (TBit 32))]).
Definition multicast s := unit_action 123 "multicast_group_id" s.
Definition vlan s := unit_action 124 "vlan_id" s.
Definition entry_of (a : table_action) : p4_entry := mkEntry 1 [] (Some a) 0.
Definition call (id : N) (v : N) : p4_action := mkP4Action id [(1%N, str1 (ascii_of_N v))].
Definition reason (actions : list (N * action_info)) (a : table_action) : outcome string :=
  ReasonEntryViolatesConstraint (entry_of a) (mkInfo actions [(1%N, unit_table None default_loc)]).
Example entry_actions :
  ok_empty (reason [multicast SrcNone] (TAction (call 123 6))) = true /\
  is_invalid (reason [] (TAction (call 123 0))) = true /\
  is_invalid (reason [(1%N, snd (multicast SrcNone)); (2%N, snd (vlan SrcNone))]
    (TActionSet [call 123 6; call 124 6])) = true /\
  is_invalid (reason [multicast SrcNone] (TMemberId 1)) = true /\
  is_invalid (reason [multicast SrcNone] (TGroupId 1)) = true /\
  ok_nonempty (reason [multicast (SrcAction "multicast_group_id")] (TAction (call 123 0))) = true /\
  ok_empty (reason [multicast SrcNone; vlan SrcNone] (TActionSet [call 123 6; call 124 6])) = true /\
  ok_nonempty (reason [multicast (SrcAction "multicast_group_id"); vlan (SrcAction "vlan_id")]
    (TActionSet [call 123 6; call 124 0])) = true.
Proof. vm_compute. repeat split. Qed.

Definition check_entry (v : string) (e : expr) : outcome string :=
  ReasonEntryViolatesConstraint (unit_entry v) (with_constraint e).
Definition ukey (k : string) : expr :=
  EKey (typed (match assoc_find String.eqb k unit_keys with Some i => k_type i | None => TNotSet end)) k.
Definition at_table := SrcTable "table".
Definition exact_is (s : source) (n : string) : expr :=
  EBin (typed_at s TBool) OEQ (EKey (typed (TExact 32)) "exact32")
    (ECast (typed (TExact 32)) (ECast (typed (TBit 32)) (EInt (typed TInt) n))).
Definition priority_is (s : source) (n : string) : expr :=
  EBin (typed_at s TBool) OEQ (EAttr (typed TInt) "priority") (EInt (typed TInt) n).
Definition with_priority (n : Z) : p4_entry := mkEntry 1 [mkFM 1 (FMExact "1234")] None n.
Example entry_tables :
  is_invalid (check_entry "A" (ENotSet dm)) = true /\
  ok_empty (check_entry "A" (EBool (typed TBool) true)) = true /\
  ok_nonempty (check_entry "A" (EBool (typed_at at_table TBool) false)) = true /\
  forallb (fun t => is_invalid (check_entry "A" (EInt (typed t) "42"))) [TInt; TBit 16; TBit 32] = true /\
  forallb (fun k => is_invalid (check_entry "A" (ukey k))) ["exact32"; "ternary32"; "lpm32"; "range32"] = true /\
  ok_empty (check_entry "A" (exact_is SrcNone "65")) = true /\
  ok_empty (check_entry (String NUL "A") (exact_is SrcNone "65")) = true /\
  ok_nonempty (check_entry "A" (exact_is at_table "0")) = true /\
  ok_empty (check_entry (str1 NUL) (exact_is at_table "0")) = true /\
  ok_nonempty (check_entry "A" (exact_is at_table "48")) = true /\
  ok_empty (check_entry "0" (exact_is at_table "48")) = true /\
  ok_empty (check_entry "A" (priority_is SrcNone "0")) = true /\
  ok_nonempty (ReasonEntryViolatesConstraint (with_priority 10) (with_constraint (priority_is at_table "0"))) = true /\
  ok_empty (ReasonEntryViolatesConstraint (with_priority 10) (with_constraint (priority_is SrcNone "10"))) = true.
Proof. vm_compute. repeat split. Qed.

Definition unit_values : list (string * value) :=
  [("exact32", VExact 42); ("ternary32", VTernary 12 128); ("lpm32", VLpm 0 32);
   ("range32", VRange 5 500); ("optional32", VTernary 12 (2 ^ 32 - 1))].
Definition unit_ctx (vs : list (string * value)) : eval_context :=
  mkCtx (CtxTable "table" 0 vs) (mkCSource "source" default_loc).
Definition eval_in vs (e : expr) : outcome value := fst (Eval (unit_ctx vs) e [] None).
Definition eval_ := eval_in unit_values.
Definition gives (v : value) (o : outcome value) : bool := match o with Ok w => value_eqb v w | _ => false end.
Definition nested_not (n : nat) (e : expr) : expr := Nat.iter n (ENot (typed TBool)) e.
Definition nested_neg (n : nat) (e : expr) : expr := Nat.iter n (ENeg (typed TInt)) e.
Definition bc (b : bool) : expr := EBool (typed TBool) b.
Example eval_leaves :
  forallb (fun t => forallb (fun i => gives (VInt (snd i)) (eval_ (EInt (typed t) (fst i))))
    [("0", 0%Z); ("-1", (-1)%Z); ("1", 1%Z); ("42", 42%Z);
     ("-9042852073498123679518173785123857", (-9042852073498123679518173785123857)%Z)])
    [TInt; TBit 16; TBit 32] = true /\
  forallb (fun kv => gives (snd kv) (eval_ (ukey (fst kv)))) unit_values = true /\
  forallb (fun b => forallb (fun n => gives (VBool (if Nat.even n then b else negb b)) (eval_ (nested_not n (bc b))))
    [1; 2; 3; 4]%nat) [true; false] = true /\
  forallb (fun n => gives (VInt (if Nat.even n then 42 else -42)) (eval_ (nested_neg n (EInt (typed TInt) "42"))))
    [1; 2; 3; 4]%nat = true.
Proof. vm_compute. repeat split. Qed.
Example eval_casts :
  forallb (fun t => match t with (s, n) =>
      let m := (2 ^ 32 - 1)%Z in
      let fixed := ECast (typed (TBit 32)) (EInt (typed TInt) s) in
      (gives (VInt n) (eval_ fixed) &&
       gives (VExact n) (eval_ (ECast (typed (TExact 32)) fixed)) &&
       gives (VTernary n m) (eval_ (ECast (typed (TTernary 32)) fixed)) &&
       gives (VLpm n 32) (eval_ (ECast (typed (TLpm 32)) fixed)) &&
       gives (VRange n n) (eval_ (ECast (typed (TRange 32)) fixed)))%bool
    end) [("-1", (2 ^ 32 - 1)%Z); ("42", 42%Z)] = true.
Proof. vm_compute. reflexivity. Qed.
Definition ops (l r : expr) (expected : list (binop * bool)) (bad : list binop) : bool :=
  (forallb (fun t => gives (VBool (snd t)) (eval_ (EBin (typed TBool) (fst t) l r))) expected &&
   forallb (fun o => is_internal (eval_ (EBin (typed TBool) o l r))) bad)%bool.
Example eval_binary_booleans :
  forallb (fun t => match t with (l, r) =>
      ops (bc l) (bc r)
        [(OAND, l && r); (OOR, l || r); (OIMPLIES, negb l || r); (OEQ, Bool.eqb l r); (ONE, negb (Bool.eqb l r))]%bool
        [OGT; OGE; OLT; OLE]
    end) [(true, true); (true, false); (false, true); (false, false)] = true.
Proof. vm_compute. reflexivity. Qed.
Definition numbers : list (string * Z) :=
  [("-1", (-1)%Z); ("0", 0%Z); ("42", 42%Z);
   ("-452389348125871341098532412564", (-452389348125871341098532412564)%Z);
   ("53871347531398537818732785237812312987523", 53871347531398537818732785237812312987523%Z)].
Example eval_binary_numbers :
  forallb (fun x => forallb (fun y =>
      let l := snd x in let r := snd y in
      ops (EInt (typed TInt) (fst x)) (EInt (typed TInt) (fst y))
        [(OEQ, Z.eqb l r); (ONE, negb (Z.eqb l r)); (OGT, Z.ltb r l); (OGE, Z.leb r l); (OLT, Z.ltb l r);
         (OLE, Z.leb l r)]
        [OAND; OOR; OIMPLIES]) numbers) numbers = true.
Proof. vm_compute. reflexivity. Qed.
Example eval_binary_composite :
  forallb (fun k => ops (ukey k) (ukey k) [(OEQ, true); (ONE, false)] [OGT; OGE; OLT; OLE; OAND; OOR; OIMPLIES])
    ["exact32"; "ternary32"; "lpm32"; "range32"] = true.
Proof. vm_compute. reflexivity. Qed.
Definition field_case (k : string) (v : value) (good : list (string * Z)) (bad : list string) : bool :=
  let e f := EField (typed (TBit 32)) f (ukey k) in
  (forallb (fun t => gives (VInt (snd t)) (eval_in ((k, v) :: unit_values) (e (fst t)))) good &&
   forallb (fun f => is_internal (eval_in ((k, v) :: unit_values) (e f))) bad)%bool.
Example eval_fields :
  field_case "exact32" (VExact 42) [("value", 42%Z)] ["mask"; "prefix_length"; "low"; "high"; "xy"] = true /\
  field_case "ternary32" (VTernary 42 (-21)) [("value", 42%Z); ("mask", (-21)%Z)]
    ["prefix_length"; "low"; "high"; "xy"; "foo"] = true /\
  field_case "lpm32" (VLpm 42 (-21)) [("value", 42%Z); ("prefix_length", (-21)%Z)]
    ["mask"; "low"; "high"; "xy"; "foo"; "bar"] = true /\
  field_case "range32" (VRange 42 (-21)) [("low", 42%Z); ("high", (-21)%Z)]
    ["value"; "mask"; "prefix_length"; "xy"; "fo"] = true.
Proof. vm_compute. repeat split. Qed.

Definition bin_bool (l : bool) (o : binop) (r : bool) : expr := EBin (typed TBool) o (bc l) (bc r).
Definition cached (e : expr) (c : list (path * bool)) : outcome bool * eval_cache :=
  EvalToBool (unit_ctx unit_values) e [] (Some c).
Definition cache_is (r : outcome bool * eval_cache) (b : bool) (l : list (path * bool)) : bool :=
  match r with
  | (Ok b', Some c) =>
      Bool.eqb b b' && Nat.eqb (List.length c) (List.length l) &&
      forallb (fun t => match assoc_find path_eqb (fst t) c with
                        | Some x => Bool.eqb x (snd t) | None => false end) l
  | _ => false
  end.
Example cache_cases :
  cache_is (cached (bc true) []) true [([], true)] = true /\
  cache_is (cached (nested_not 5 (bc true)) []) false
    [([], false); ([false], true); ([false; false], false); ([false; false; false], true);
     ([false; false; false; false], false); ([false; false; false; false; false], true)] = true /\
  cache_is (cached (bin_bool true OAND false) []) false [([], false); ([false], true); ([true], false)] = true /\
  cache_is (cached (bin_bool true OOR false) []) true [([], true); ([false], true)] = true /\
  cache_is (cached (priority_is SrcNone "42") []) false [([], false)] = true /\
  cache_is (cached (bin_bool true OOR true) [([], false)]) false [([], false)] = true.
Proof. vm_compute. repeat split. Qed.

Definition minimal (e : expr) : outcome (expr * path) :=
  fst (fst (MinimalSubexpression (unit_ctx unit_values) e [] (Some []) (Some []))).
Definition minimal_at (e : expr) (p : path) : bool :=
  match minimal e with Ok (_, q) => path_eqb p q | _ => false end.
Example minimal_cases :
  minimal_at (bc true) [] = true /\ minimal_at (bc false) [] = true /\
  minimal_at (nested_not 5 (bc true)) [false; false; false; false; false] = true /\
  minimal_at (nested_not 2 (bc false)) [false; false] = true /\
  minimal_at (priority_is SrcNone "42") [] = true /\
  forallb (fun t => is_internal (minimal (EInt (typed t) "42"))) [TInt; TBit 16; TBit 32] = true /\
  forallb (fun kv => is_internal (minimal (ukey (fst kv)))) unit_keys = true /\
  minimal_at (bin_bool true OAND true) [] = true /\
  minimal_at (bin_bool true OAND false) [true] = true /\
  minimal_at (bin_bool false OAND false) [false] = true /\
  minimal_at (bin_bool true OOR false) [false] = true /\
  minimal_at (bin_bool true OOR true) [false] = true /\
  minimal_at (bin_bool false OOR false) [] = true /\
  minimal_at (bin_bool false OIMPLIES false) [false] = true /\
  minimal_at (bin_bool true OIMPLIES true) [true] = true /\
  minimal_at (bin_bool false OIMPLIES true) [false] = true /\
  minimal_at (bin_bool true OIMPLIES false) [] = true.
Proof. vm_compute. repeat split. Qed.
Example p4rt_integers :
  ParseP4RTInteger (str1 NUL) = 0%Z /\
  ParseP4RTInteger (String (ascii_of_N 224) (repeat_char 3 NUL)) = 3758096384%Z.
Proof. vm_compute. auto. Qed.
