(** Conformance of the model: the repository's tests of the symbolic interpreter
    (backend/symbolic_interpreter_test.cc), evaluated in the model. The solver is
    replaced by one that tries a fixed list of valuations, so only the
    satisfiable cases and the error cases are conclusive here. These are tests of
    the model, not proofs of properties. *)
From Coq Require Import String Ascii List ZArith NArith Bool.
From Verif Require Import Base Num Token Ast Quote Lexer AstConstructors Parser Info TypeChecker
  ConstraintInfo Interpreter Z3 Symbolic TestsUnit.
Import ListNotations.
Open Scope string_scope.

Definition valuation := list (string * Z).
Definition model_of (v : valuation) : model := fun n s =>
  match assoc_find String.eqb n v, s with
  | Some z, SInt => Some (VI z)
  | Some z, SBV w => Some (VV w (z mod 2 ^ w))
  | Some z, SBool => Some (VB (negb (Z.eqb z 0)))
  | None, _ => None
  end.
Definition satisfies (ts : list term) (v : valuation) : bool :=
  forallb (fun t => as_bool (zeval (complete (model_of v)) t)) ts.
Definition try_all (vs : list valuation) : solver := fun ts => option_map model_of (find (satisfies ts) vs).

Definition sk (id : N) (n : string) (t : ty) : key_info := mkKey id n t.
Definition basic_keys : list key_info :=
  [sk 1 "exact32" (TExact 32); sk 2 "optional32" (TOptional 32); sk 3 "ternary32" (TTernary 32);
   sk 1 "lpm32" (TLpm 32); sk 1 "optional2" (TOptional 2); sk 1 "ternary128" (TTernary 128);
   sk 1 "lpm128" (TLpm 128)].
Example add_symbolic_key :
  forallb (fun k =>
      match AddSymbolicKey k with
      | Ok (s, ts) =>
          satisfies ts [] && is_ok (GetValue s) &&
          Bool.eqb (is_ok (GetMask s)) (match k_type k with TTernary _ | TOptional _ => true | _ => false end) &&
          Bool.eqb (is_ok (GetPrefixLength s)) (match k_type k with TLpm _ => true | _ => false end)
      | _ => false
      end)%bool basic_keys = true /\
  forallb (fun k => is_err (AddSymbolicKey k))
    [sk 1 "zero_bitwidth_key" (TExact 0); sk 1 "non_match_key_with_bitwidth" (TBit 10);
     sk 1 "non_match_key_without_bitwidth" TBool] = true.
Proof. vm_compute. auto. Qed.

Definition key_allows (t : ty) (v : valuation) : bool :=
  match AddSymbolicKey (sk 1 "key" t) with Ok (_, ts) => satisfies ts v | _ => false end.
Example sensible_keys :
  key_allows (TOptional 32) [("key", 0); ("key_mask", 0)]%Z = true /\
  key_allows (TOptional 32) [("key", 7); ("key_mask", 4294967295)]%Z = true /\
  key_allows (TOptional 32) [("key", 0); ("key_mask", 240)]%Z = false /\
  key_allows (TTernary 32) [("key", 0); ("key_mask", 0)]%Z = true /\
  key_allows (TTernary 32) [("key", 7); ("key_mask", 4294967295)]%Z = true /\
  key_allows (TTernary 32) [("key", 240); ("key_mask", 240)]%Z = true /\
  key_allows (TTernary 32) [("key", 1); ("key_mask", 0)]%Z = false /\
  key_allows (TTernary 32) [("key", 15); ("key_mask", 240)]%Z = false /\
  key_allows (TLpm 32) [("key", 0); ("key_prefix_length", 0)]%Z = true /\
  key_allows (TLpm 32) [("key", 15732480); ("key_prefix_length", 32)]%Z = true /\
  key_allows (TLpm 32) [("key", 0); ("key_prefix_length", -1)]%Z = false /\
  key_allows (TLpm 32) [("key", 15732480); ("key_prefix_length", 2)]%Z = false.
Proof. vm_compute. repeat split. Qed.
Example symbolic_priority :
  map (fun z => satisfies (snd AddSymbolicPriority) [("priority", z)]) [0; 42; 2147483647; 2147483648; 1152921504606846975]%Z =
  [false; true; true; false; false].
Proof. vm_compute. reflexivity. Qed.

Definition symbolic_keys : list key_info :=
  [sk 1 "exact32" (TExact 32); sk 2 "ternary32" (TTernary 32); sk 3 "lpm32" (TLpm 32);
   sk 4 "optional32" (TOptional 32); sk 5 "exact11" (TExact 11); sk 6 "optional28" (TOptional 28)].
Definition symbolic_table (text : string) : outcome table_info :=
  let src := mkCSource text (mkLoc 0 0 (SrcTable "table")) in
  let t c := mkTable 1 "table" c src (map (fun k => (k_id k, k)) symbolic_keys)
               (map (fun k => (k_name k, k)) symbolic_keys) in
  let* e := ParseConstraint unit_pton kTableConstraint src in
  let* e := InferTable e (t None) in
  Ok (t (Some e)).
Definition create (vs : list valuation) (skip : list string) (text : string) : outcome constraint_solver :=
  let* t := symbolic_table text in
  Create (try_all vs) t (fun k => Ok (existsb (String.eqb k) skip)).
Definition p1 : valuation := [("priority", 1%Z)].

(** Satisfiable constraints: a solver is created, and the entry it concretizes passes the check. *)
Definition round_trip (vs : list valuation) (text : string) : bool :=
  match symbolic_table text with
  | Ok t =>
      match Create (try_all vs) t (fun _ => Ok false) with
      | Ok cs => match ConcretizeEntry (try_all vs) cs with
                 | Ok e => ok_empty (ReasonEntryViolatesConstraint e (mkInfo [] [(1%N, t)]))
                 | _ => false
                 end
      | _ => false
      end
  | _ => false
  end.
Definition full32 := 4294967295%Z.
Example satisfiable_constraints :
  forallb (fun t => round_trip [p1; (app (snd t) p1)] (fst t))
    [("true", []); ("!false", []); ("42 == 42", []); ("exact32 == 42", [("exact32", 42%Z)]);
     ("exact32::value == ternary32::value", []); ("optional32::mask == 0", []);
     ("optional32 == 1", [("optional32", 1%Z); ("optional32_mask", full32)]);
     ("ternary32 == 42", [("ternary32", 42%Z); ("ternary32_mask", full32)]);
     ("lpm32 != 42", []); ("exact11 == 137", [("exact11", 137%Z)]); ("lpm32::prefix_length == 0", []);
     ("optional28 == 1", [("optional28", 1%Z); ("optional28_mask", 268435455%Z)]);
     ("::priority > 50", [("priority", 51%Z)])] = true.
Proof. vm_compute. reflexivity. Qed.
Example unsatisfiable_constraints :
  forallb (fun s => is_invalid (create [p1] [] s))
    ["false"; "-42 > 12398712983"; "lpm32::prefix_length < -1"; "optional32::mask == 50"; "::priority < 1"] = true.
Proof. vm_compute. reflexivity. Qed.

(** Fully specified constraints: the entry is exactly the expected one (up to the order of the fields). *)
Definition fm_eqb (a b : field_match) : bool :=
  (N.eqb (fm_id a) (fm_id b) &&
   match fm_value a, fm_value b with
   | FMExact x, FMExact y | FMOptional x, FMOptional y => String.eqb x y
   | FMTernary x m, FMTernary y n => String.eqb x y && String.eqb m n
   | FMLpm x m, FMLpm y n => String.eqb x y && Z.eqb m n
   | _, _ => false
   end)%bool.
Definition entry_is (o : outcome p4_entry) (fs : list field_match) (p : Z) : bool :=
  match o with
  | Ok e => N.eqb (pe_table_id e) 1 && Z.eqb (pe_priority e) p &&
            Nat.eqb (List.length fs) (List.length (pe_match e)) &&
            forallb (fun f => existsb (fm_eqb f) (pe_match e)) fs
  | _ => false
  end%bool.
Definition c (l : list N) : string := fold_right (fun n s => String (ascii_of_N n) s) "" l.
Definition expected (fs : list field_match) (p : Z) (skip : list string) (v : valuation) (text more : string) : bool :=
  match create [p1; v] skip text with
  | Ok cs =>
      match (if String.eqb more "" then (Ok true, cs) else AddConstraintString (try_all [p1; v]) unit_pton cs more) with
      | (Ok true, cs) => entry_is (ConcretizeEntry (try_all [p1; v]) cs) fs p
      | _ => false
      end
  | _ => false
  end.
Definition exacts (b : list N) : list field_match := [mkFM 1 (FMExact (c b)); mkFM 5 (FMExact (c b))].
Definition ev (n p : Z) : valuation := [("exact32", n); ("exact11", n); ("priority", p)].
Example specified_entries :
  expected (exacts [5%N]) 50 [] (ev 5 50)
    "exact11 == 5; exact32 == 5; ::priority == 50; lpm32::prefix_length == 0; ternary32::mask == 0; optional32::mask == 0; optional28::mask == 0;" "" = true /\
  expected (exacts [5%N; 0%N]) 50 [] (ev 1280 50)
    "exact11 == 1280; exact32 == 1280; ::priority == 50; lpm32::prefix_length == 0; ternary32::mask == 0; optional32::mask == 0; optional28::mask == 0;" "" = true /\
  expected (exacts [1%N]) 2 [] (ev 1 2)
    "::priority > 1; ::priority < 3; lpm32::prefix_length == 0; ternary32::mask == 0; optional32::mask == 0; exact11 == 1; exact32 == 1; optional28::mask == 0;" "" = true /\
  expected (mkFM 3 (FMLpm (c [5%N]) 32) :: exacts [1%N]) 1 [] (("lpm32", 5%Z) :: ("lpm32_prefix_length", 32%Z) :: ev 1 1)
    "lpm32 == 5; ternary32::mask == 0; optional32::mask == 0; exact11 == 1; exact32 == 1; ::priority == 1; optional28::mask == 0;" "" = true /\
  expected (mkFM 2 (FMTernary (c [5%N]) (c [255; 255; 255; 255]%N)) :: exacts [1%N]) 1 []
    (("ternary32", 5%Z) :: ("ternary32_mask", full32) :: ev 1 1)
    "ternary32 == 5; lpm32::prefix_length == 0; optional32::mask == 0; exact11 == 1; exact32 == 1; ::priority == 1; optional28::mask == 0;" "" = true /\
  expected (mkFM 4 (FMOptional (c [5%N])) :: exacts [1%N]) 1 []
    (("optional32", 5%Z) :: ("optional32_mask", full32) :: ev 1 1)
    "optional32 == 5; lpm32::prefix_length == 0; ternary32::mask == 0;  exact11 == 1; exact32 == 1; ::priority == 1; optional28::mask == 0;" "" = true /\
  expected (mkFM 6 (FMOptional (c [5%N])) :: exacts [1%N]) 1 []
    (("optional28", 5%Z) :: ("optional28_mask", 268435455%Z) :: ev 1 1)
    "optional28 == 5; lpm32::prefix_length == 0; ternary32::mask == 0; exact11 == 1; exact32 == 1; ::priority == 1; optional32::mask == 0;" "" = true /\
  expected (exacts [1%N]) 1 ["optional32"; "optional28"] (ev 1 1)
    "lpm32::prefix_length == 0; ternary32::mask == 0; exact11 == 1;exact32 == 1; ::priority == 1;" "" = true /\
  expected (exacts [5%N]) 50 [] (ev 5 50)
    "exact11 == 5; ::priority == 50; optional32::mask == 0; optional28::mask == 0;"
    "exact32 == 5; lpm32::prefix_length == 0; ternary32::mask == 0; " = true /\
  expected (exacts [2%N]) 2 [] (ev 2 2)
    "::priority > 1; exact32::value > 1; exact11::value > 1;lpm32::prefix_length == 0; ternary32::mask == 0; optional32::mask == 0;  optional28::mask == 0;"
    "::priority < 3; exact32::value < 3; exact11::value < 3;" = true.
Proof. vm_compute. repeat split. Qed.

(** AddConstraint. *)
Definition add (vs : list valuation) (text more : string) : outcome bool :=
  match create vs [] text with
  | Ok cs => fst (AddConstraintString (try_all vs) unit_pton cs more)
  | _ => Err UnknownCode ""
  end.
Definition answers (b : bool) (o : outcome bool) : bool := match o with Ok b' => Bool.eqb b b' | _ => false end.
Definition e42 : valuation := ("exact32", 42%Z) :: p1.
Example added_constraints :
  is_invalid (add [p1] "true" "42") = true /\
  is_invalid (add [p1] "true" "dragon == 42") = true /\
  answers false (add [p1] "true" "false") = true /\
  answers true (add [p1] "true" "true") = true /\
  answers true (add [e42] "exact32 == 42;" "optional32 != 42") = true /\
  answers true (add [e42] "exact32 == 42;" "exact32 != 7") = true /\
  answers false (add [e42] "exact32 == 42;" "exact32 != 42") = true /\
  is_ok (Create (try_all [p1]) (mkTable 1 "table" None default_csource [] (map (fun k => (k_name k, k)) symbolic_keys))
           (fun _ => Ok false)) = true /\
  is_ok (Create (try_all [[]])
           (mkTable 1 "table" (Some (EBool (typed TBool) true)) default_csource []
              (map (fun k => (k_name k, k)) [sk 1 "exact32" (TExact 32); sk 3 "lpm32" (TLpm 32); sk 5 "exact11" (TExact 11)]))
           (fun _ => Ok false)) = true /\
  is_invalid (EvaluateConstraintSymbolically (mkEnv [] []) default_csource (EBool default_meta true)) = true.
Proof. vm_compute. repeat split. Qed.
