(** A model of the fragment of RE2 (github.com/google/re2, release 2023-06-01)
    that p4_constraints uses: anchored, leftmost-first ("Perl") matching with
    capture groups, in RE2's default UTF-8 mode. RE2 itself is not part of
    /repo; this file is part of the trusted base. *)
From Coq Require Import String Ascii List ZArith NArith Bool.
From Verif Require Import Base.
Import ListNotations.

(** Regular expressions as written in the C++ sources. *)
Inductive re :=
| RClass (p : ascii -> bool)        (* [abc] or a literal: one ASCII byte *)
| RNeg (p : ascii -> bool)          (* [^abc]: one UTF-8 encoded rune outside the class *)
| REmpty
| RSeq (a b : re)
| RAlt (a b : re)                   (* a|b, a preferred *)
| RStar (a : re)                    (* a*, greedy *)
| RPlus (a : re)                    (* a+, greedy *)
| ROpt (a : re)                     (* a?, greedy *)
| RGroup (name : string) (a : re).  (* (?P<name>a) *)

(** One way of matching: consumed text, remaining text, captures (innermost last). *)
Record hit := mkHit { h_text : string; h_rest : string; h_caps : list (string * string) }.

(** A UTF-8 continuation byte, 10xxxxxx. *)
Definition is_cont (c : ascii) : bool := in_range 128 191 c.

(** One UTF-8 rune outside an ASCII class, as compiled by RE2
    (re2/compile.cc, Compiler::Add_80_10ffff): any non-excluded ASCII byte, or
    c2-df cont | e0-ef cont cont | f0-f4 cont cont cont. Invalid UTF-8 bytes
    never match a negated class. *)
Definition match_rune (p : ascii -> bool) (s : string) : list hit :=
  match s with
  | EmptyString => []
  | String c s1 =>
      if N.ltb (byte c) 128 then
        if p c then [] else [mkHit (str1 c) s1 []]
      else if in_range 194 223 c then
        match s1 with
        | String c1 s2 =>
            if is_cont c1 then [mkHit (String c (str1 c1)) s2 []] else []
        | _ => []
        end
      else if in_range 224 239 c then
        match s1 with
        | String c1 (String c2 s3) =>
            if (is_cont c1 && is_cont c2)%bool
            then [mkHit (String c (String c1 (str1 c2))) s3 []] else []
        | _ => []
        end
      else if in_range 240 244 c then
        match s1 with
        | String c1 (String c2 (String c3 s4)) =>
            if (is_cont c1 && is_cont c2 && is_cont c3)%bool
            then [mkHit (String c (String c1 (String c2 (str1 c3)))) s4 []] else []
        | _ => []
        end
      else []
  end.

(** [follow h k]: continue matching after [h] with matcher [k]. *)
Definition follow (h : hit) (k : string -> list hit) : list hit :=
  map (fun h' => mkHit (h_text h ++ h_text h') (h_rest h') (h_caps h ++ h_caps h'))
      (k (h_rest h)).

(** Greedy iteration: prefer one more nonempty iteration over stopping. The
    fuel is the length of the input; every iteration consumes at least a byte. *)
Fixpoint star (fuel : nat) (m : string -> list hit) (s : string) : list hit :=
  match fuel with
  | O => [mkHit "" s []]
  | S fuel' =>
      flat_map (fun h => if String.eqb (h_text h) "" then []
                         else follow h (star fuel' m)) (m s)
      ++ [mkHit "" s []]
  end.

(** All ways of matching a prefix of [s], in order of preference. *)
Fixpoint matches (r : re) (s : string) : list hit :=
  match r with
  | RClass p =>
      match s with
      | String c s' => if p c then [mkHit (str1 c) s' []] else []
      | EmptyString => []
      end
  | RNeg p => match_rune p s
  | REmpty => [mkHit "" s []]
  | RSeq a b => flat_map (fun h => follow h (matches b)) (matches a s)
  | RAlt a b => matches a s ++ matches b s
  | RStar a => star (String.length s) (matches a) s
  | RPlus a => flat_map (fun h => follow h (star (String.length (h_rest h)) (matches a)))
                        (matches a s)
  | ROpt a => matches a s ++ [mkHit "" s []]
  | RGroup n a => map (fun h => mkHit (h_text h) (h_rest h) ((n, h_text h) :: h_caps h))
                      (matches a s)
  end.

(** RE2::Match with ANCHOR_START / RE2::Consume: the most preferred match. *)
Definition first_match (r : re) (s : string) : option hit := hd_error (matches r s).

(** Text of a capture group; empty if the group did not take part in the match. *)
Definition capture (n : string) (h : hit) : string :=
  match assoc_find String.eqb n (h_caps h) with
  | Some t => t
  | None => ""
  end.

(** Literal strings. *)
Definition is_char (c : ascii) : ascii -> bool := Ascii.eqb c.
(** The regular expression matching exactly the text s. *)
Fixpoint RLit (s : string) : re :=
  match s with
  | EmptyString => REmpty
  | String c EmptyString => RClass (is_char c)
  | String c s' => RSeq (RClass (is_char c)) (RLit s')
  end.
(** [chars] as a positive class. *)
Fixpoint mem_char (s : string) (c : ascii) : bool :=
  match s with
  | EmptyString => false
  | String d s' => (Ascii.eqb d c || mem_char s' c)%bool
  end.
(** a1|a2|...|an *)
Fixpoint RAlts (l : list re) : re :=
  match l with
  | [] => RClass (fun _ => false)
  | [a] => a
  | a :: l' => RAlt a (RAlts l')
  end.
