(** Integers as text and as bytes: the parts of GMP (mpz_class::set_str,
    get_str), std::to_string/StrCat and printf that p4_constraints uses. GMP and
    absl are not part of /repo; these definitions are part of the trusted base. *)
From Coq Require Import String Ascii List ZArith NArith Bool.
From Verif Require Import Base.
Import ListNotations.
Open Scope N_scope.

(** Most significant digit first. *)
Definition of_digits (b : N) (ds : list N) : N := fold_left (fun a d => a * b + d) ds 0.

(** GMP's mpz_get_str (not in /repo): the digits of n in base b, most significant first; [fuel] bounds their number. *)
Fixpoint to_digits (fuel : nat) (b n : N) (acc : list N) : list N :=
  match fuel with
  | O => acc
  | S f => let q := n / b in
           let r := n mod b in
           if N.eqb q 0 then r :: acc else to_digits f b q (r :: acc)
  end.
(** The digits of n in base b with enough fuel. *)
Definition digits_of (b n : N) : list N := to_digits (S (N.size_nat n)) b n [].

(** '0'..'9','a'..'z'. *)
Definition digit_char (d : N) : ascii :=
  if N.ltb d 10 then ascii_of_N (48 + d) else ascii_of_N (87 + d).

(** std::string from its characters. *)
Fixpoint string_of_list (l : list ascii) : string :=
  match l with [] => EmptyString | c :: l' => String c (string_of_list l') end.
(** The characters of a std::string. *)
Fixpoint list_of_string (s : string) : list ascii :=
  match s with EmptyString => [] | String c s' => c :: list_of_string s' end.

(** Shortest representation in base [b] (mpz_get_str for b <= 36, lower case). *)
Definition print_N (b n : N) : string := string_of_list (map digit_char (digits_of b n)).
(** Decimal text of a natural number, as printed by operator<< and absl::StrCat. *)
Definition dec_N (n : N) : string := print_N 10 n.
(** mpz_class::get_str(10), std::to_string(int), absl::StrCat(int). *)
Definition dec (z : Z) : string :=
  match z with
  | Z0 => "0"
  | Zpos p => dec_N (Npos p)
  | Zneg p => String "-" (dec_N (Npos p))
  end.

(** Left-pad with '0' up to [w] digits (printf "%.8x"). *)
Definition pad0 (w : nat) (s : string) : string :=
  (repeat_char (w - String.length s) "0" ++ s)%string.

(** GMP's digit_value table for bases up to 36. *)
Definition digit_value (c : ascii) : option N :=
  if is_digit c then Some (byte c - 48)
  else if is_upper c then Some (byte c - 55)
  else if is_lower c then Some (byte c - 87)
  else None.

(** isspace in the C locale. *)
Definition is_space (c : ascii) : bool := (Ascii.eqb c " " || in_range 9 13 c)%bool.

(** mpz_set_str's main loop: digits in base [b], white space skipped. *)
Fixpoint set_digits (b : N) (acc : N) (s : string) : option N :=
  match s with
  | EmptyString => Some acc
  | String c s' =>
      if is_space c then set_digits b acc s'
      else match digit_value c with
           | Some d => if N.ltb d b then set_digits b (acc * b + d) s' else None
           | None => None
           end
  end.

(** GMP's mpz_set_str (not in /repo) skips leading white space. *)
Fixpoint skip_space (s : string) : string :=
  match s with
  | String c s' => if is_space c then skip_space s' else s
  | EmptyString => EmptyString
  end.

(** mpz_class::set_str(text, b): [None] models the return value -1. The C string
    ends at the first NUL. *)
Definition mpz_set_str (text : string) (b : N) : option Z :=
  let s := skip_space (c_str text) in
  let '(neg, s) := match s with
                   | String "-" s' => (true, s')
                   | _ => (false, s)
                   end in
  match s with
  | EmptyString => None
  | String c _ =>
      match digit_value c with
      | Some d =>
          if N.ltb d b then
            match set_digits b 0 s with
            | Some n => Some (if neg then (- Z.of_N n)%Z else Z.of_N n)
            | None => None
            end
          else None
      | None => None
      end
  end.

(** Big-endian value of a byte string. *)
Fixpoint be_value (acc : N) (s : string) : N :=
  match s with
  | EmptyString => acc
  | String c s' => be_value (acc * 256 + byte c) s'
  end.

(** std::bitset<n>::to_string(): n characters '0'/'1', most significant first. *)
Fixpoint bits_string (n : nat) (v : N) : string :=
  match n with
  | O => EmptyString
  | S n' => String (if N.testbit v (N.of_nat n') then "1" else "0") (bits_string n' v)
  end.
