(** gutils/testing.{h,cc}: SnakeCaseToCamelCase. *)
From Coq Require Import String Ascii List NArith Bool.
Import ListNotations.
Open Scope string_scope.

(** absl::ascii_toupper (gutils/testing.cc:33): a letter of a-z minus 32, any other byte unchanged. *)
Definition ascii_toupper (c : ascii) : ascii :=
  let n := N_of_ascii c in if ((97 <=? n) && (n <=? 122))%N then ascii_of_N (n - 32) else c.
(** absl::ascii_tolower (gutils/testing.cc:42). *)
Definition ascii_tolower (c : ascii) : ascii :=
  let n := N_of_ascii c in if ((65 <=? n) && (n <=? 90))%N then ascii_of_N (n + 32) else c.
(** The loop of SnakeCaseToCamelCase, gutils/testing.cc:29-38; [capitalize_next] is its local variable, the result is what it pushes. *)
Fixpoint camel_loop (capitalize_next : bool) (input : string) : string :=
  match input with
  | EmptyString => EmptyString
  | String c rest =>
    if Ascii.eqb c "_" then camel_loop true rest
    else if capitalize_next then String (ascii_toupper c) (camel_loop false rest)
    else String c (camel_loop false rest)
  end.
(** SnakeCaseToCamelCase, gutils/testing.cc:24-46. *)
Definition SnakeCaseToCamelCase (input : string) (lower_first : bool) : string :=
  let result := camel_loop true input in
  match result with
  | String c rest => if lower_first then String (ascii_tolower c) rest else result
  | EmptyString => result
  end.
