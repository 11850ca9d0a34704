(** What is wrong with an address literal that is none: the messages, independent of the parser's code. *)
From Coq Require Import String Ascii List ZArith NArith.
From Verif Require Import Base Num Token Ast AstConstructors SpecLexer SpecGrammar.
Import ListNotations.
Open Scope string_scope.

Definition digit10 (c : ascii) : Prop := between 48 57 c.
Definition digit16 (c : ascii) : Prop := between 48 57 c \/ between 65 70 c \/ between 97 102 c.
(** The first character of [s] that is not a digit is [c]. *)
Definition first_bad (digit : ascii -> Prop) (s : string) (c : ascii) : Prop :=
  exists a b, s = a ++ String c b /\ Forall digit (chars a) /\ ~ digit c.
Definition length_text (s : string) : string := dec (Z.of_nat (String.length s)).
(** A part of an IPv4 address that is not a byte. *)
Inductive not_dec_byte (s : string) : string -> Prop :=
| nd_length : ~ (1 <= String.length s <= 3)%nat ->
    not_dec_byte s ("Invalid base10 string length: '" ++ length_text s ++ "', expected 0 < string length < 3.")
| nd_char c : (1 <= String.length s <= 3)%nat -> first_bad digit10 s c ->
    not_dec_byte s ("Invalid character in base-10 string: '" ++ String c "" ++ "' in string '" ++ s ++ "'")
| nd_big n : (1 <= String.length s <= 3)%nat -> Reads 10 s n -> (255 < n)%N ->
    not_dec_byte s ("Invalid base10 string. Buffer size of '" ++ dec (Z.of_N n) ++ "' exceeded 255").
(** A part of a MAC address that is not a byte. *)
Inductive not_hex_byte (s : string) : string -> Prop :=
| nh_length : ~ (1 <= String.length s <= 2)%nat ->
    not_hex_byte s ("Invalid base16 string length: '" ++ length_text s ++ "', expected 0 < string length <= 2.")
| nh_char c : (1 <= String.length s <= 2)%nat -> first_bad digit16 s c ->
    not_hex_byte s ("Invalid character in base16 string: '" ++ String c "" ++ "' in string '" ++ s ++ "'").
(** [s] consists of the parts [ss], separated by [sep]. *)
Definition parts (sep : ascii) (s : string) (ss : list string) : Prop :=
  ss <> [] /\ s = String.concat (String sep "") ss /\ forall p, In p ss -> ~ In sep (chars p).
(** [p] is the first part that is not a byte. *)
Definition first_part (byte_part : string -> N -> Prop) (ss : list string) (p : string) : Prop :=
  exists a b, ss = (a ++ p :: b)%list /\ (forall q, In q a -> exists n, byte_part q n) /\ forall n, ~ byte_part p n.
Inductive address_error (pton : inet_pton6) : string -> string -> string -> Prop :=
| ae_kind id s : id <> "ipv4" -> id <> "ipv6" -> id <> "mac" -> address_error pton id s "Invalid network identifier"
| ae_ipv4_length s ss : parts "." s ss -> List.length ss <> 4%nat ->
    address_error pton "ipv4" s ("Invalid length for an IPv4 address: '" ++ s ++ "'. Expected IPv4 address to be 4 bytes.")
| ae_ipv4_part s ss p m : parts "." s ss -> List.length ss = 4%nat -> first_part dec_byte ss p -> not_dec_byte p m -> address_error pton "ipv4" s m
| ae_mac_length s ss : parts ":" s ss -> List.length ss <> 6%nat ->
    address_error pton "mac" s ("Invalid length for MAC address: '" ++ s ++ "'. Expected MAC address to be 6 bytes.")
| ae_mac_part s ss p m : parts ":" s ss -> List.length ss = 6%nat -> first_part hex_byte ss p -> not_hex_byte p m -> address_error pton "mac" s m
| ae_ipv6 s t : up_to_nul s t -> pton t = None -> address_error pton "ipv6" s ("Invalid Ipv6 address: " ++ s).
