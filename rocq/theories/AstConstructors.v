(** Model of p4_constraints/frontend/ast_constructors.cc. *)
From Coq Require Import String Ascii List ZArith NArith Bool.
From Verif Require Import Base Num Token Ast Lexer.
Import ListNotations.
Open Scope string_scope.

(** frontend/constraint_kind.h. *)
Inductive constraint_kind := kTableConstraint | kActionConstraint.

(** ast_constructors.cc:50-75. *)
Definition ConvertBinaryOperator (k : kind) : outcome binop :=
  match k with
  | AND | SEMICOLON => Ok OAND
  | OR => Ok OOR
  | IMPLIES => Ok OIMPLIES
  | EQ => Ok OEQ
  | NE => Ok ONE
  | GT => Ok OGT
  | GE => Ok OGE
  | LT => Ok OLT
  | LE => Ok OLE
  | _ => Err InvalidArgument ("expected binary operator, got " ++ KindToKeyword k)
  end.

(** ast_constructors.cc:77-100. *)
Definition ConvertNumeral (t : token) : outcome string :=
  let go (b : N) (what : string) :=
    match mpz_set_str (t_text t) b with
    | Some z => Ok (dec z)
    | None => Err Internal
                ("RET_CHECK failure: invalid " ++ what ++ " string " ++ dq ++ t_text t ++ dq ++ "." ++ nl)
    end in
  match t_kind t with
  | BINARY => go 2%N "binary"
  | OCTARY => go 8%N "octary"
  | DECIMAL => go 10%N "decimal"
  | HEXADEC => go 16%N "hexadecimal"
  | k => Err InvalidArgument ("expected numeral, got " ++ KindToKeyword k)
  end.

(** ast_constructors.cc:102-130. char is signed on the supported platforms;
    bytes >= 0x80 are rejected by c < '0' either way. *)
Fixpoint base10_loop (all s : string) (buffer : N) : outcome N :=
  match s with
  | EmptyString => Ok buffer
  | String c s' =>
      if is_digit c then base10_loop all s' (buffer * 10 + (byte c - 48))%N
      else Err InvalidArgument
             ("Invalid character in base-10 string: '" ++ str1 c ++ "' in string '" ++ all ++ "'")
  end.
(** ast_constructors.cc:102-130, Base10StringToByte. *)
Definition Base10StringToByte (s : string) : outcome N :=
  if (String.eqb s "" || Nat.ltb 3 (String.length s))%bool then
    Err InvalidArgument
      ("Invalid base10 string length: '" ++ dec (slen s) ++ "', expected 0 < string length < 3.")
  else
    let* buffer := base10_loop s s 0%N in
    if N.ltb 255 buffer then
      Err InvalidArgument
        ("Invalid base10 string. Buffer size of '" ++ dec (Z.of_N buffer) ++ "' exceeded 255")
    else Ok buffer.

(** ast_constructors.cc:132-155. *)
Definition hex_digit_value (c : ascii) : N :=
  if N.leb 65 (byte c) then
    if N.leb 97 (byte c) then (byte c - 97 + 10)%N else (byte c - 65 + 10)%N
  else (byte c - 48)%N.
(** ast_constructors.cc:142-152, the loop of Base16StringToByte. *)
Fixpoint base16_loop (all s : string) (buffer : N) : outcome N :=
  match s with
  | EmptyString => Ok buffer
  | String c s' =>
      if is_hex c then base16_loop all s' (buffer * 16 + hex_digit_value c)%N
      else Err InvalidArgument
             ("Invalid character in base16 string: '" ++ str1 c ++ "' in string '" ++ all ++ "'")
  end.
(** ast_constructors.cc:132-155, Base16StringToByte. *)
Definition Base16StringToByte (s : string) : outcome N :=
  if (String.eqb s "" || Nat.ltb 2 (String.length s))%bool then
    Err InvalidArgument
      ("Invalid base16 string length: '" ++ dec (slen s) ++ "', expected 0 < string length <= 2.")
  else
    let* buffer := base16_loop s s 0%N in
    Ok (buffer mod 256)%N.  (* memcpy of the low byte *)

(** Shift-in of bytes into std::bitset<n> (ast_constructors.cc:168-173, 182-186,
    212-217): bits <<= 8 drops what leaves the n bits. *)
Definition bitset_push (n : N) (bits b : N) : N := N.lor ((N.shiftl bits 8) mod (2 ^ n))%N b.

(** ast_constructors.cc:169-173 and 213-217, shifting the converted parts into the bitset. *)
Fixpoint push_bytes (n : N) (conv : string -> outcome N) (bs : list string) (bits : N) : outcome N :=
  match bs with
  | [] => Ok bits
  | s :: bs' =>
      let* b := conv s in
      push_bytes n conv bs' (bitset_push n bits b)
  end.

(** ast_constructors.cc:157-175. *)
Definition Ipv4StringToByteString (addr : string) : outcome string :=
  let bytes := split_char "." addr in
  if negb (Nat.eqb (List.length bytes) 4) then
    Err InvalidArgument ("Invalid length for an IPv4 address: '" ++ addr ++
                         "'. Expected IPv4 address to be 4 bytes.")
  else
    let* bits := push_bytes 32 Base10StringToByte bytes 0%N in
    Ok (bits_string 32 bits).

(** ast_constructors.cc:177-188. *)
Fixpoint AnyByteStringToBitset (n : N) (s : string) (bits : N) : N :=
  match s with
  | EmptyString => bits
  | String c s' => AnyByteStringToBitset n s' (bitset_push n bits (byte c))
  end.

(** inet_pton(AF_INET6, src, dst): [Some bytes] models return value 1 with the
    16-byte network-order address. libc is not modelled; theorems quantify over
    this function. It is applied to [c_str] of its argument because the C++
    passes [.data()] (ast_constructors.cc:193). The call passes the literal 10
    (AF_INET6 on Linux) as address family. *)
Definition inet_pton6 := string -> option string.

(** ast_constructors.cc:190-199. *)
Definition Ipv6StringToByteString (pton : inet_pton6) (addr : string) : outcome string :=
  match pton (c_str addr) with
  | Some bytes => Ok (bits_string 128 (AnyByteStringToBitset 128 bytes 0%N))
  | None => Err InvalidArgument ("Invalid Ipv6 address: " ++ addr)
  end.

(** ast_constructors.cc:201-219. *)
Definition MacStringToByteString (addr : string) : outcome string :=
  let bytes := split_char ":" addr in
  if negb (Nat.eqb (List.length bytes) 6) then
    Err InvalidArgument ("Invalid length for MAC address: '" ++ addr ++
                         "'. Expected MAC address to be 6 bytes.")
  else
    let* bits := push_bytes 48 Base16StringToByte bytes 0%N in
    Ok (bits_string 48 bits).

(** ast_constructors.cc:223-229. *)
Definition Located (s e : loc) : meta := mkMeta s e TNotSet.

(** ast_constructors.cc:235-242. *)
Definition MakeBooleanConstant (t : token) : outcome expr :=
  check* ret_check (kind_eqb (t_kind t) TRUE || kind_eqb (t_kind t) FALSE)
           ("expected boolean, got " ++ KindToKeyword (t_kind t));
  Ok (EBool (Located (t_start t) (t_end t)) (kind_eqb (t_kind t) TRUE)).

(** ast_constructors.cc:244-250. *)
Definition MakeIntegerConstant (t : token) : outcome expr :=
  let* s := ConvertNumeral t in
  Ok (EInt (Located (t_start t) (t_end t)) s).

(** ast_constructors.cc:252-282. *)
Definition MakeNetworkAddressIntegerConstant (pton : inet_pton6) (address_type address : string)
    (s e : loc) : outcome expr :=
  let* bits :=
    if String.eqb address_type "ipv4" then Ipv4StringToByteString address
    else if String.eqb address_type "ipv6" then Ipv6StringToByteString pton address
    else if String.eqb address_type "mac" then MacStringToByteString address
    else Err InvalidArgument "Invalid network identifier" in
  let* numeral := ConvertNumeral (mkTok BINARY bits s e) in
  Ok (EInt (Located s e) numeral).

(** ast_constructors.cc:284-291. *)
Definition MakeBooleanNegation (bang : token) (operand : expr) : outcome expr :=
  check* ret_check (kind_eqb (t_kind bang) BANG) "bang_token.kind == Token::BANG";
  Ok (ENot (Located (t_start bang) (e_end operand)) operand).

(** ast_constructors.cc:293-300. *)
Definition MakeArithmeticNegation (minus : token) (operand : expr) : outcome expr :=
  check* ret_check (kind_eqb (t_kind minus) MINUS) "minus_token.kind == Token::MINUS";
  Ok (ENeg (Located (t_start minus) (e_end operand)) operand).

(** ast_constructors.cc:302-335. [tokens.front()]/[back()]: the list is nonempty. *)
Definition MakeVariable (tokens : list token) (ck : constraint_kind) : outcome expr :=
  match tokens with
  | [] => Err Internal "RET_CHECK failure: tokens.size() > 0"
  | t0 :: _ =>
      check* ret_check (forallb (fun t => kind_eqb (t_kind t) ID) tokens) "id.kind == Token::ID";
      let m := Located (t_start t0) (t_end (last tokens t0)) in
      match ck with
      | kTableConstraint => Ok (EKey m (join "." (map t_text tokens)))
      | kActionConstraint => Ok (EParam m (concat_strings (map t_text tokens)))
      end
  end.

(** ast_constructors.cc:337-343. *)
Definition MakeAttributeAccess (double_colon attribute_name : token) : outcome expr :=
  Ok (EAttr (Located (t_start double_colon) (t_end attribute_name)) (t_text attribute_name)).

(** ast_constructors.cc:345-358. *)
Definition MakeBinaryExpression (op : token) (left right : expr) : outcome expr :=
  let* b := ConvertBinaryOperator (t_kind op) in
  Ok (EBin (Located (e_start left) (e_end right)) b left right).

(** ast_constructors.cc:360-368. *)
Definition MakeFieldAccess (e : expr) (field : token) : outcome expr :=
  check* ret_check (kind_eqb (t_kind field) ID) "field.kind == Token::ID";
  Ok (EField (Located (e_start e) (t_end field)) (t_text field) e).
