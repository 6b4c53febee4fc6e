(** Serialization of identifiers, as the printer uses it: [serialize_identifier]
    and [serialize_name] of the cssparser crate (src/serializer.rs there), called
    from /repo/src/printer.rs:290-361, values/ident.rs:165-255.  The crate is
    not part of /repo; this is its algorithm.  Text is a string of UTF-8
    bytes. *)
From Coq Require Import List Bool String Ascii PeanoNat.
Import ListNotations.
Local Open Scope nat_scope.
Local Open Scope bool_scope.
Local Open Scope string_scope.

Definition between (lo hi : nat) (c : ascii) : bool :=
  Nat.leb lo (nat_of_ascii c) && Nat.leb (nat_of_ascii c) hi.
Definition is_digit (c : ascii) : bool := between 48 57 c.
Definition is_letter (c : ascii) : bool := between 65 90 c || between 97 122 c.
Definition is_non_ascii (c : ascii) : bool := between 128 255 c.
Definition ch (n : nat) : ascii := ascii_of_nat n.
Definition one (c : ascii) : string := String c EmptyString.
Definition backslash : ascii := ch 92.
Definition dash : ascii := ch 45.
Definition lf : ascii := ch 10.
Definition space : ascii := ch 32.

(** Bytes [serialize_name] copies. *)
Definition plain_byte (c : ascii) : bool :=
  is_digit c || is_letter c || Ascii.eqb c "_" || Ascii.eqb c "-" || is_non_ascii c.

Definition hex_digit (n : nat) : ascii :=
  if Nat.ltb n 10 then ch (48 + n) else ch (87 + n).

(** [hex_escape]: backslash, one or two digits, a space. *)
Definition hex_escape (c : ascii) : string :=
  let n := nat_of_ascii c in
  if Nat.leb n 15 then String backslash (String (hex_digit n) (one space))
  else String backslash (String (hex_digit (n / 16)) (String (hex_digit (n mod 16)) (one space))).

(** [char_escape]. *)
Definition char_escape (c : ascii) : string := String backslash (one c).

(** U+FFFD in UTF-8. *)
Definition replacement : string := String (ch 239) (String (ch 191) (one (ch 189))).

Definition escape_byte (c : ascii) : string :=
  if plain_byte c then one c
  else if Ascii.eqb c (ch 0) then replacement
  else if between 1 31 c || Ascii.eqb c (ch 127) then hex_escape c
  else char_escape c.

(** [serialize_name]. *)
Fixpoint ser_name (s : string) : string :=
  match s with
  | EmptyString => EmptyString
  | String c r => escape_byte c ++ ser_name r
  end.

(** The part of [serialize_identifier] after the dash: a leading digit is
    escaped. *)
Definition ser_start (s : string) : string :=
  match s with
  | EmptyString => EmptyString
  | String c r => if is_digit c then hex_escape c ++ ser_name r else ser_name s
  end.

(** [serialize_identifier]. *)
Definition ser_ident (s : string) : string :=
  match s with
  | EmptyString => EmptyString
  | String c EmptyString =>
      if Ascii.eqb c dash then String backslash (one dash) else ser_start s
  | String c (String d r) =>
      if Ascii.eqb c dash then
        if Ascii.eqb d dash then String dash (String dash (ser_name r))
        else String dash (ser_start (String d r))
      else ser_start s
  end.
