(** How a browser reads an identifier: CSS Syntax Level 3, "would start an
    identifier" and "consume a name", over bytes. *)
From Coq Require Import List Bool String Ascii PeanoNat NArith.
Import ListNotations.
Local Open Scope bool_scope.
Local Open Scope string_scope.

Definition code (c : ascii) : nat := nat_of_ascii c.
Definition in_range (lo hi : nat) (c : ascii) : bool := Nat.leb lo (code c) && Nat.leb (code c) hi.

Definition name_start (c : ascii) : bool :=
  in_range 65 90 c || in_range 97 122 c || Nat.eqb (code c) 95 || Nat.leb 128 (code c).
Definition name_char (c : ascii) : bool :=
  name_start c || in_range 48 57 c || Nat.eqb (code c) 45.
Definition newline (c : ascii) : bool := existsb (Nat.eqb (code c)) [10; 12; 13].
Definition blank (c : ascii) : bool := newline c || existsb (Nat.eqb (code c)) [9; 32].
Definition is_backslash (c : ascii) : bool := Nat.eqb (code c) 92.
Definition is_dash (c : ascii) : bool := Nat.eqb (code c) 45.

(** The value of a hexadecimal digit. *)
Definition hex_value (c : ascii) : option N :=
  if in_range 48 57 c then Some (N.of_nat (code c - 48))
  else if in_range 65 70 c then Some (N.of_nat (code c - 55))
  else if in_range 97 102 c then Some (N.of_nat (code c - 87))
  else None.

(** UTF-8. *)
Definition byte (n : N) : ascii := ascii_of_N n.
Definition utf8 (v : N) : string :=
  if N.ltb v 128 then String (byte v) ""
  else if N.ltb v 2048 then
    String (byte (192 + v / 64)) (String (byte (128 + v mod 64)) "")
  else if N.ltb v 65536 then
    String (byte (224 + v / 4096)) (String (byte (128 + (v / 64) mod 64)) (String (byte (128 + v mod 64)) ""))
  else
    String (byte (240 + v / 262144)) (String (byte (128 + (v / 4096) mod 64))
      (String (byte (128 + (v / 64) mod 64)) (String (byte (128 + v mod 64)) ""))).

Definition fffd : N := 65533.
Definition code_point (v : N) : string :=
  utf8 (if N.eqb v 0 || (N.leb 55296 v && N.leb v 57343) || N.ltb 1114111 v then fffd else v).

(** Where the reader is: at the next code point of the name; just after a
    backslash; or inside a hexadecimal escape with [n] digits read. *)
Inductive rstate := RNext | REscape | RHex (n : nat) (v : N).

Definition cons_name (s : string) (p : string * string) : string * string := (s ++ fst p, snd p).

(** Does [s] begin with something that makes a preceding backslash an escape? *)
Definition escapes (s : string) : bool :=
  match s with String c _ => negb (newline c) | "" => true end.

(** The name and what follows it. *)
Fixpoint read_name (st : rstate) (s : string) : string * string :=
  match s with
  | "" =>
      match st with
      | RNext => ("", "")
      | REscape => (utf8 fffd, "")
      | RHex _ v => (code_point v, "")
      end
  | String c r =>
      let next s' :=
        if name_char c then cons_name (s' ++ String c "") (read_name RNext r)
        else if is_backslash c && escapes r then cons_name s' (read_name REscape r)
        else (s', s) in
      match st with
      | RNext => next ""
      | REscape =>
          match hex_value c with
          | Some d => read_name (RHex 1 d) r
          | None => cons_name (String c "") (read_name RNext r)
          end
      | RHex n v =>
          match hex_value c with
          | Some d =>
              if Nat.ltb n 6 then read_name (RHex (S n) (16 * v + d)%N) r
              else next (code_point v)
          | None =>
              if blank c then cons_name (code_point v) (read_name RNext r)
              else next (code_point v)
          end
      end
  end.

(** Would the text start an identifier? *)
Definition starts_ident (s : string) : bool :=
  match s with
  | "" => false
  | String c r =>
      if is_dash c then
        match r with
        | "" => false
        | String d r' => name_start d || is_dash d || (is_backslash d && escapes r')
        end
      else name_start c || (is_backslash c && escapes r)
  end.

(** The identifier at the start of a text. *)
Definition read_ident (s : string) : option (string * string) :=
  if starts_ident s then Some (read_name RNext s) else None.

(** Text after which an identifier ends. *)
Definition ends_name (s : string) : bool :=
  match s with
  | "" => true
  | String c _ => negb (name_char c) && negb (is_backslash c)
  end.

Fixpoint no_nul (s : string) : bool :=
  match s with
  | "" => true
  | String c r => negb (Nat.eqb (code c) 0) && no_nul r
  end.
