(** Model of the CSS modules naming pattern and of the file hash,
    /repo/src/css_modules.rs.  Text is a string of UTF-8 bytes. *)
From Coq Require Import List Bool String Ascii PeanoNat NArith.
Import ListNotations.
Local Open Scope nat_scope.
Local Open Scope bool_scope.
Local Open Scope string_scope.

(** [Segment], css_modules.rs:196-210. *)
Inductive segment := SLiteral (s : string) | SName | SLocal | SHash | SContentHash.

(** [PatternParseError], css_modules.rs:84-91. *)
Inductive pattern_error := UnknownPlaceholder (s : string) (i : nat) | UnclosedBrackets (i : nat).

(** [str::find] of a character. *)
Fixpoint find_char (c : ascii) (s : string) : option nat :=
  match s with
  | "" => None
  | String d r => if Ascii.eqb c d then Some 0 else option_map S (find_char c r)
  end.

(** [&s[0..n]] and [&s[n..]]. *)
Fixpoint str_take (n : nat) (s : string) : string :=
  match n, s with
  | S n', String c r => String c (str_take n' r)
  | _, _ => ""
  end.
Fixpoint str_drop (n : nat) (s : string) : string :=
  match n, s with
  | S n', String _ r => str_drop n' r
  | _, _ => s
  end.

Definition starts_bracket (s : string) : bool :=
  match s with String c _ => Ascii.eqb c "[" | "" => false end.

(** The texts matched at css_modules.rs:117-123. *)
Definition placeholder (s : string) : option segment :=
  if String.eqb s "[name]" then Some SName
  else if String.eqb s "[local]" then Some SLocal
  else if String.eqb s "[hash]" then Some SHash
  else if String.eqb s "[content-hash]" then Some SContentHash
  else None.

Definition cons_seg (x : segment) (r : list segment + pattern_error) : list segment + pattern_error :=
  match r with inl l => inl (x :: l) | inr e => inr e end.

(** The loop of [Pattern::parse], css_modules.rs:111-139.  [None] is out of
    fuel. *)
Fixpoint parse_loop (fuel : nat) (input : string) (start : nat) : option (list segment + pattern_error) :=
  match fuel with
  | 0 => None
  | S fuel' =>
      match input with
      | "" => Some (inl [])
      | _ =>
          if starts_bracket input then
            match find_char "]" input with
            | Some e =>
                let text := str_take (S e) input in
                match placeholder text with
                | Some seg => option_map (cons_seg seg) (parse_loop fuel' (str_drop (S e) input) (start + e + 1))
                | None => Some (inr (UnknownPlaceholder text start))
                end
            | None => Some (inr (UnclosedBrackets start))
            end
          else
            let e := match find_char "[" input with Some e => e | None => String.length input end in
            option_map (cons_seg (SLiteral (str_take e input)))
              (parse_loop fuel' (str_drop e input) (start + e))
      end
  end.

(** [Pattern::parse], css_modules.rs:108-140. *)
Definition parse_pattern (input : string) : option (list segment + pattern_error) :=
  parse_loop (S (String.length input)) input 0.

(** [has_content_hash], css_modules.rs:143-145. *)
Definition has_content_hash (p : list segment) : bool :=
  existsb (fun s => match s with SContentHash => true | _ => false end) p.

(** [stem.replace('.', "-")], css_modules.rs:167-171; replacing nothing when
    there is no dot is the same. *)
Fixpoint undot (s : string) : string :=
  match s with
  | "" => ""
  | String c r => String (if Ascii.eqb c "." then "-" else c)%char (undot r)
  end.

(** One call of [write] per segment, css_modules.rs:148-185.  [stem] is the
    file stem of the path. *)
Definition segment_text (hash stem local content : string) (s : segment) : string :=
  match s with
  | SLiteral t => t
  | SName => undot stem
  | SLocal => local
  | SHash => hash
  | SContentHash => content
  end.
Definition pattern_write (p : list segment) (hash stem local content : string) : list string :=
  map (segment_text hash stem local content) p.

(** [write_to_string], css_modules.rs:187-200. *)
Definition pattern_string (p : list segment) (res hash stem local content : string) : string :=
  fold_left append (pattern_write p hash stem local content) res.

(** [ENCODER], css_modules.rs:263-271: base 64 with this alphabet, most
    significant bit first, no padding. *)
Definition alphabet : string := "abcdefghijklmnopqrstuvwxyzABCDEFGHIJKLMNOPQRSTUVWXYZ1234567890_-".
Definition symbol (n : N) : ascii :=
  match String.get (N.to_nat n) alphabet with Some c => c | None => "a"%char end.

(** The four little-endian bytes of the 32-bit value, as one number with the
    first byte highest, and four zero bits below. *)
Definition le_bits (v : N) : N :=
  (((v mod 256) * 16777216 + ((v / 256) mod 256) * 65536
    + ((v / 65536) mod 256) * 256 + (v / 16777216) mod 256) * 16)%N.

Definition encode (v : N) : string :=
  let b := le_bits v in
  String (symbol (b / 1073741824))
    (String (symbol ((b / 16777216) mod 64))
      (String (symbol ((b / 262144) mod 64))
        (String (symbol ((b / 4096) mod 64))
          (String (symbol ((b / 64) mod 64))
            (String (symbol (b mod 64)) ""))))).

Definition starts_digit (s : string) : bool :=
  match s with
  | String c _ => Nat.leb 48 (nat_of_ascii c) && Nat.leb (nat_of_ascii c) 57
  | "" => false
  end.

(** [hash], css_modules.rs:536-547, given the 32 bits of the hasher. *)
Definition hash_text (v : N) (at_start : bool) : string :=
  let h := encode v in
  if at_start && starts_digit h then "_" ++ h else h.

(** [matches!(config.pattern.segments[0], Segment::Hash)], css_modules.rs:303;
    [None] is the panic for an empty pattern. *)
Definition hash_at_start (p : list segment) : option bool :=
  match p with
  | [] => None
  | SHash :: _ => Some true
  | _ :: _ => Some false
  end.
