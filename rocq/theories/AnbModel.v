(** * The An+B notation: reading (cssparser's [parse_nth] on CSS tokens) and printing (selectors/parser.rs) *)
From Coq Require Import List Bool ZArith Ascii String.
Import ListNotations.
From Verif Require Import AnimModel.
Local Open Scope string_scope.
Local Open Scope Z_scope.

(** ** Printing, selectors/parser.rs:1318-1340 *)
(** Rust's [{}] of an unsigned integer, of an [i32], and [{:+}] *)
Fixpoint dec_digits (fuel : nat) (v : N) (acc : string) : string :=
  match fuel with
  | O => acc
  | S f => let acc := String (ascii_of_N (48 + v mod 10)) acc in if (v <? 10)%N then acc else dec_digits f (v / 10) acc
  end.
Definition decimal (n : N) : string := dec_digits (S (N.size_nat n)) n "".
Definition fmt (z : Z) : string := if z <? 0 then String "-" (decimal (Z.to_N (- z))) else decimal (Z.to_N z).
Definition fmt_sign (z : Z) : string := if z <? 0 then String "-" (decimal (Z.to_N (- z))) else String "+" (decimal (Z.to_N z)).
(** selectors/parser.rs:1322-1339 *)
Definition affine (a b : Z) : string :=
  if b =? 0 then
    if a =? 0 then "0" else if a =? 1 then "n" else if a =? -1 then "-n" else fmt a ++ "n"
  else if (a =? 2) && (b =? 1) then "odd"
  else if a =? 0 then fmt b
  else if a =? 1 then "n" ++ fmt_sign b
  else if a =? -1 then "-n" ++ fmt_sign b
  else fmt a ++ "n" ++ fmt_sign b.

(** ** Tokens (cssparser's tokenizer, CSS Syntax 4.3).  Simplification: identifiers are of ASCII letters,
    digits, [_] and [-] without escapes, and there are no comments. *)
Inductive ntok :=
| Ws
| Num (signed : bool) (v : Z)
| Dim (signed : bool) (v : Z) (unit : string)
| Id (s : string)
| Delim (c : ascii)
| NotInteger.                      (** a number with a fraction or an exponent *)

Definition is_ws (c : ascii) : bool := match nat_of_ascii c with 9 | 10 | 12 | 13 | 32 => true | _ => false end%nat.
Definition is_digit (c : ascii) : bool := let n := nat_of_ascii c in (Nat.leb 48 n && Nat.leb n 57)%bool.
Definition is_name_start (c : ascii) : bool :=
  let n := nat_of_ascii c in ((Nat.leb 65 n && Nat.leb n 90) || (Nat.leb 97 n && Nat.leb n 122) || Nat.eqb n 95)%bool.
Definition is_name (c : ascii) : bool := is_name_start c || is_digit c || Ascii.eqb c "-".
(** The longest prefix of characters with [p], and the rest *)
Fixpoint take (p : ascii -> bool) (s : string) : string * string :=
  match s with
  | EmptyString => ("", "")
  | String c r => if p c then let '(x, y) := take p r in (String c x, y) else ("", s)
  end.
Definition head (p : ascii -> bool) (s : string) : bool := match s with String c _ => p c | EmptyString => false end.
(** The value of a string of digits *)
Fixpoint digits_value (acc : Z) (s : string) : Z :=
  match s with EmptyString => acc | String c r => digits_value (acc * 10 + (Z.of_nat (nat_of_ascii c) - 48)) r end.
(** An identifier starts here: [-] needs a name start or another [-] *)
Definition starts_ident (s : string) : bool :=
  match s with
  | String "-" (String c _) => is_name_start c || Ascii.eqb c "-"
  | String c _ => is_name_start c
  | EmptyString => false
  end.
Definition is_e (c : ascii) : bool := (Ascii.eqb c "e" || Ascii.eqb c "E")%bool.
Definition is_sign (c : ascii) : bool := (Ascii.eqb c "+" || Ascii.eqb c "-")%bool.
(** A fraction or an exponent follows *)
Definition not_integer (s : string) : bool :=
  match s with
  | String "." (String c _) => is_digit c
  | String c (String d r) => is_e c && (is_digit d || (is_sign d && head is_digit r))
  | _ => false
  end.
(** Integers are kept within an [i32] *)
Definition clamp (v : Z) : Z := Z.max (- 2147483648) (Z.min v 2147483647).
(** The number that starts with these digits *)
Definition number (signed neg : bool) (s : string) : ntok * string :=
  let '(d, r) := take is_digit s in
  if not_integer r then (NotInteger, r)
  else
    let v := clamp (if neg then - digits_value 0 d else digits_value 0 d) in
    if starts_ident r then let '(u, r') := take is_name r in (Dim signed v u, r') else (Num signed v, r).
Definition next (s : string) : option (ntok * string) :=
  match s with
  | EmptyString => None
  | String c r =>
      if is_ws c then Some (Ws, snd (take is_ws r))
      else if is_digit c then Some (number false false s)
      else if Ascii.eqb c "+" && head is_digit r then Some (number true false r)
      else if Ascii.eqb c "-" && head is_digit r then Some (number true true r)
      else if starts_ident s then let '(i, r') := take is_name s in Some (Id i, r')
      else Some (Delim c, r)
  end.
(** [Parser::next], which skips whitespace *)
Definition next_skip (s : string) : option (ntok * string) :=
  match next s with Some (Ws, r) => next r | x => x end.

(** ** cssparser 0.33, nth.rs *)
(** [parse_n_dash_digits] *)
Fixpoint all_digits (s : string) : bool := match s with EmptyString => true | String c r => is_digit c && all_digits r end.
Definition n_dash_digits (s : string) : option Z :=
  match s with
  | String n (String "-" ((String _ _) as d)) =>
      if Ascii.eqb (lower_char n) "n" && all_digits d then Some (clamp (- digits_value 0 d)) else None
  | _ => None
  end.
(** [parse_signless_b] *)
Definition parse_signless_b (a sign : Z) (s : string) : option (Z * Z * string) :=
  match next_skip s with Some (Num false b, r) => Some (a, sign * b, r) | _ => None end.
(** [parse_b] *)
Definition parse_b (a : Z) (s : string) : option (Z * Z * string) :=
  match next_skip s with
  | Some (Delim "+", r) => parse_signless_b a 1 r
  | Some (Delim "-", r) => parse_signless_b a (-1) r
  | Some (Num true b, r) => Some (a, b, r)
  | _ => Some (a, 0, s)
  end.
(** [parse_nth]: the step, the offset and the text that is left *)
Definition parse_nth (s : string) : option (Z * Z * string) :=
  match next_skip s with
  | Some (Num _ b, r) => Some (0, b, r)
  | Some (Dim _ a u, r) =>
      if is_kw "n" u then parse_b a r
      else if is_kw "n-" u then parse_signless_b a (-1) r
      else match n_dash_digits u with Some b => Some (a, b, r) | None => None end
  | Some (Id i, r) =>
      if is_kw "even" i then Some (2, 0, r)
      else if is_kw "odd" i then Some (2, 1, r)
      else if is_kw "n" i then parse_b 1 r
      else if is_kw "-n" i then parse_b (-1) r
      else if is_kw "n-" i then parse_signless_b 1 (-1) r
      else if is_kw "-n-" i then parse_signless_b (-1) (-1) r
      else match i with
           | String "-" i' => match n_dash_digits i' with Some b => Some (-1, b, r) | None => None end
           | _ => match n_dash_digits i with Some b => Some (1, b, r) | None => None end
           end
  | Some (Delim "+", r) =>
      match next r with
      | Some (Id i, r') =>
          if is_kw "n" i then parse_b 1 r'
          else if is_kw "n-" i then parse_signless_b 1 (-1) r'
          else match n_dash_digits i with Some b => Some (1, b, r') | None => None end
      | _ => None
      end
  | _ => None
  end.
(** The whole text is An+B *)
Definition read_anb (s : string) : option (Z * Z) :=
  match parse_nth s with Some (a, b, r) => if String.eqb (snd (take is_ws r)) "" then Some (a, b) else None | None => None end.
