(** How a browser cuts a value into tokens: CSS Syntax Level 3, section 4.3
    ("consume a token"), over bytes.  Comments vanish, a run of white space is
    one token, numbers are their values, and the match operators of selectors
    are two delimiters, as in the current specification.  The flag of a hash is
    not kept.  Beside it, which two tokens may stand next to each other
    (section 9, "serialization"). *)
From Coq Require Import List Bool String Ascii PeanoNat NArith ZArith QArith.
From Verif Require Import IdentSpec NumTextSpec.
Import ListNotations.
Local Open Scope bool_scope.
Local Open Scope string_scope.

Inductive bracket := Paren | Square | Curly.

Inductive tok :=
  | KIdent (n : string)
  | KFunction (n : string)
  | KAt (n : string)
  | KHash (n : string)
  | KString (s : string)
  | KUrl (s : string)
  | KBad
  | KDelim (c : ascii)
  | KNumber (q : Q)
  | KPercent (q : Q)
  | KDimension (q : Q) (unit : string)
  | KSpace
  | KCDO | KCDC
  | KColon | KSemicolon | KComma
  | KOpen (b : bracket) | KClose (b : bracket).

Definition is (n : nat) (c : ascii) : bool := Nat.eqb (code c) n.
Definition digit_char (c : ascii) : bool := in_range 48 57 c.

Fixpoint skip_blank (s : string) : string :=
  match s with String c r => if blank c then skip_blank r else s | "" => "" end.

(** After the two characters that open a comment. *)
Fixpoint skip_comment (s : string) : string :=
  match s with
  | "" => ""
  | String c r =>
      match r with
      | String d r' => if is 42 c && is 47 d then r' else skip_comment r
      | "" => ""
      end
  end.

(** The text of a string or of an address, up to (not including) the first
    character at which it [stop]s; escapes are replaced.  In strings, a
    backslash before a newline is dropped ([line]). *)
Fixpoint read_text (stop : ascii -> bool) (line : bool) (st : rstate) (s : string) : string * string :=
  match s with
  | "" => match st with RNext | REscape => ("", "") | RHex _ v => (code_point v, "") end
  | String c r =>
      let next s' :=
        if stop c then (s', s)
        else if is_backslash c then
          if line || escapes r then cons_name s' (read_text stop line REscape r) else (s', s)
        else cons_name (s' ++ String c "") (read_text stop line RNext r) in
      match st with
      | RNext => next ""
      | REscape =>
          if newline c then read_text stop line RNext r
          else
          match hex_value c with
          | Some d => read_text stop line (RHex 1 d) r
          | None => cons_name (String c "") (read_text stop line RNext r)
          end
      | RHex n v =>
          match hex_value c with
          | Some d =>
              if Nat.ltb n 6 then read_text stop line (RHex (S n) (16 * v + d)%N) r
              else next (code_point v)
          | None =>
              if blank c then cons_name (code_point v) (read_text stop line RNext r)
              else next (code_point v)
          end
      end
  end.

Definition string_stop (quote c : ascii) : bool := Ascii.eqb c quote || newline c.
Definition url_stop (c : ascii) : bool :=
  blank c || existsb (fun n => is n c) [34; 39; 40; 41; 11; 127]%nat
  || in_range 0 8 c || in_range 14 31 c.

Definition read_string (quote : ascii) (s : string) : list tok * string :=
  let (t, r) := read_text (string_stop quote) true RNext s in
  match r with
  | "" => ([KString t], "")
  | String c r' => if Ascii.eqb c quote then ([KString t], r') else ([KBad], r)
  end.

(** What is left of a bad address. *)
Fixpoint skip_bad_url (s : string) : string :=
  match s with
  | "" => ""
  | String c r => if is 41 c then r else skip_bad_url r
  end.

Definition read_url (s : string) : list tok * string :=
  let (t, r) := read_text url_stop false RNext (skip_blank s) in
  match skip_blank r with
  | "" => ([KUrl t], "")
  | String c r' => if is 41 c then ([KUrl t], r') else ([KBad], skip_bad_url r)
  end.

(** ASCII letters in lower case. *)
Definition lower_char (c : ascii) : ascii :=
  if in_range 65 90 c then ascii_of_nat (code c + 32) else c.
Fixpoint lower (s : string) : string :=
  match s with "" => "" | String c r => String (lower_char c) (lower r) end.
Definition is_url (n : string) : bool := String.eqb (lower n) "url".

Definition starts_quote (s : string) : bool :=
  match s with String c _ => is 34 c || is 39 c | "" => false end.

Definition ident_like (s : string) : list tok * string :=
  let (n, r) := read_name RNext s in
  match r with
  | String c r' =>
      if is 40 c then
        if is_url n then
          if starts_quote (skip_blank r') then ([KFunction n], r') else read_url r'
        else ([KFunction n], r')
      else ([KIdent n], r)
  | "" => ([KIdent n], "")
  end.

(** "Would start a number". *)
Definition starts_number (s : string) : bool :=
  match read_number s with Some _ => true | None => false end.

Definition numeric (s : string) : list tok * string :=
  match read_number s with
  | None => ([KBad], s)
  | Some (q, r) =>
      if starts_ident r then let (u, r') := read_name RNext r in ([KDimension (Qred q) u], r')
      else
        match r with
        | String c r' => if is 37 c then ([KPercent (Qred q)], r') else ([KNumber (Qred q)], r)
        | "" => ([KNumber (Qred q)], "")
        end
  end.

Definition opens_name (s : string) : bool :=
  match s with String c r => name_char c || (is_backslash c && escapes r) | "" => false end.


(** One token (none for a comment) and what follows it. *)
Definition next (s : string) : list tok * string :=
  match s with
  | "" => ([], "")
  | String c r =>
      if is 47 c && match r with String d _ => is 42 d | "" => false end then
        ([], match r with String _ r' => skip_comment r' | "" => "" end)
      else if blank c then ([KSpace], skip_blank r)
      else if is 34 c || is 39 c then read_string c r
      else if is 35 c then
        if opens_name r then let (n, r') := read_name RNext r in ([KHash n], r') else ([KDelim c], r)
      else if is 40 c then ([KOpen Paren], r)
      else if is 41 c then ([KClose Paren], r)
      else if is 91 c then ([KOpen Square], r)
      else if is 93 c then ([KClose Square], r)
      else if is 123 c then ([KOpen Curly], r)
      else if is 125 c then ([KClose Curly], r)
      else if is 44 c then ([KComma], r)
      else if is 58 c then ([KColon], r)
      else if is 59 c then ([KSemicolon], r)
      else if is 43 c || is 46 c then
        if starts_number s then numeric s else ([KDelim c], r)
      else if is_dash c then
        if starts_number s then numeric s
        else match r with
             | String d (String e r') =>
                 if is_dash d && is 62 e then ([KCDC], r')
                 else if starts_ident s then ident_like s else ([KDelim c], r)
             | _ => if starts_ident s then ident_like s else ([KDelim c], r)
             end
      else if is 60 c then
        match r with
        | String x (String y (String z r')) =>
            if is 33 x && is_dash y && is_dash z then ([KCDO], r') else ([KDelim c], r)
        | _ => ([KDelim c], r)
        end
      else if is 64 c then
        if starts_ident r then let (n, r') := read_name RNext r in ([KAt n], r') else ([KDelim c], r)
      else if is_backslash c then
        if escapes r then ident_like s else ([KDelim c], r)
      else if digit_char c then numeric s
      else if name_start c then ident_like s
      else ([KDelim c], r)
  end.

(** Reading the tokens [k] off the front of [s] leaves [r]. *)
Inductive Lexes : string -> list tok -> string -> Prop :=
  | LNil : forall s, Lexes s [] s
  | LStep : forall s k1 s' k2 r,
      s <> "" -> next s = (k1, s') -> Lexes s' k2 r -> Lexes s (k1 ++ k2)%list r.

(** White space, next to which a comment stood, is one run of white space. *)
Fixpoint squeeze (k : list tok) : list tok :=
  match k with
  | [] => []
  | KSpace :: r =>
      match squeeze r with KSpace :: r' => KSpace :: r' | r' => KSpace :: r' end
  | t :: r => t :: squeeze r
  end.

(** ** Decimal numerals *)

(** The number that a string of digits writes. *)
Fixpoint digits_value (acc : Z) (s : string) : Z :=
  match s with
  | "" => acc
  | String c r => digits_value (acc * 10 + Z.of_nat (code c - 48)) r
  end.
Fixpoint all_digits (s : string) : bool :=
  match s with "" => true | String c r => digit_char c && all_digits r end.

(** A numeral: sign, digits, digits after the point, exponent. *)
Record dec := { d_neg : bool; d_int : string; d_frac : string; d_exp : option (bool * string) }.

Definition dec_value (d : dec) : Q :=
  let m := inject_Z (digits_value 0 (d_int d ++ d_frac d)) * Qpower 10 (- Z.of_nat (String.length (d_frac d))) in
  let e := match d_exp d with
           | None => 0%Z
           | Some (n, t) => let z := digits_value 0 t in if n then Z.opp z else z
           end in
  let v := m * Qpower 10 e in
  if d_neg d then - v else v.

Definition nonempty (s : string) : bool := match s with "" => false | _ => true end.
Definition dec_ok (d : dec) : bool :=
  nonempty (d_int d) && all_digits (d_int d) && all_digits (d_frac d)
  && match d_exp d with None => true | Some (_, t) => nonempty t && all_digits t end.
