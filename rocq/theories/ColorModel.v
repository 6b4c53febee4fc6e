(** * Printing RGBA colours: src/values/color.rs:556-720, 1589-1675 *)
From Coq Require Import List Bool String Ascii NArith ZArith.
From Coq Require Import Floats.SpecFloat.
Import ListNotations.
Local Open Scope string_scope.
Local Open Scope N_scope.

(** color.rs:1592-1601: four bytes, here numbers below 256 *)
Record rgba := RGBA { red : N; green : N; blue : N; alpha : N }.
Definition is_color (c : rgba) : Prop := red c < 256 /\ green c < 256 /\ blue c < 256 /\ alpha c < 256.

(** color.rs:657-664; the results fit in 32 bits for 32-bit arguments *)
Definition compact_hex (v : N) : N :=
  N.lor (N.shiftr (N.land v 267386880) 12) (N.shiftr (N.land v 4080) 4).
Definition expand_hex (v : N) : N :=
  N.lor (N.lor (N.lor (N.lor (N.shiftl (N.land v 61440) 16) (N.shiftl (N.land v 65280) 12)) (N.shiftl (N.land v 4080) 8))
           (N.shiftl (N.land v 255) 4)) (N.land v 15).

(** [{:0wx}]: lower-case hexadecimal digits, padded with zeros to the width [w] *)
Definition hex_char (n : N) : ascii := if n <? 10 then ascii_of_N (48 + n) else ascii_of_N (87 + n).
Fixpoint hex_digits (fuel : nat) (v : N) (acc : string) : string :=
  match fuel with
  | O => acc
  | S f => let acc := String (hex_char (v mod 16)) acc in if v <? 16 then acc else hex_digits f (v / 16) acc
  end.
Fixpoint zeros (n : nat) : string := match n with O => "" | S m => String "0" (zeros m) end.
Definition fmt_hex (w : nat) (v : N) : string :=
  let s := hex_digits 8 v "" in zeros (w - String.length s) ++ s.
(** [{}] of a byte *)
Fixpoint dec_digits (fuel : nat) (v : N) (acc : string) : string :=
  match fuel with
  | O => acc
  | S f => let acc := String (ascii_of_N (48 + v mod 10)) acc in if v <? 10 then acc else dec_digits f (v / 10) acc
  end.
Definition fmt_dec (v : N) : string := dec_digits 4 v "".

(** color.rs:666-706 *)
Definition short_color_name (v : N) : option string :=
  match v with
  | 128 => Some "navy" | 32768 => Some "green" | 32896 => Some "teal" | 4915330 => Some "indigo"
  | 8388608 => Some "maroon" | 8388736 => Some "purple" | 8421376 => Some "olive" | 8421504 => Some "gray"
  | 10506797 => Some "sienna" | 10824234 => Some "brown" | 12632256 => Some "silver" | 13468991 => Some "peru"
  | 13808780 => Some "tan" | 14315734 => Some "orchid" | 14524637 => Some "plum" | 15631086 => Some "violet"
  | 15787660 => Some "khaki" | 15794175 => Some "azure" | 16113331 => Some "wheat" | 16119260 => Some "beige"
  | 16416882 => Some "salmon" | 16445670 => Some "linen" | 16711680 => Some "red" | 16737095 => Some "tomato"
  | 16744272 => Some "coral" | 16753920 => Some "orange" | 16761035 => Some "pink" | 16766720 => Some "gold"
  | 16770244 => Some "bisque" | 16775930 => Some "snow" | 16777200 => Some "ivory"
  | _ => None
  end.

(** ** Single precision: 24 bits of precision, exponents below 128 *)
Definition f32 := spec_float.
Definition f32_of (z : Z) : f32 := binary_normalize 24 128 z 0 false.
Definition f32_mul : f32 -> f32 -> f32 := SFmul 24 128.
Definition f32_div : f32 -> f32 -> f32 := SFdiv 24 128.
(** [f32::round], half away from zero, of a number that is not negative, as an integer *)
Definition f32_round (x : f32) : N :=
  match x with
  | S754_finite false m e =>
      match e with
      | Z0 => Npos m
      | Zpos k => N.shiftl (Npos m) (Npos k)
      | Zneg k => N.shiftr (Npos m + N.shiftl 1 (Npos k - 1)) (Npos k)
      end
  | _ => 0
  end.
Definition alpha_f32 (a : N) : f32 := f32_div (f32_of (Z.of_N a)) (f32_of 255).
(** color.rs:590-595: the alpha value as a number of hundredths or thousandths *)
Definition rounded_alpha (a : N) : N * nat :=
  let k := f32_round (f32_mul (alpha_f32 a) (f32_of 100)) in
  let clamped := N.min (f32_round (f32_mul (f32_div (f32_of (Z.of_N k)) (f32_of 100)) (f32_of 255))) 255 in
  if clamped =? a then (k, 2%nat) else (f32_round (f32_mul (alpha_f32 a) (f32_of 1000)), 3%nat).
(** The text of [k / 10 ^ d]: [CSSNumber::to_css] (number.rs:32-51).  The number serializer of cssparser
    prints the shortest decimal for the 32-bit number, which is this one without trailing zeros. *)
Definition pad (n : nat) (s : string) : string := zeros (n - String.length s) ++ s.
Fixpoint trim_zeros (s : string) : string :=
  match s with
  | "" => ""
  | String c r => match trim_zeros r with "" => if Ascii.eqb c "0" then "" else String c "" | t => String c t end
  end.
Definition fmt_decimal (k : N) (d : nat) : string :=
  let one := 10 ^ N.of_nat d in
  let whole := k / one in
  let part := trim_zeros (pad d (fmt_dec (k mod one))) in
  match part with
  | "" => fmt_dec whole
  | _ => (if whole =? 0 then "" else fmt_dec whole) ++ "." ++ part
  end.

(** color.rs:563-617; [compile_hex] says whether some target lacks [#rrggbbaa] *)
Definition comma (minify : bool) : string := if minify then "," else ", ".
Definition print_rgba (compile_hex minify : bool) (c : rgba) : string :=
  if alpha c =? 255 then
    let hex := N.lor (N.lor (N.shiftl (red c) 16) (N.shiftl (green c) 8)) (blue c) in
    match short_color_name hex with
    | Some name => name
    | None =>
        let compact := compact_hex hex in
        "#" ++ (if hex =? expand_hex compact then fmt_hex 3 compact else fmt_hex 6 hex)
    end
  else if compile_hex then
    if minify && (red c =? 0) && (green c =? 0) && (blue c =? 0) && (alpha c =? 0) then "transparent"
    else
      let (k, d) := rounded_alpha (alpha c) in
      "rgba(" ++ fmt_dec (red c) ++ comma minify ++ fmt_dec (green c) ++ comma minify ++ fmt_dec (blue c) ++ comma minify
      ++ fmt_decimal k d ++ ")"
  else
    let hex := N.lor (N.lor (N.lor (N.shiftl (red c) 24) (N.shiftl (green c) 16)) (N.shiftl (blue c) 8)) (alpha c) in
    let compact := compact_hex hex in
    "#" ++ (if hex =? expand_hex compact then fmt_hex 4 compact else fmt_hex 8 hex).
