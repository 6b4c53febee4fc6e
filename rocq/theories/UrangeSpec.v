(** * What a [unicode-range] value means (CSS Syntax 3, section 7.1 and css-fonts-4, section 4.5) *)
From Coq Require Import List Bool NArith Ascii.
From Verif Require Import UrangeModel.
Import ListNotations.
Local Open Scope N_scope.

(** Hexadecimal digits in both cases *)
Definition digit_value (c : ascii) : option N :=
  let n := N_of_ascii c in
  if (48 <=? n) && (n <=? 57) then Some (n - 48)
  else if (65 <=? n) && (n <=? 70) then Some (n - 55)
  else if (97 <=? n) && (n <=? 102) then Some (n - 87)
  else None.
(** The digits [t] are a numeral for [n] *)
Inductive numeral : text -> N -> Prop :=
| Empty : numeral [] 0
| Digit t n c d : numeral t n -> digit_value c = Some d -> numeral (t ++ [c]) (n * 16 + d).

(** The largest code point *)
Definition top : N := 1114111.
Inductive letter_u : ascii -> Prop := UpperU : letter_u "U" | LowerU : letter_u "u".
(** The text stands for the code points from [a] to [b] *)
Inductive denotes : text -> N -> N -> Prop :=
| Single u h n : letter_u u -> numeral h n -> (1 <= length h <= 6)%nat -> n <= top -> denotes (u :: "+"%char :: h) n n
| Wild u h n q : letter_u u -> numeral h n -> (1 <= q)%nat -> (length h + q <= 6)%nat -> n * 16 ^ N.of_nat q + (16 ^ N.of_nat q - 1) <= top ->
    denotes (u :: "+"%char :: h ++ repeat "?"%char q) (n * 16 ^ N.of_nat q) (n * 16 ^ N.of_nat q + (16 ^ N.of_nat q - 1))
| Range u h g a b : letter_u u -> numeral h a -> numeral g b -> (1 <= length h <= 6)%nat -> (1 <= length g <= 6)%nat -> a <= b -> b <= top ->
    denotes (u :: "+"%char :: h ++ "-"%char :: g) a b.
