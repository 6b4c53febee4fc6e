(** * What An+B means (CSS Syntax 6) *)
From Coq Require Import List Bool ZArith Ascii String.
Import ListNotations.
Local Open Scope string_scope.
Local Open Scope Z_scope.

(** Decimal digits and their value *)
Inductive digits : string -> Z -> Prop :=
| digit_one (d : nat) : (d < 10)%nat -> digits (String (ascii_of_nat (48 + d)) "") (Z.of_nat d)
| digit_more (s : string) (v : Z) (d : nat) : digits s v -> (d < 10)%nat -> digits (s ++ String (ascii_of_nat (48 + d)) "") (v * 10 + Z.of_nat d).
Inductive sign : string -> Z -> Prop := sign_plus : sign "+" 1 | sign_minus : sign "-" (-1).
Inductive opt_sign : string -> Z -> Prop := no_sign : opt_sign "" 1 | some_sign s v : sign s v -> opt_sign s v.
Inductive spaces : string -> Prop :=
| space_none : spaces ""
| space_more (c : ascii) (s : string) : In c [" "%char; "009"%char; "010"%char; "012"%char; "013"%char] -> spaces s -> spaces (String c s).
Inductive letter_n : string -> Prop := lower_n : letter_n "n" | upper_n : letter_n "N".
(** A word in any letter case *)
Inductive any_case : string -> string -> Prop :=
| case_nil : any_case "" ""
| case_same (c : ascii) (a b : string) : any_case a b -> any_case (String c a) (String c b)
| case_upper (c : nat) (a b : string) : (97 <= c <= 122)%nat -> any_case a b -> any_case (String (ascii_of_nat c) a) (String (ascii_of_nat (c - 32)) b).
(** The step: [2], [-3], nothing, [+], [-] *)
Inductive step : string -> Z -> Prop :=
| step_number s d k v : opt_sign s k -> digits d v -> step (s ++ d) (k * v)
| step_sign s k : opt_sign s k -> step s k.
(** The offset: sign and digits with spaces around the sign *)
Inductive offset : string -> Z -> Prop :=
| offset_some w s w' d k v : spaces w -> sign s k -> spaces w' -> digits d v -> offset (w ++ s ++ w' ++ d) (k * v).
(** The text stands for the indices [a * n + b] *)
Inductive anb_text : string -> Z -> Z -> Prop :=
| anb_odd s : any_case "odd" s -> anb_text s 2 1
| anb_even s : any_case "even" s -> anb_text s 2 0
| anb_number s d k v : opt_sign s k -> digits d v -> anb_text (s ++ d) 0 (k * v)
| anb_step s n a : step s a -> letter_n n -> anb_text (s ++ n) a 0
| anb_full s n o a b : step s a -> letter_n n -> offset o b -> anb_text (s ++ n ++ o) a b.

(** The integers of an [i32] *)
Definition int32 (z : Z) : Prop := - 2147483648 <= z <= 2147483647.
