(** * Printing of [unicode-range] (src/rules/font_face.rs:303-368) *)
From Coq Require Import List Bool NArith Ascii.
Import ListNotations.
Local Open Scope N_scope.

Definition text := list ascii.

(** The format [{:X}] of Rust for 32-bit numbers, which have at most eight digits *)
Definition digit (d : N) : ascii := ascii_of_N (if d <? 10 then 48 + d else 55 + d).
Fixpoint digits (fuel : nat) (n : N) (acc : text) : text :=
  match fuel with
  | O => acc
  | S f => let acc := digit (n mod 16) :: acc in if n / 16 =? 0 then acc else digits f (n / 16) acc
  end.
Definition hex (n : N) : text := digits 8 n [].

(** font_face.rs:328-340: [shift] and [mask] of the first hexadecimal digit that differs, starting at
    [0xf << 24]; the loop makes at most [fuel] = 6 steps, until [shift] is 0 *)
Fixpoint first_difference (fuel : nat) (shift mask start last : N) : N :=
  match fuel with
  | O => shift
  | S f => if negb (N.land start mask =? N.land last mask) then shift else first_difference f (shift - 4) (N.shiftr mask 4) start last
  end.

Definition plus : text := ["U"; "+"]%char.
(** font_face.rs:357-360: one question mark for each four bits *)
Definition marks (shift : N) : text := repeat "?"%char (N.to_nat (shift / 4)).
(** font_face.rs:342-363; [!remainder_mask] is the complement in 32 bits *)
Definition wildcard (start last : N) : option text :=
  if start =? last then None
  else
    let shift := first_difference 6 24 (N.shiftl 15 24) start last + 4 in
    let rest := N.shiftl 1 shift - 1 in
    if (N.land start rest =? 0) && (N.land last rest =? rest) then
      let first := N.shiftr (N.ldiff start rest) shift in
      Some (plus ++ (if first =? 0 then [] else hex first) ++ marks shift)
    else None.
(** font_face.rs:321-367 *)
Definition print (start last : N) : text :=
  match wildcard start last with
  | Some t => t
  | None => plus ++ hex start ++ (if last =? start then [] else "-"%char :: hex last)
  end.
