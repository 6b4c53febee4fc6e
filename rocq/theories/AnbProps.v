(** * C62: An+B is read with its CSS meaning and printed so that it is read back *)
From Coq Require Import ZArith String.
From Verif Require Import AnbModel AnbSpec AnbProofs.
Local Open Scope string_scope.
Local Open Scope Z_scope.

(** Every text that CSS gives a step and an offset within an [i32] is read with them *)
Theorem C62_read_partial s a b : anb_text s a b -> int32 a -> int32 b -> b <> - 2147483648 -> read_anb s = Some (a, b).
Proof. exact (read_text s a b). Qed.
Print Assumptions C62_read_partial.
Example C62_read_example : read_anb "-3N - 7" = Some (-3, -7) /\ anb_text "-3N - 7" (-3) (-7).
Proof. exact spaced_example. Qed.

(** ... but not the least [i32] when a space follows its sign *)
Theorem C62_least_refuted : exists s b, anb_text s 1 b /\ int32 b /\ read_anb s <> Some (1, b).
Proof. exact least_refuted. Qed.
Print Assumptions C62_least_refuted.

(** What is printed stands for the same step and offset, whatever they are *)
Theorem C62_printed a b : anb_text (affine a b) a b.
Proof. exact (affine_text a b). Qed.
Print Assumptions C62_printed.

(** What is printed is read back *)
Theorem C62_round_trip a b : int32 a -> int32 b -> read_anb (affine a b) = Some (a, b).
Proof. exact (affine_read a b). Qed.
Print Assumptions C62_round_trip.
Example C62_round_trip_example : affine (-2) 5 = "-2n+5" /\ affine 2 1 = "odd" /\ affine 1 (-4) = "n-4" /\ read_anb "n-4" = Some (1, -4).
Proof. exact affine_example. Qed.

(** A text stands for one step and offset only *)
Theorem C62_one_meaning s a b a' b' : anb_text s a b -> anb_text s a' b' ->
  int32 a -> int32 b -> b <> - 2147483648 -> int32 a' -> int32 b' -> b' <> - 2147483648 -> a = a' /\ b = b'.
Proof. exact (one_meaning s a b a' b'). Qed.
Print Assumptions C62_one_meaning.
