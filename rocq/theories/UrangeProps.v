(** * C56: [unicode-range] keeps its code points *)
From Coq Require Import List NArith Ascii Lia.
From Verif Require Import UrangeModel UrangeSpec UrangeProofs.
Import ListNotations.
Local Open Scope N_scope.

(** What is printed for a range stands for this range, and for nothing else *)
Theorem C56_meaning : forall first last, first <= last -> last <= top ->
  denotes (print first last) first last /\ forall a b, denotes (print first last) a b -> a = first /\ b = last.
Proof. exact (fun a b H1 H2 => conj (print_denotes a b H1 H2) (fun c d H => denotes_unique _ c d a b H (print_denotes a b H1 H2))). Qed.
Print Assumptions C56_meaning.
Example C56_meaning_wild : print 4096 8191 = ["U"; "+"; "1"; "?"; "?"; "?"]%char /\ 8191 <= top.
Proof. split; [reflexivity|discriminate]. Qed.
Example C56_meaning_all : print 0 top = ["U"; "+"; "0"; "-"; "1"; "0"; "F"; "F"; "F"; "F"]%char.
Proof. reflexivity. Qed.

(** No text for the same code points is shorter *)
Theorem C56_shortest : forall t first last, denotes t first last -> (length (print first last) <= length t)%nat.
Proof. exact print_shortest. Qed.
Print Assumptions C56_shortest.
Example C56_shortest_case : denotes ["u"; "+"; "0"; "0"; "a"; "0"; "-"; "0"; "a"; "f"]%char 160 175 /\ print 160 175 = ["U"; "+"; "A"; "?"]%char.
Proof.
  split; [|reflexivity].
  apply (Range "u"%char ["0"; "0"; "a"; "0"]%char ["0"; "a"; "f"]%char); try (cbn; lia); [constructor| | |discriminate].
  - exact (Digit ["0"; "0"; "a"]%char 10 "0" 0 (Digit ["0"; "0"]%char 0 "a" 10 (Digit ["0"]%char 0 "0" 0 (Digit [] 0 "0" 0 Empty eq_refl) eq_refl) eq_refl) eq_refl).
  - exact (Digit ["0"; "a"]%char 10 "f" 15 (Digit ["0"]%char 0 "a" 10 (Digit [] 0 "0" 0 Empty eq_refl) eq_refl) eq_refl).
Qed.
