(** Examples for the theorems about the substitution of variables. *)
From Coq Require Import List Bool String PeanoNat Lia.
From Verif Require Import TokModel TokExamples SubstModel SubstSpec.
Import ListNotations.
Local Open Scope string_scope.

Definition word (n : string) : item := Tok (TIdent n).
Definition num1 (n : string) : item := Tok (TNumber (whole n false)).
Definition table (l : list (string * list item)) (n : string) : option (list item) :=
  option_map snd (find (fun p => String.eqb n (fst p)) l).

(** [--a: var(--b) x f(var(--c, y))], [--b: var(--d, var(--e, z))], [--e: 1 var(--m)]. *)
Definition vars1 : string -> option (list item) :=
  table [("--a", [Var "--b" None; word "x"; Func "f" [Var "--c" (Some [word "y"])]]);
         ("--b", [Var "--d" (Some [Var "--e" (Some [word "z"])])]);
         ("--e", [num1 "1"; Var "--m" None])].
Definition rank1 (n : string) : nat :=
  if String.eqb n "--a" then 3 else if String.eqb n "--b" then 2 else if String.eqb n "--e" then 1 else 0.

Ltac withins :=
  repeat match goal with
  | H : Within _ (Tok _) |- _ => inversion H; subst; clear H
  | H : Within _ (Var _ _) |- _ => inversion H; subst; clear H
  | H : Within _ (Func _ _) |- _ => inversion H; subst; clear H
  | H : Within _ (word _) |- _ => inversion H; subst; clear H
  | H : Within _ (num1 _) |- _ => inversion H; subst; clear H
  | H : In _ (_ :: _) |- _ => destruct H as [H|H]; [subst|]
  | H : In _ [] |- _ => destruct H
  end.

Lemma vars1_cases : forall n v, vars1 n = Some v ->
  (n = "--a" /\ v = [Var "--b" None; word "x"; Func "f" [Var "--c" (Some [word "y"])]])
  \/ (n = "--b" /\ v = [Var "--d" (Some [Var "--e" (Some [word "z"])])])
  \/ (n = "--e" /\ v = [num1 "1"; Var "--m" None]).
Proof.
  intros n v H. unfold vars1, table in H. cbn [find fst] in H.
  destruct (String.eqb n "--a") eqn:A; [apply String.eqb_eq in A; injection H as <-; auto|].
  destruct (String.eqb n "--b") eqn:B; [apply String.eqb_eq in B; injection H as <-; auto|].
  destruct (String.eqb n "--e") eqn:E; [apply String.eqb_eq in E; injection H as <-; auto|]. discriminate.
Qed.

Lemma vars1_acyclic : Acyclic vars1 rank1.
Proof.
  intros n v m w H (u & fb & I & W) Hm.
  destruct (vars1_cases n v H) as [[-> ->]|[[-> ->]|[-> ->]]]; withins; try discriminate Hm; cbn; lia.
Qed.
Lemma vars1_solid : Solid vars1.
Proof.
  intros n v H.
  destruct (vars1_cases n v H) as [[-> ->]|[[-> ->]|[-> ->]]]; (split; [discriminate|]); intros m u I W; withins.
Qed.

Definition list1 : list item := [Func "g" [Var "--a" None]; Var "--m" None; Var "--q" (Some [Var "--b" None])].
Lemma list1_solid : solid list1.
Proof. intros n u I W. unfold list1 in I. withins. Qed.
