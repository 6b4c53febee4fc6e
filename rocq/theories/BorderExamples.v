(** * What the examples of C68 use *)
From Coq Require Import List.
From Verif Require Import BorderModel.
Definition same (l : list nat) : list (list nat) * list nat := (nil, l).
Definition all (_ : nat) : bool := true.
Definition id (n : nat) : nat := n.
Definition output (compat : nat -> bool) (logical shorthand : bool) (l : list (decl nat nat)) : list (event nat nat) :=
  minify nat nat Nat.eqb compat same logical shorthand SideModel.Physical l.
