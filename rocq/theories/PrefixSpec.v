(** * What prefixed declarations mean *)
From Coq Require Import List Bool PeanoNat.
From Verif Require Import PrefixModel.
Import ListNotations.

Section Values.
Variable V R W : Type.
(** A browser ignores values it does not know, and gives the others a meaning *)
Record browser := Browser { knows : V -> bool; knows_raw : R -> bool; value : V -> W }.
Inductive cell := CVal (w : W) | CRaw (u : R).
(** Which properties set which longhands *)
Variable covers : nat -> nat -> bool.

Definition gives (br : browser) (x : nat) (p : pfx) (d : decl V R) : option cell :=
  match d with
  | Parsed k v s => if covers k x && has s p && knows br v then Some (CVal (value br v)) else None
  | Unparsed k u s => if covers k x && has s p && knows_raw br u then Some (CRaw u) else None
  | Other _ => None
  end.
(** The value of the longhand [x] with the prefix [p]: the last declaration that gives one wins; [o] is what stood
    before *)
Definition used_from (br : browser) (x : nat) (p : pfx) (o : option cell) (l : list (decl V R)) : option cell :=
  fold_left (fun o d => match gives br x p d with Some c => Some c | None => o end) l o.

Definition modern (br : browser) : Prop := (forall v, knows br v = true) /\ forall u, knows_raw br u = true.
(** A declaration as it was written: one prefix, and a parsed value if it is of property [k] *)
Definition written (k : nat) (d : decl V R) : Prop :=
  match d with
  | Parsed k' _ s => k' = k -> exists p, s = single p
  | Unparsed k' _ _ => k' <> k
  | Other _ => True
  end.
(** A prefix is not given another value once a different prefix has the same value *)
Definition steady (br : browser) (k : nat) (l : list (decl V R)) : Prop :=
  forall l1 v p l2, l = l1 ++ Parsed k v (single p) :: l2 ->
    forall w, used_from br k p None l1 = Some (CVal w) -> w <> value br v ->
    forall q, q <> p -> used_from br k q None l1 <> Some (CVal w).
(** Declarations of [k] without a prefix *)
Definition unprefixed (k : nat) (d : decl V R) : Prop :=
  match d with Parsed k' _ s | Unparsed k' _ s => k' = k -> s = single NoPrefix | Other _ => True end.
End Values.
Arguments Browser {V R W}. Arguments knows {V R W}. Arguments knows_raw {V R W}. Arguments value {V R W}. Arguments CVal {R W}. Arguments CRaw {R W}. Arguments gives {V R W}.
Arguments used_from {V R W}. Arguments modern {V R W}. Arguments written {V R}. Arguments steady {V R W}. Arguments unprefixed {V R}.
(** Properties that have nothing to do with each other *)
Definition alone (k x : nat) : bool := Nat.eqb k x.
(** [caret] (1) is a shorthand that sets [caret-color] (0) too *)
Definition caret (k x : nat) : bool := Nat.eqb k x || Nat.eqb k 1.
(** The prefix table always lists the property without a prefix *)
Definition proper_table (t : targets) : Prop := forall f, needed t = Some f -> forall k, none (f k) = true.
