(** * What declarations of a shorthand and its longhands mean (CSS Cascade) *)
From Coq Require Import List Bool PeanoNat.
From Verif Require Import ShortModel.
Import ListNotations.

Section Values.
Variable V R W X : Type.

(** A browser ignores declarations with values it does not know, and gives the others a meaning *)
Record browser := Browser { knows : V -> bool; knows_raw : R -> bool; value : V -> W; tokens : R -> X }.
(** What a longhand is given: a value, the tokens of its own unparsed declaration, or its part of the
    tokens of an unparsed shorthand *)
Inductive cell := CVal (w : W) | CTokens (x : X) | CPart (x : X).

(** [n] longhands *)
Definition accepts (n : nat) (br : browser) (d : decl V R) : bool :=
  match d with
  | DLong _ v => knows br v
  | DShort f => forallb (fun k => knows br (f k)) (seq 0 n)
  | DRaw _ u => knows_raw br u
  end.
Definition gives (br : browser) (d : decl V R) (k : nat) : option cell :=
  match d with
  | DLong j v => if Nat.eqb j k then Some (CVal (value br v)) else None
  | DShort f => Some (CVal (value br (f k)))
  | DRaw (Some j) u => if Nat.eqb j k then Some (CTokens (tokens br u)) else None
  | DRaw None u => Some (CPart (tokens br u))
  end.
(** The last declaration that gives something wins; [o] is what the longhand had before *)
Fixpoint used_from (o : option cell) (n : nat) (br : browser) (l : list (decl V R)) (k : nat) : option cell :=
  match l with
  | [] => o
  | d :: r => used_from (if accepts n br d then match gives br d k with Some c => Some c | None => o end else o) n br r k
  end.
Definition used := used_from None.

(** The declarations name longhands that exist *)
Definition wf (n : nat) (d : decl V R) : Prop :=
  match d with DLong k _ | DRaw (Some k) _ => k < n | _ => True end.
(** A browser that knows every value *)
Definition modern (br : browser) : Prop := (forall v, knows br v = true) /\ forall u, knows_raw br u = true.
(** It knows the values of a shorthand, or none of them *)
Definition uniform (n : nat) (br : browser) (d : decl V R) : Prop :=
  match d with DShort f => forall j k, j < n -> k < n -> knows br (f j) = knows br (f k) | _ => True end.
End Values.
Arguments CVal {W X}. Arguments CTokens {W X}. Arguments CPart {W X}. Arguments Browser {V R W X}. Arguments knows {V R W X}. Arguments knows_raw {V R W X}.
Arguments value {V R W X}. Arguments tokens {V R W X}. Arguments modern {V R W X}. Arguments uniform {V R W X}. Arguments accepts {V R W X}.
Arguments gives {V R W X}. Arguments used_from {V R W X}. Arguments used {V R W X}. Arguments wf {V R}.

(** Some browsers know no shorthand with two different values *)
Definition understood {V R} (two : bool) (d : decl V R) : Prop :=
  match d with DShort f => two = true \/ f 0 = f 1 | _ => True end.
(** The declarations of the [@supports] rules whose condition holds, which come after the block *)
Definition active {V R Cond} (holds : Cond -> bool) (l : list (Cond * decl V R)) : list (decl V R) :=
  map snd (filter (fun p => holds (fst p)) l).
(** The tokens that such a browser sees for an unparsed value with fallbacks *)
Definition seen_tokens {R Cond} (holds : Cond -> bool) (p : list (Cond * R) * R) : R :=
  last (map snd (filter (fun x => holds (fst x)) (fst p))) (snd p).
