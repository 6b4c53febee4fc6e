(** What the substitution of variables must give: CSS Custom Properties for
    Cascading Variables, section 3. *)
From Coq Require Import List Bool String.
From Verif Require Import TokModel.
Import ListNotations.

Section Spec.
Variable vars : string -> option (list item).

(** [var(--x, fallback)] is the value of the variable, if there is one; otherwise
    the fallback, if there is one; otherwise it stays.  In the value and in the
    fallback, the same is done. *)
Inductive Resolves : list item -> list item -> Prop :=
  | RNil : Resolves [] []
  | RCons : forall t l r rs, ResolvesTo t r -> Resolves l rs -> Resolves (t :: l) (r ++ rs)
with ResolvesTo : item -> list item -> Prop :=
  | RTok : forall t, ResolvesTo (Tok t) [Tok t]
  | RTyped : forall ts, ResolvesTo (Typed ts) [Typed ts]
  | RUrl : forall u, ResolvesTo (Url u) [Url u]
  | RDashed : forall n, ResolvesTo (Dashed n) [Dashed n]
  | RValue : forall n fb v r, vars n = Some v -> Resolves v r -> ResolvesTo (Var n fb) r
  | RFallback : forall n fb r, vars n = None -> Resolves fb r -> ResolvesTo (Var n (Some fb)) r
  | RMissing : forall n, vars n = None -> ResolvesTo (Var n None) [Var n None]
  | REnv : forall n ix, ResolvesTo (Env n ix None) [Env n ix None]
  | REnvFallback : forall n ix fb r, Resolves fb r -> ResolvesTo (Env n ix (Some fb)) [Env n ix (Some r)]
  | RFunc : forall n args r, Resolves args r -> ResolvesTo (Func n args) [Func n r].

(** All the lists in an item, and the references to variables in it, at any depth. *)
Inductive Within : item -> item -> Prop :=
  | WSelf : forall t, Within t t
  | WVar : forall t n fb u, In u fb -> Within t u -> Within t (Var n (Some fb))
  | WEnv : forall t n ix fb u, In u fb -> Within t u -> Within t (Env n ix (Some fb))
  | WFunc : forall t n args u, In u args -> Within t u -> Within t (Func n args).
Definition Refers (l : list item) (n : string) : Prop := exists u fb, In u l /\ Within (Var n fb) u.

(** No variable depends on itself: a variable refers to variables of lower rank. *)
Definition Acyclic (rank : string -> nat) : Prop :=
  forall n v m w, vars n = Some v -> Refers v m -> vars m = Some w -> rank m < rank n.

(** Values and fallbacks are not empty. *)
Definition solid (l : list item) : Prop := forall n u, In u l -> ~ Within (Var n (Some [])) u.
Definition Solid : Prop := forall n v, vars n = Some v -> v <> [] /\ solid v.

(** The substitution ends with [r]. *)
Definition ends_with (run : nat -> option (list item)) (r : list item) : Prop :=
  exists f, forall f', f <= f' -> run f' = Some r.
End Spec.
