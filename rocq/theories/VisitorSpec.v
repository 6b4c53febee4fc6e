(** * Specification of list visiting *)
From Coq Require Import List Bool Arith.
From Verif Require Import VisitorModel.
Import ListNotations.

Section Spec.
Variables (S V : Type).

(** What one item turns into *)
Definition expand (kept : V) (r : option (value_or_vec V)) : list V :=
  match r with None => [kept] | Some (Value v) => [v] | Some (Vec l) => l end.

(** Visiting a list: the callback is applied to the original items, in order, once each; the
    results are concatenated.  On an error the outputs so far, the failing item and the remaining
    items are left in the list. *)
Fixpoint visit_each (f : S -> V -> call S V) (s : S) (l : list V) : outcome S V :=
  match l with
  | [] => Done s []
  | x :: r =>
      match f s x with
      | CallErr s' x' => Failed s' (x' :: r)
      | CallOk s' x' o =>
          match visit_each f s' r with
          | Done s'' r' => Done s'' (expand x' o ++ r')
          | Failed s'' r' => Failed s'' (expand x' o ++ r')
          | OutOfFuel => OutOfFuel
          end
      end
  end.
(** A result without placeholders *)
Definition drop_out (is_ig : V -> bool) (o : outcome S V) : outcome S V :=
  match o with
  | Done s l => Done s (filter (fun x => negb (is_ig x)) l)
  | Failed s l => Failed s (filter (fun x => negb (is_ig x)) l)
  | OutOfFuel => OutOfFuel
  end.
End Spec.
Arguments expand {V}. Arguments visit_each {S V}.

(** Pure visitors: [enter] is called on the item, then the children of what it returned (or of the
    item) are visited, then [exit] is called. *)
Section Pure.
Variable V : Type.
Variables (enter exit : V -> option (value_or_vec V)) (children : V -> V).
Definition leave (x : V) : list V := expand (children x) (exit (children x)).
Definition visited (x : V) : list V := flat_map leave (expand x (enter x)).

(** The same visitor, recording its calls. *)
(** record of the calls, newest first *)
Inductive vcall := CEnter (x : V) | CChildren (x : V) | CExit (x : V).
Definition log_visit (st : stage) (log : list vcall) (x : V) : call (list vcall) V :=
  match st with
  | Enter => CallOk (CEnter x :: log) x (enter x)
  | Exit => CallOk (CExit x :: log) x (exit x)
  end.
Definition log_children (log : list vcall) (x : V) : (list vcall * V) + (list vcall * V) :=
  inl (CChildren x :: log, children x).
(** the calls made for one original item, oldest first *)
Definition calls_of (x : V) : list vcall :=
  CEnter x :: flat_map (fun y => [CChildren y; CExit (children y)]) (expand x (enter x)).

End Pure.
Arguments visited {V}.

(** A visitor callback that records its arguments (newest first) and otherwise is a pure function *)
Definition recording {V} (g : V -> option (value_or_vec V)) : list V -> V -> call (list V) V :=
  fun log x => CallOk (x :: log) x (g x).

(** ** Composed visitors *)
Section Comp.
Variable V : Type.
Implicit Types h : list (event V).
(** visitor [v] replaced some value *)
Definition replaced h (v : nat) : Prop := exists x r, In (v, x, r) h /\ r <> RNone.
(** visitor [v] was offered [x] and left it alone *)
Definition declined h (v : nat) (x : V) : Prop := In (v, x, RNone) h.
Definition replacements h (v : nat) : nat :=
  List.length (filter (fun e => match e with (w, _, RNone) => false | (w, _, _) => Nat.eqb v w end) h).
End Comp.
Arguments replaced {V}. Arguments declined {V}. Arguments replacements {V}.

(** The bit sets [createArrayVisitor] can hold for [n] visitors: initially, and after any earlier
    calls of the composed visitor. *)
Inductive seen_set (n : nat) : bitset -> Prop :=
| Seen_new : seen_set n (bitset_new n)
| Seen_set : forall s v, seen_set n s -> v < n -> seen_set n (bitset_set s v)
| Seen_clear : forall s, seen_set n s -> seen_set n (bitset_clear s).

(** Every visitor returns nothing, one value, or an array of at most one value. *)
Definition at_most_one {V} (apply : list (event V) -> nat -> V -> jsres V) : Prop :=
  forall h v x l, apply h v x = RArr l -> List.length l <= 1.

(** Functions called in order, each on the value its predecessors left *)
Inductive pipeline {V} (f : list (event V) -> nat -> V -> option V)
  : list nat -> list (event V) -> V -> list (event V) -> V -> Prop :=
| Pipe_nil : forall h x, pipeline f [] h x h x
| Pipe_some : forall v r h x y h' z, f h v x = Some y ->
    pipeline f r ((v, x, ROne y) :: h) y h' z -> pipeline f (v :: r) h x h' z
| Pipe_none : forall v r h x h' z, f h v x = None ->
    pipeline f r ((v, x, RNone) :: h) x h' z -> pipeline f (v :: r) h x h' z.
