(** * Model of list visiting: napi/src/transformer.rs [visit_list], [map], [List] and
      node/composeVisitors.js

    Visitor callbacks are arbitrary: they are functions of an explicit state [S] (which stands for
    the JavaScript heap, so a callback may depend on every earlier call) and may fail. *)
From Coq Require Import List Bool Arith NArith.
Import ListNotations.

Section Map.
Variables (S V : Type).

(** transformer.rs:743-751 [ValueOrVec] *)
Inductive value_or_vec := Value (v : V) | Vec (l : list V).

(** What a call [f(&mut v)] does: the new state, the value after in-place mutation, and the
    result; [CallErr] is [Err(_)]. *)
Inductive call := CallOk (s : S) (v : V) (r : option value_or_vec) | CallErr (s : S) (v : V).

(** transformer.rs:837-841 [trait List]: the two mutating operations *)
Record list_ops := ListOps
  { lo_remove : nat -> list V -> list V;
    lo_replace : nat -> list V -> list V -> list V }.

(** transformer.rs:843-855: [Vec]; [splice(i..i+1, items)] *)
Definition vec_ops : list_ops :=
  ListOps (fun i l => firstn i l ++ skipn (1 + i) l)
          (fun i items l => firstn i l ++ items ++ skipn (1 + i) l).

(** [list[i] = v] *)
Definition set_nth (i : nat) (v : V) (l : list V) : list V :=
  firstn i l ++ v :: skipn (1 + i) l.

(** transformer.rs:857-874: [SmallVec].  [items] is never empty ([unwrap] would panic; the model
    leaves the list unchanged). *)
Definition smallvec_ops : list_ops :=
  ListOps (fun i l => firstn i l ++ skipn (1 + i) l)
          (fun i items l =>
             match items with
             | [] => l
             | x :: rest =>
                 let l1 := set_nth i x l in
                 if 1 <? List.length items then firstn (i + 1) l1 ++ rest ++ skipn (i + 1) l1
                 else l1
             end).

(** transformer.rs:876-888: [CssRuleList]; removal overwrites with [CssRule::Ignored] *)
Definition rules_ops (ignored : V) : list_ops :=
  ListOps (fun i l => set_nth i ignored l) (lo_replace vec_ops).

Inductive outcome := Done (s : S) (l : list V) | Failed (s : S) (l : list V) | OutOfFuel.

(** transformer.rs:711-741 [map]: the [while i < list.len()] loop; [n] is fuel *)
Fixpoint map_loop (ops : list_ops) (f : S -> V -> call) (n : nat) (s : S) (l : list V) (i : nat)
  : outcome :=
  match n with
  | O => OutOfFuel
  | Datatypes.S n' =>
      match nth_error l i with
      | None => Done s l
      | Some value =>
          match f s value with
          | CallErr s' value' => Failed s' (set_nth i value' l)
          | CallOk s' value' new_value =>
              let l' := set_nth i value' l in
              match new_value with
              | Some (Value v) => map_loop ops f n' s' (set_nth i v l') (i + 1)
              | Some (Vec vec) =>
                  match vec with
                  | [] => map_loop ops f n' s' (lo_remove ops i l') i
                  | _ => map_loop ops f n' s' (lo_replace ops i vec l') (i + List.length vec)
                  end
              | None => map_loop ops f n' s' l' (i + 1)
              end
          end
      end
  end.

(** Twice the length suffices for every list kind (a removed rule is looked at again). *)
Definition map_list (ops : list_ops) (f : S -> V -> call) (s : S) (l : list V) : outcome :=
  map_loop ops f (1 + 2 * List.length l) s l 0.

(** transformer.rs: [VisitStage] *)
Inductive stage := Enter | Exit.

(** transformer.rs:674-709: the closure passed to [map] by [visit_list].  [visit_children] returns
    [inl] for [Ok]. *)
Definition visit_item (visit : stage -> S -> V -> call)
           (visit_children : S -> V -> (S * V) + (S * V)) (s : S) (value : V) : call :=
  match visit Enter s value with
  | CallErr s1 v1 => CallErr s1 v1
  | CallOk s1 value1 new_value =>
      match new_value with
      | Some (Value v) =>
          match visit_children s1 v with
          | inr (s2, v2) => CallErr s2 value1
          | inl (s2, v2) =>
              match visit Exit s2 v2 with
              | CallErr s3 _ => CallErr s3 value1
              | CallOk s3 v3 r => CallOk s3 value1 (Some (match r with Some x => x | None => Value v3 end))
              end
          end
      | Some (Vec v) =>
          match map_list vec_ops
                  (fun s y => match visit_children s y with
                              | inr (s2, y2) => CallErr s2 y2
                              | inl (s2, y2) => visit Exit s2 y2
                              end) s1 v with
          | Done s2 v2 => CallOk s2 value1 (Some (Vec v2))
          | Failed s2 _ => CallErr s2 value1
          | OutOfFuel => CallErr s1 value1
          end
      | None =>
          match visit_children s1 value1 with
          | inr (s2, v2) => CallErr s2 v2
          | inl (s2, v2) => visit Exit s2 v2
          end
      end
  end.

(** transformer.rs:674-709 [visit_list] *)
Definition visit_list (ops : list_ops) visit visit_children (s : S) (l : list V) : outcome :=
  map_list ops (visit_item visit visit_children) s l.
End Map.

Arguments Value {V}. Arguments Vec {V}. Arguments CallOk {S V}. Arguments CallErr {S V}.
Arguments Done {S V}. Arguments Failed {S V}. Arguments OutOfFuel {S V}.

(** ** node/composeVisitors.js *)

(** composeVisitors.js:416-450 [Bitset]: [bits] and [more] are 32-bit words; [new Bitset(n)] *)
Record bitset := Bitset { bs_bits : N; bs_more : option (list N) }.
Definition bitset_new (max_bits : nat) : bitset :=
  Bitset 0 (if 32 <? max_bits then Some (repeat 0%N ((max_bits - 32 + 31) / 32)) else None).
(** [1 << b] on 32-bit integers (shift counts are taken modulo 32 by JavaScript) *)
Definition shl1 (b : nat) : N := N.shiftl 1 (N.of_nat (b mod 32)).
Definition bitset_get (s : bitset) (bit : nat) : bool :=
  match bs_more s with
  | Some more =>
      if 32 <=? bit then
        negb (N.eqb (N.land (nth ((bit - 32) / 32) more 0%N) (shl1 (bit mod 32))) 0)
      else negb (N.eqb (N.land (bs_bits s) (shl1 bit)) 0)
  | None => negb (N.eqb (N.land (bs_bits s) (shl1 bit)) 0)
  end.
Fixpoint update_nth {A} (i : nat) (f : A -> A) (l : list A) : list A :=
  match l, i with
  | [], _ => []
  | x :: r, O => f x :: r
  | x :: r, S j => x :: update_nth j f r
  end.
Definition bitset_set (s : bitset) (bit : nat) : bitset :=
  match bs_more s with
  | Some more =>
      if 32 <=? bit then
        Bitset (bs_bits s)
               (Some (update_nth ((bit - 32) / 32) (fun w => N.lor w (shl1 (bit mod 32))) more))
      else Bitset (N.lor (bs_bits s) (shl1 bit)) (Some more)
  | None => Bitset (N.lor (bs_bits s) (shl1 bit)) None
  end.
Definition bitset_clear (s : bitset) : bitset :=
  Bitset 0 (option_map (map (fun _ => 0%N)) (bs_more s)).

Section Compose.
Variable V : Type.

(** Result of a visitor function: nothing (or another falsy value), one value, or an array *)
Inductive jsres := RNone | ROne (v : V) | RArr (l : list V).

(** One call of a visitor: index of the visitor, argument, result.  The history is newest first. *)
Definition event := (nat * V * jsres)%type.

(** [apply(visitors[v], item)]; an arbitrary function of everything that happened before *)
Variable apply : list event -> nat -> V -> jsres.
(** [visitors.length] *)
Variable n : nat.

(** The local variables of the function returned by [createArrayVisitor] *)
Record cstate := CState
  { c_arr : list V; c_i : nat; c_v : nat; c_seen : bitset; c_mutated : bool; c_hist : list event }.

(** composeVisitors.js:373-404: one iteration of the inner or outer loop; [None] when the outer
    loop has ended *)
Definition cstep (st : cstate) : option cstate :=
  let '(CState arr i v seen mutated hist) := st in
  match nth_error arr i with
  | None => None
  | Some item =>
      if n <=? v then Some (CState arr (i + 1) 0 seen mutated hist)
      else if bitset_get seen v then Some (CState arr i (v + 1) seen mutated hist)
      else
        let res := apply hist v item in
        let hist' := (v, item, res) :: hist in
        match res with
        | RArr [] =>
            Some (CState (firstn i arr ++ skipn (1 + i) arr) i 0 (bitset_set seen v) true hist')
        | RArr [x] =>
            Some (CState (firstn i arr ++ x :: skipn (1 + i) arr) i 0 (bitset_set seen v) true hist')
        | RArr l =>
            Some (CState (firstn i arr ++ l ++ skipn (1 + i) arr) i 0 (bitset_set seen v) true hist')
        | ROne x =>
            Some (CState (firstn i arr ++ x :: skipn (1 + i) arr) i 0 (bitset_set seen v) true hist')
        | RNone => Some (CState arr i (v + 1) seen mutated hist')
        end
  end.

Fixpoint crun (fuel : nat) (st : cstate) : option cstate :=
  match fuel with
  | O => None
  | S k => match cstep st with None => Some st | Some st' => crun k st' end
  end.

(** composeVisitors.js:368-372: the state on entry; [seen] is shared by all calls and cleared here *)
Definition cinit (seen : bitset) (hist : list event) (arg : V) : cstate :=
  CState [arg] 0 0 (bitset_clear seen) false hist.

(** composeVisitors.js:406-410: the returned value *)
Definition cresult (st : cstate) : jsres :=
  if c_mutated st then match c_arr st with [x] => ROne x | l => RArr l end else RNone.

(** composeVisitors.js:316-341 [composeSimpleVisitors]: the loop over all functions.  [f h v arg]
    is the [v]-th function's result. *)
Fixpoint simple_loop (f : list event -> nat -> V -> option V) (vs : list nat) (arg : V)
         (mutated : bool) (hist : list event) : option V * list event :=
  match vs with
  | [] => (if mutated then Some arg else None, hist)
  | v :: r =>
      match f hist v arg with
      | Some res => simple_loop f r res true ((v, arg, ROne res) :: hist)
      | None => simple_loop f r arg mutated ((v, arg, RNone) :: hist)
      end
  end.
End Compose.
Arguments RNone {V}. Arguments ROne {V}. Arguments RArr {V}.
Arguments CState {V}. Arguments c_arr {V}. Arguments c_i {V}. Arguments c_v {V}.
Arguments c_seen {V}. Arguments c_mutated {V}. Arguments c_hist {V}.
