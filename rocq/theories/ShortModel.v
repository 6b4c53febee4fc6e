(** * The generic shorthand handlers (src/macros.rs) and the overflow and gap handlers *)
From Coq Require Import List Bool PeanoNat.
Import ListNotations.

(** Parsed values, the tokens of unparsed values, and [@supports] conditions *)
Section Values.
Variable V R Cond : Type.

(** Declarations of a shorthand and its longhands, which are numbered from 0.  A shorthand gives a
    value for each of them (positions from [n] on mean nothing). *)
Inductive decl :=
| DLong (k : nat) (v : V)
| DShort (f : nat -> V)
| DRaw (k : option nat) (u : R).

(** What a handler pushes: to the block, or to the [@supports] rules after it (context.rs:156-181) *)
Inductive event := Main (d : decl) | Support (c : Cond) (d : decl).

(** ** The macro [shorthand_handler!] (macros.rs:207-325), used for outline, list-style and container *)
(** The number of longhands *)
Variable n : nat.
(** [is_compatible] with the targets; true without targets *)
Variable compat : V -> bool.
(** The longhand with [fallback: true], for which the shorthand says [fallbacks: true] too (outline.rs:57-61
    and list.rs:460-464; container has none).  Its [get_fallbacks] returns values for older browsers
    and may change the value itself. *)
Variable fallback_key : option nat.
Variable fallbacks : V -> list V * V.
(** [TokenList::get_fallbacks] (custom.rs:1052-1085) in the context of a style rule, whose results go
    to [@supports] rules (context.rs:183-199); it may change the tokens themselves *)
Variable raw_fallbacks : R -> list (Cond * R) * R.

(** macros.rs:216-222; [flushed] holds [None] for the shorthand *)
Record state := State { slots : nat -> option V; flushed : option nat -> bool; has_any : bool }.
Definition start : state := State (fun _ => None) (fun _ => false) false.
Definition is_some {A} (o : option A) : bool := match o with Some _ => true | None => false end.
Definition okey_eqb (a b : option nat) : bool :=
  match a, b with Some x, Some y => Nat.eqb x y | None, None => true | _, _ => false end.
Definition mark (k : option nat) (f : option nat -> bool) : option nat -> bool := fun x => okey_eqb k x || f x.
Definition upd {A} (k : nat) (x : A) (f : nat -> A) : nat -> A := fun j => if Nat.eqb k j then x else f j.

(** [get_fallbacks] of one longhand; the empty list for others *)
Definition long_fallbacks (k : nat) (v : V) : list V * V :=
  match fallback_key with Some j => if Nat.eqb j k then fallbacks v else ([], v) | None => ([], v) end.
(** [get_fallbacks] of the shorthand (border.rs:212-225, list.rs:449-458): that of the one longhand *)
Definition short_fallbacks (f : nat -> V) : list (nat -> V) * (nat -> V) :=
  match fallback_key with
  | Some j => let (l, v) := fallbacks (f j) in (map (fun x => upd j x f) l, upd j v f)
  | None => ([], f)
  end.
(** All longhands have a value *)
Fixpoint collect (ks : list nat) (s : nat -> option V) : option (nat -> V) :=
  match ks with
  | [] => None
  | [k] => match s k with Some v => Some (fun _ => v) | None => None end
  | k :: r => match s k, collect r s with Some v, Some f => Some (upd k v f) | _, _ => None end
  end.
Fixpoint flush_longs (ks : list nat) (s : nat -> option V) (fl : option nat -> bool) : (option nat -> bool) * list event :=
  match ks with
  | [] => (fl, [])
  | k :: r =>
      match s k with
      | None => flush_longs r s fl
      | Some v =>
          let (l, v') := if fl (Some k) then ([], v) else long_fallbacks k v in
          let (fl', e) := flush_longs r s (mark (Some k) fl) in
          (fl', map (fun x => Main (DLong k x)) l ++ Main (DLong k v') :: e)
      end
  end.
(** macros.rs:268-322 [flush] *)
Definition flush (s : state) : state * list event :=
  if has_any s then
    match collect (seq 0 n) (slots s) with
    | Some f =>
        let (l, f') := if flushed s None then ([], f) else short_fallbacks f in
        (State (fun _ => None) (mark None (flushed s)) false, map (fun x => Main (DShort x)) l ++ [Main (DShort f')])
    | None =>
        let (fl, e) := flush_longs (seq 0 n) (slots s) (flushed s) in
        (State (fun _ => None) fl false, e)
    end
  else (s, []).
Definition then_ (p : state * list event) (f : state -> state * list event) : state * list event :=
  let (s, e) := p in let (s', e') := f s in (s', e ++ e').
(** macros.rs:232 and 241 *)
Definition maybe_flush (k : nat) (v : V) (s : state) : state * list event :=
  if is_some (slots s k) && negb (compat v) then flush s else (s, []).
Fixpoint maybe_flush_all (ks : list nat) (f : nat -> V) (s : state) : state * list event :=
  match ks with
  | [] => (s, [])
  | k :: r => then_ (maybe_flush k (f k) s) (maybe_flush_all r f)
  end.
(** macros.rs:225-262 [handle_property], for the properties of the handler *)
Definition handle (s : state) (d : decl) : state * list event :=
  match d with
  | DLong k v =>
      then_ (maybe_flush k v s) (fun s => (State (upd k (Some v) (slots s)) (flushed s) true, []))
  | DShort f =>
      then_ (maybe_flush_all (seq 0 n) f s)
            (fun s => (State (fun k => Some (f k)) (flushed s) true, []))
  | DRaw k u =>
      then_ (flush s)
            (fun s => let (l, u') := raw_fallbacks u in
               (State (slots s) (mark k (flushed s)) (has_any s),
                map (fun cu => Support (fst cu) (DRaw k (snd cu))) l ++ [Main (DRaw k u')]))
  end.
Fixpoint handle_all (s : state) (l : list decl) : state * list event :=
  match l with
  | [] => (s, [])
  | d :: r => then_ (handle s d) (fun s => handle_all s r)
  end.
(** A whole block: [handle_property] for each, then [finalize] (macros.rs:264-267) *)
Definition minify (l : list decl) : list event := snd (then_ (handle_all start l) flush).
Definition mains (e : list event) : list decl := flat_map (fun x => match x with Main d => [d] | Support _ _ => [] end) e.
Definition supports (e : list event) : list (Cond * decl) :=
  flat_map (fun x => match x with Main _ => [] | Support c d => [(c, d)] end) e.

(** ** [OverflowHandler] (overflow.rs:74-136) and the gap part of [AlignHandler] (align.rs:956-972,
    1167-1180): two longhands, and values replace each other without a compatibility test *)
Variable veq : V -> V -> bool.
(** [targets.is_compatible(Feature::OverflowShorthand)]; the gap properties have no such test *)
Variable two_values : bool.
Record pair_state := Pair { fst_slot : option V; snd_slot : option V }.
Definition oevent (k : nat) (o : option V) : list decl := match o with Some v => [DLong k v] | None => [] end.
Definition pair_finalize (s : pair_state) : list decl :=
  match fst_slot s, snd_slot s with
  | Some x, Some y =>
      if veq x y || two_values then [DShort (fun k => if Nat.eqb k 0 then x else y)] else [DLong 0 x; DLong 1 y]
  | x, y => oevent 0 x ++ oevent 1 y
  end.
Definition pair_handle (s : pair_state) (d : decl) : pair_state * list decl :=
  match d with
  | DLong 0 v => (Pair (Some v) (snd_slot s), [])
  | DLong _ v => (Pair (fst_slot s) (Some v), [])
  | DShort f => (Pair (Some (f 0)) (Some (f 1)), [])
  | DRaw _ _ => (Pair None None, pair_finalize s ++ [d])
  end.
Fixpoint pair_minify (s : pair_state) (l : list decl) : list decl :=
  match l with
  | [] => pair_finalize s
  | d :: r => let (s', o) := pair_handle s d in o ++ pair_minify s' r
  end.

End Values.
Arguments DLong {V R}. Arguments DShort {V R}. Arguments DRaw {V R}. Arguments Main {V R Cond}. Arguments Support {V R Cond}.
Arguments State {V}. Arguments slots {V}. Arguments flushed {V}. Arguments has_any {V}. Arguments start {V}.
Arguments mains {V R Cond}. Arguments supports {V R Cond}. Arguments Pair {V}. Arguments fst_slot {V}. Arguments snd_slot {V}.
