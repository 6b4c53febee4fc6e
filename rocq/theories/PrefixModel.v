(** * The prefix handler and the fallback handler (src/properties/prefix_handler.rs) *)
From Coq Require Import List Bool PeanoNat.
Import ListNotations.

(** vendor_prefix.rs:12-34: a set of prefixes *)
Inductive pfx := WebKit | Moz | Ms | O | NoPrefix.
Definition pfx_eqb (a b : pfx) : bool :=
  match a, b with WebKit, WebKit | Moz, Moz | Ms, Ms | O, O | NoPrefix, NoPrefix => true | _, _ => false end.
Record pset := PSet { webkit : bool; moz : bool; ms : bool; opera : bool; none : bool }.
Definition has (s : pset) (p : pfx) : bool :=
  match p with WebKit => webkit s | Moz => moz s | Ms => ms s | O => opera s | NoPrefix => none s end.
Definition single (p : pfx) : pset :=
  PSet (pfx_eqb p WebKit) (pfx_eqb p Moz) (pfx_eqb p Ms) (pfx_eqb p O) (pfx_eqb p NoPrefix).
Definition union (a b : pset) : pset :=
  PSet (webkit a || webkit b) (moz a || moz b) (ms a || ms b) (opera a || opera b) (none a || none b).
(** [contains] *)
Definition includes (a b : pset) : bool := forallb (fun p => negb (has b p) || has a p) [WebKit; Moz; Ms; O; NoPrefix].
Definition all : pset := PSet true true true true true.

(** targets.rs:243-253 [prefixes]: the options and what the prefix table says for the browsers, if there
    are any *)
Record targets := Targets { excluded : bool; included : bool; needed : option (nat -> pset) }.
Definition prefixes (t : targets) (s : pset) (k : nat) : pset :=
  if none s && negb (excluded t) then
    if included t then all else match needed t with Some f => f k | None => s end
  else s.

Section Values.
(** Parsed values and the tokens of unparsed values *)
Variable V R : Type.
Variable veq : V -> V -> bool.
Variable t : targets.

(** Declarations: the properties of the handler are numbered; the set holds the prefixes that the
    declaration is printed with.  [Unparsed] is a declaration of such a property whose value was not
    parsed, and [Other] is any other declaration. *)
Inductive decl :=
| Parsed (k : nat) (v : V) (s : pset)
| Unparsed (k : nat) (u : R) (s : pset)
| Other (n : nat).

Definition replace (l : list decl) (i : nat) (d : decl) : list decl := firstn i l ++ d :: skipn (S i) l.
Definition upd (k i : nat) (f : nat -> option nat) : nat -> option nat := fun j => if Nat.eqb k j then Some i else f j.

(** ** [PrefixHandler] (prefix_handler.rs:9-57) in a block: a handled declaration, or one that nothing
    handles and that is pushed (declaration.rs:246-250).  The state is the index of the last
    declaration of each property, and [dest]. *)
Record pstate := PState { index : nat -> option nat; dest : list decl }.
Definition push_parsed (s : pstate) (k : nat) (v : V) (p : pset) : pstate :=
  PState (upd k (length (dest s)) (index s)) (dest s ++ [Parsed k v (prefixes t p k)]).
Definition prefix_handle (s : pstate) (d : decl) : pstate :=
  match d with
  | Parsed k v p =>
      match index s k with
      | Some i =>
          match nth_error (dest s) i with
          | Some (Parsed k' cur ps) =>
              if Nat.eqb k' k && (veq v cur || includes ps p) then
                PState (index s) (replace (dest s) i (Parsed k v (prefixes t (union ps p) k)))
              else push_parsed s k v p
          | _ => push_parsed s k v p
          end
      | None => push_parsed s k v p
      end
  | _ => PState (index s) (dest s ++ [d])
  end.
(** The indices of the block before are kept: [finalize] does nothing (prefix_handler.rs:54) *)
Definition prefix_minify (old : nat -> option nat) (l : list decl) : list decl :=
  dest (fold_left prefix_handle l (PState old [])).

(** ** [FallbackHandler] (prefix_handler.rs:81-166) *)
Variable compat : V -> bool.
(** [get_fallbacks], which may change the value *)
Variable fallbacks : V -> list V * V.
(** The properties with a prefix: filter and backdrop-filter *)
Variable prefixed : nat -> bool.
Definition set_fallback (s : pstate) (k : nat) (d : decl) : pstate :=
  match index s k with
  | Some i => PState (index s) (replace (dest s) i d)
  | None => PState (upd k (length (dest s)) (index s)) (dest s ++ [d])
  end.
(** The [@supports] rules of unparsed values are left out: their values need none *)
Definition fallback_handle (s : pstate) (d : decl) : pstate :=
  match d with
  | Parsed k v p =>
      let p := if prefixed k then prefixes t p k else p in
      match index s k with
      | None =>
          let (l, v') := fallbacks v in
          let p' := if prefixed k && negb (match l with [] => true | _ => false end) && none p then single NoPrefix else p in
          let d' := dest s ++ map (fun x => Parsed k x p) l in
          PState (upd k (length d') (index s)) (d' ++ [Parsed k v' p'])
      | Some i =>
          if compat v then PState (index s) (replace (dest s) i (Parsed k v p))
          else PState (upd k (length (dest s)) (index s)) (dest s ++ [Parsed k v p])
      end
  | Unparsed k u p =>
      set_fallback s k (Unparsed k u (if prefixed k && none p then prefixes t p k else p))
  | Other _ => PState (index s) (dest s ++ [d])
  end.
(** [finalize] forgets the indices *)
Definition fallback_minify (l : list decl) : list decl := dest (fold_left fallback_handle l (PState (fun _ => None) [])).
End Values.
Arguments Parsed {V R}. Arguments Unparsed {V R}. Arguments Other {V R}. Arguments PState {V R}. Arguments index {V R}. Arguments dest {V R}.
