(** * Examples for the shorthand handlers: [outline] with width, style and color *)
From Coq Require Import List Bool PeanoNat.
From Verif Require Import ShortModel ShortSpec.
Import ListNotations.

Definition outline (a b c : nat) : decl nat nat := DShort (fun k => match k with 0 => a | 1 => b | _ => c end).
(** Values from 10 on are new *)
Definition small (v : nat) : bool := Nat.ltb v 10.
Definition new_browser : browser nat nat nat nat := Browser (fun _ => true) (fun _ => true) (fun v => v) (fun u => u).
Definition old_browser : browser nat nat nat nat := Browser small (fun _ => true) (fun v => v) (fun u => u).
(** A new colour has the fallback 5 *)
Definition lower (v : nat) : list nat * nat := if small v then ([], v) else ([5], v).
Definition no_lower (v : nat) : list nat * nat := ([], v).
Definition no_raw (u : nat) : list (nat * nat) * nat := ([], u).
(** Tokens from 10 on are replaced by 3, and given back under condition 0 *)
Definition raw_lower (u : nat) : list (nat * nat) * nat := if small u then ([], u) else ([(0, u)], 3).
Definition sample : list (decl nat nat) :=
  [outline 1 2 3; DLong 0 4; DLong 2 10; DRaw (Some 1) 7; DLong 0 5; DLong 1 6; DLong 2 11].
(** A declaration list as lists of numbers *)
Definition show (n : nat) (d : decl nat nat) : nat * list nat :=
  match d with
  | DLong k v => (k, [v])
  | DShort f => (n, map f (seq 0 n))
  | DRaw (Some k) u => (k, [100 + u])
  | DRaw None u => (n, [100 + u])
  end.
