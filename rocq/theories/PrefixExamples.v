(** * Examples for the prefix and fallback handlers *)
From Coq Require Import List Bool PeanoNat.
From Verif Require Import PrefixModel PrefixSpec.
Import ListNotations.

Definition small (v : nat) : bool := Nat.ltb v 10.
Definition new_browser : browser nat nat nat := Browser (fun _ => true) (fun _ => true) (fun v => v).
Definition old_browser : browser nat nat nat := Browser small (fun _ => true) (fun v => v).
Definition no_targets : targets := Targets false false None.
(** Targets that need [-webkit-] *)
Definition safari : targets := Targets false false (Some (fun _ => PSet true false false false true)).
Definition x (v : nat) : decl nat nat := Parsed 0 v (single NoPrefix).
Definition webkit_x (v : nat) : decl nat nat := Parsed 0 v (single WebKit).
Definition moz_x (v : nat) : decl nat nat := Parsed 0 v (single Moz).
(** [-webkit-x: 1; -webkit-x: 2; other; -moz-x: 2; x: 3] *)
Definition sample : list (decl nat nat) := [webkit_x 1; webkit_x 2; Other 7; moz_x 2; x 3].
Definition lower (v : nat) : list nat * nat := if small v then ([], v) else ([5], v).
Definition no_lower (v : nat) : list nat * nat := ([], v).
