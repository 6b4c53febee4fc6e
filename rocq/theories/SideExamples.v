(** * Concrete side declarations *)
From Coq Require Import List Bool PeanoNat.
From Verif Require Import SideModel SideSpec.
Import ListNotations.

(** Values are numbers; those above 9 are not known to old browsers *)
Definition small (v : nat) : bool := Nat.leb v 9.
Definition new_browser : browser nat nat := Browser (fun _ => true) (fun _ => true).
Definition old_browser : browser nat nat := Browser small (fun _ => true).
Definition vertical : writing_mode := fun l =>
  match l with BlockStart => Right | BlockEnd => Left | InlineStart => Top | InlineEnd => Bottom end.
(** [margin: 1; margin-block-start: 2; margin-left: 3; margin-left: 10; margin-inline: 4 5] *)
Definition mixed : list (sdecl nat nat) :=
  [DAll 1 1 1 1; DLog BlockStart 2; DSide Left 3; DSide Left 10; DInline 4 5; DRaw (ISide Top) 7].
(** [margin-top: 1; margin-right: 2; margin-bottom: 3; margin-left: 4; margin-block: 5 6; margin-inline: 7 8] *)
Definition compiled : list (sdecl nat nat) :=
  [DSide Top 1; DSide Right 2; DSide Bottom 3; DSide Left 4; DBlock 5 6; DInline 7 8].
