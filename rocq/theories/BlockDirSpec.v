(** * The rules for one direction, beside the block they were added for *)
From Coq Require Import List Bool PeanoNat.
From Verif Require SideModel SideSpec.
From Verif Require Import BlockModel BlockSpec BlockHandlers BlockValueSpec.
Import ListNotations.

Section Dir.
Context {V R Cond : Type}.
(** The declarations for sides of the family [f], in their order *)
Definition sides_in (f : nat) (l : list (decl (prop V R) R)) : list (SideModel.sdecl V R) :=
  flat_map (fun d => match d with Plain (Sides g d) => if Nat.eqb f g then [d] else [] | _ => [] end) l.
(** The declarations of the rules for one direction: they stand after the block and win over it *)
Definition for_direction (rtl : bool) (x : rules (prop V R) R Cond) : list (decl (prop V R) R) :=
  flat_map (fun r => match fst r with Ltr => if rtl then [] else [snd r] | Rtl => if rtl then [snd r] else [] | If _ => [] end) x.
(** No [all], parsed or not *)
Definition no_all (d : decl (prop V R) R) : Prop := match d with All _ | Unparsed SAll _ => False | _ => True end.
End Dir.
