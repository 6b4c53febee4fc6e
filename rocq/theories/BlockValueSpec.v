(** * What the modelled declarations give to one longhand, and blocks after other blocks *)
From Coq Require Import List Bool PeanoNat.
From Verif Require SideModel ShortModel SideSpec ShortSpec PrefixSpec.
From Verif Require Import PrefixModel BlockModel BlockSpec BlockHandlers.
Import ListNotations.

Section Gives.
Variable V R : Type.
Notation prop := (prop V R).
(** A side of the family [f], in a writing mode *)
Definition side_gives (f : nat) (w : SideSpec.writing_mode) (br : SideSpec.browser V R) (x : SideModel.side) (a : prop) : option (SideSpec.cell V R) :=
  match a with Sides g d => if Nat.eqb f g && SideSpec.accepts br d then SideSpec.gives w d x else None | _ => None end.
(** A longhand of the shorthand [f] or the pair [f], with [n] longhands *)
Definition short_gives {W X} (f n : nat) (br : ShortSpec.browser V R W X) (k : nat) (a : prop) : option (ShortSpec.cell W X) :=
  match a with Short g d => if Nat.eqb f g && ShortSpec.accepts n br d then ShortSpec.gives br d k else None | _ => None end.
Definition pair_gives {W X} (f : nat) (br : ShortSpec.browser V R W X) (k : nat) (a : prop) : option (ShortSpec.cell W X) :=
  match a with Pairs g d => if Nat.eqb f g && ShortSpec.accepts 2 br d then ShortSpec.gives br d k else None | _ => None end.
(** A property of the fallback handler or the prefix handler, with a prefix *)
Definition to_prefix (h : bool) (a : prop) : PrefixModel.decl V R :=
  match a with
  | Prefixed h' k v s => if eqb h h' then Parsed k v s else Other 0
  | PrefixedRaw h' k u s => if eqb h h' then PrefixModel.Unparsed k u s else Other 0
  | _ => Other 0
  end.
Definition prefix_gives {W} (h : bool) (br : PrefixSpec.browser V R W) (k : nat) (p : pfx) (a : prop) : option (PrefixSpec.cell R W) :=
  PrefixSpec.gives PrefixSpec.alone br k p (to_prefix h a).
Definition prefix_owns (h : bool) (a : prop) : bool :=
  match a with Prefixed h' _ _ _ | PrefixedRaw h' _ _ _ => eqb h h' | _ => false end.
(** The declarations of that handler after the last [all] *)
Definition prefix_segment (h : bool) (l : list (decl prop R)) : list (PrefixModel.decl V R) := map (to_prefix h) (segment (prefix_owns h) [] l).
(** A property without a handler *)
Definition free_gives (n : nat) (a : prop) : option R :=
  match a with Free m u => if Nat.eqb n m then Some u else None | _ => None end.
(** A shorthand's declarations name longhands that exist *)
Definition wf (a : prop) : Prop :=
  match a with Short f d => ShortSpec.wf (width f) d | Pairs _ d => ShortSpec.wf 2 d | _ => True end.
Definition wf_decl (d : decl prop R) : Prop := match d with Plain a => wf a | _ => True end.
End Gives.
Arguments side_gives {V R}. Arguments short_gives {V R W X}. Arguments pair_gives {V R W X}. Arguments to_prefix {V R}. Arguments prefix_gives {V R W}. Arguments free_gives {V R}. Arguments prefix_owns {V R}. Arguments prefix_segment {V R}.
Arguments wf {V R}. Arguments wf_decl {V R}.

(** The rules that are added for the declarations in [O] *)
Definition rules_of {A R Cond} (O : A -> bool) (x : rules A R Cond) : rules A R Cond := filter (fun r => mine O (snd r)) x.
Definition is_sides {V R} (f : nat) (a : prop V R) : bool := match a with Sides g _ => Nat.eqb f g | _ => false end.
Definition is_short {V R} (f : nat) (a : prop V R) : bool := match a with Short g _ => Nat.eqb f g | _ => false end.
