(** * Blocks of flex declarations used as examples *)

From Coq Require Import List String Bool ZArith.
From Verif Require Import FlexModel FlexSpec.
Import ListNotations.

(** The prefixes of a set, to compare results *)
Definition shown (d : decl pset) : decl (list prefix) :=
  match d with
  | DFlow a b p => DFlow a b (filter p all_prefixes)
  | DFlex a b c p => DFlex a b c (filter p all_prefixes)
  | DOne s v p => DOne s v (filter p all_prefixes)
  | DRaw k r p => DRaw k r (filter p all_prefixes)
  end.

Definition one := VNumber 1.
Definition two := VNumber 2.
Definition auto := VBasis Auto.

(** [-webkit-flex: 1 1 auto; -ms-flex: 1 1 auto; flex: 1 1 auto;
     -webkit-flex-direction: column; flex-flow: column wrap; order: 2;
     order: var(--x); -webkit-box-flex: 1] *)
Definition sample : list (decl prefix) :=
  [ DFlex one one auto WebKit; DFlex one one auto Ms; DFlex one one auto NoPrefix;
    DOne Direction (VDirection Column) WebKit;
    DFlow (VDirection Column) (VWrap WrapOn) NoPrefix;
    DOne Order two NoPrefix; DRaw (Long Order) 7 NoPrefix;
    DOne BoxFlex one WebKit ].

(** [flex-grow: 1; flex-grow: 2; flex-shrink: 1; flex-basis: auto;
     flex-direction: row; flex-wrap: wrap] *)
Definition plain : list (decl prefix) :=
  [ DOne Grow one NoPrefix; DOne Grow two NoPrefix; DOne Shrink one NoPrefix;
    DOne Basis auto NoPrefix; DOne Direction (VDirection Row) NoPrefix;
    DOne Wrap (VWrap WrapOn) NoPrefix ].

(** Browsers that need [-webkit-] for everything, one of them with only the
    draft of 2009 *)
Definition old_webkit : targets :=
  given_targets false false
    (Some (fun _ q => match q with NoPrefix | WebKit => true | _ => false end, true)).

(** [-ms-flex: 1 1 auto; flex: 1 1 auto; flex-grow: 2] *)
Definition changed : list (decl prefix) :=
  [ DFlex one one auto Ms; DFlex one one auto NoPrefix; DOne Grow two NoPrefix ].

(** [-ms-flex: 1 1 auto; -ms-flex-positive: 2] *)
Definition positive_last : list (decl prefix) :=
  [ DFlex one one auto Ms; DOne FlexPositive two Ms ].

(** [-webkit-box-orient: vertical; flex-direction: row] *)
Definition orient : list (decl prefix) :=
  [ DOne BoxOrient (Other 1) WebKit; DOne Direction (VDirection Row) NoPrefix ].

(** Browsers that need no prefixes *)
Definition modern : targets :=
  given_targets false false (Some (fun _ => only NoPrefix, false)).
