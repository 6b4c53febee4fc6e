(** * What position values mean (css-backgrounds-3, section 2.6; css-values-4, section 9) *)
From Coq Require Import List QArith.
From Verif Require Import PlaceModel.
Import ListNotations.
Local Open Scope Q_scope.

Section Spec.
Context {L : Type}.
Notation lp := (lp L).
Notation token := (token L).

(** An offset from the near edge (left, top) or the far edge (right, bottom) *)
Record axis := Axis { far : bool; offset : lp }.
Definition middle : axis := Axis false (Pct (1 # 2)).
Definition edge (f : bool) : axis := Axis f (Pct 0).

(** One keyword or offset of an axis, without the keyword [center] *)
Inductive side_kw : bool -> token -> bool -> Prop :=
| KLeft : side_kw true TLeft false | KRight : side_kw true TRight true
| KTop : side_kw false TTop false | KBottom : side_kw false TBottom true.
(** [ left | center | right | <length-percentage> ], or the vertical keywords *)
Inductive single (horizontal : bool) : token -> axis -> Prop :=
| SingleKw k f : side_kw horizontal k f -> single horizontal k (edge f)
| SingleCenter : single horizontal TCenter middle
| SingleLp v : single horizontal (TLp v) (Axis false v).
(** [ center | [ left | right ] <length-percentage>? ] *)
Inductive part (horizontal : bool) : list token -> axis -> Prop :=
| PartCenter : part horizontal [TCenter] middle
| PartKw k f : side_kw horizontal k f -> part horizontal [k] (edge f)
| PartOffset k f v : side_kw horizontal k f -> part horizontal [k; TLp v] (Axis f v).
(** The grammar [<bg-position>] with its meaning *)
Inductive means : list token -> axis -> axis -> Prop :=
| OneX k x : single true k x -> means [k] x middle
| OneY k f : side_kw false k f -> means [k] middle (edge f)
| Two k x l y : single true k x -> single false l y -> means [k; l] x y
| Parts t x u y : part true t x -> part false u y -> means (t ++ u) x y
| PartsReversed t x u y : part true t x -> part false u y -> means (u ++ t) x y.

(** Where the position is, in an area that is larger by [room] than what is placed; [value] computes lengths,
    percentages inside of [calc()] being relative to [room] *)
Variable value : L -> Q -> Q.
Definition resolve (v : lp) (room : Q) : Q := match v with Pct p => p * room | Dim l => value l room end.
Definition place (a : axis) (room : Q) : Q := if far a then room - resolve (offset a) room else resolve (offset a) room.
Definition same (a b : axis) : Prop := forall room, place a room == place b room.
(** What a component of a [Position] stands for (position.rs:320-342) *)
Definition component_axis (c : component L) : axis :=
  match c with
  | Center => middle
  | Length v => Axis false v
  | Side f None => edge f
  | Side f (Some v) => Axis f v
  end.
End Spec.
Arguments axis : clear implicits.

(** The tokens after a position cannot belong to it *)
Definition stops {L} (r : list (token L)) : Prop := match r with [] | TOther _ :: _ => True | _ => False end.
(** The syntax with three values, which is only valid in [background-position] *)
Definition three_values {L} (t : list (token L)) : Prop := length t = 3%nat.
