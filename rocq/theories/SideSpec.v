(** * What declarations of box sides mean (CSS Cascade, CSS Logical Properties) *)
From Coq Require Import List Bool.
From Verif Require Import SideModel.
Import ListNotations.

(** A writing mode places the logical sides on different physical sides *)
Definition writing_mode := lside -> side.
Definition proper (w : writing_mode) : Prop := forall a b, w a = w b -> a = b.
Definition horizontal (rtl : bool) : writing_mode := fun l =>
  match l with
  | BlockStart => Top
  | BlockEnd => Bottom
  | InlineStart => if rtl then Right else Left
  | InlineEnd => if rtl then Left else Right
  end.

Section Values.
Variable V R : Type.

(** What a side is given: a value, the tokens of its own unparsed declaration, or its part of the
    tokens of an unparsed shorthand *)
Inductive cell := CVal (v : V) | CTokens (u : R) | CPart (i : sid) (u : R) (n : nat).

(** A browser ignores declarations with values it does not know *)
Record browser := Browser { knows : V -> bool; knows_raw : R -> bool }.
Definition accepts (br : browser) (d : sdecl V R) : bool :=
  match d with
  | DSide _ v | DLog _ v => knows br v
  | DBlock a b | DInline a b => knows br a && knows br b
  | DAll t r b l => knows br t && knows br r && knows br b && knows br l
  | DRaw _ u => knows_raw br u
  end.
(** What a declaration gives to a side *)
Definition gives (w : writing_mode) (d : sdecl V R) (x : side) : option cell :=
  match d with
  | DSide s v => if side_eqb s x then Some (CVal v) else None
  | DLog l v => if side_eqb (w l) x then Some (CVal v) else None
  | DBlock a b => if side_eqb (w BlockStart) x then Some (CVal a) else if side_eqb (w BlockEnd) x then Some (CVal b) else None
  | DInline a b => if side_eqb (w InlineStart) x then Some (CVal a) else if side_eqb (w InlineEnd) x then Some (CVal b) else None
  | DAll t r b l => Some (CVal (match x with Top => t | Right => r | Bottom => b | Left => l end))
  | DRaw (ISide s) u => if side_eqb s x then Some (CTokens u) else None
  | DRaw (ILog l) u => if side_eqb (w l) x then Some (CTokens u) else None
  | DRaw IBlock u => if side_eqb (w BlockStart) x then Some (CPart IBlock u 0) else if side_eqb (w BlockEnd) x then Some (CPart IBlock u 1) else None
  | DRaw IInline u => if side_eqb (w InlineStart) x then Some (CPart IInline u 0) else if side_eqb (w InlineEnd) x then Some (CPart IInline u 1) else None
  | DRaw IAll u => Some (CPart IAll u (match x with Top => 0 | Right => 1 | Bottom => 2 | Left => 3 end))
  end.
(** The last declaration that gives something wins; [o] is what the side had before *)
Fixpoint used_from (o : option cell) (w : writing_mode) (br : browser) (l : list (sdecl V R)) (x : side) : option cell :=
  match l with
  | [] => o
  | d :: r =>
      used_from (if accepts br d then match gives w d x with Some c => Some c | None => o end else o) w br r x
  end.
Definition used := used_from None.
(** Important declarations win over normal ones *)
Definition used_block (w : writing_mode) (br : browser) (normal important : list (sdecl V R)) (x : side) : option cell :=
  used w br (normal ++ important) x.

(** A browser that knows every value *)
Definition modern (br : browser) : Prop := (forall v, knows br v = true) /\ forall u, knows_raw br u = true.
(** It knows the values of a shorthand, or none of them *)
Definition uniform (br : browser) (d : sdecl V R) : Prop :=
  match d with
  | DBlock a b | DInline a b => knows br a = knows br b
  | DAll t r b l => knows br r = knows br t /\ knows br b = knows br t /\ knows br l = knows br t
  | _ => True
  end.

(** Declarations of the inline axis, and of [left] and [right] *)
Definition is_inline (d : sdecl V R) : bool :=
  match d with
  | DLog (InlineStart | InlineEnd) _ | DInline _ _ | DRaw (ILog (InlineStart | InlineEnd)) _ | DRaw IInline _ => true
  | _ => false
  end.
Definition sets_sides (d : sdecl V R) : bool :=
  match d with
  | DSide (Left | Right) _ | DAll _ _ _ _ | DRaw (ISide (Left | Right)) _ | DRaw (IAll | IInline) _ => true
  | _ => false
  end.
Definition inline_start (d : sdecl V R) : list V :=
  match d with DLog InlineStart v => [v] | DInline v _ => [v] | _ => [] end.
Definition inline_end (d : sdecl V R) : list V :=
  match d with DLog InlineEnd v => [v] | DInline _ v => [v] | _ => [] end.
(** No declaration of [left], [right] or all sides after one of the inline axis, whose start and end
    values are never the same *)
Definition inline_last (l : list (sdecl V R)) : Prop :=
  exists pre post, l = pre ++ post
    /\ (forall d, In d pre -> is_inline d = false)
    /\ (forall d, In d post -> sets_sides d = false)
    /\ (forall d e a, In d post -> In e post -> In a (inline_start d) -> ~ In a (inline_end e)).
(** Nothing logical is left *)
Definition is_physical (d : sdecl V R) : bool :=
  match d with DSide _ _ | DAll _ _ _ _ | DRaw _ _ => true | _ => false end.
End Values.
Arguments CVal {V R}. Arguments CTokens {V R}. Arguments CPart {V R}. Arguments Browser {V R}.
Arguments knows {V R}. Arguments knows_raw {V R}. Arguments modern {V R}. Arguments uniform {V R}. Arguments accepts {V R}.
Arguments is_inline {V R}. Arguments sets_sides {V R}. Arguments inline_last {V R}. Arguments used {V R}. Arguments used_block {V R}. Arguments gives {V R}.
Arguments used_from {V R}. Arguments is_physical {V R}. Arguments inline_start {V R}. Arguments inline_end {V R}.
