(** * Specification of small values: what they mean, independently of how they are written *)
From Coq Require Import List String Bool ZArith QArith.
From Verif Require Import ValueModel.
Import ListNotations.
Open Scope string_scope.
Open Scope list_scope.

(** The CSS rule for one to four values of a box property *)
Definition four_sides {T} (l : list T) : option (T * T * T * T) :=
  match l with
  | [a] => Some (a, a, a, a)
  | [a; b] => Some (a, b, a, b)
  | [a; b; c] => Some (a, b, c, b)
  | [a; b; c; d] => Some (a, b, c, d)
  | _ => None
  end.
Definition two_values {T} (l : list T) : option (T * T) :=
  match l with [a] => Some (a, a) | [a; b] => Some (a, b) | _ => None end.

(** Component-wise relations *)
Definition rect_rel {T} (R : T -> T -> Prop) (r s : rect T) : Prop :=
  let '(Rect a b c d) := r in
  let '(Rect a' b' c' d') := s in R a a' /\ R b b' /\ R c c' /\ R d d'.
Definition size_rel {T} (R : T -> T -> Prop) (r s : size2d T) : Prop :=
  let '(Size2D a b) := r in let '(Size2D a' b') := s in R a a' /\ R b b'.
Definition radii_rel {T} (R : T -> T -> Prop) (r s : radii T) : Prop :=
  let '(Radii a b c d) := r in
  let '(Radii a' b' c' d') := s in
  size_rel R a a' /\ size_rel R b b' /\ size_rel R c c' /\ size_rel R d d'.

Definition rect_all {T} (P : T -> Prop) (r : rect T) : Prop :=
  let '(Rect a b c d) := r in P a /\ P b /\ P c /\ P d.
Definition size_all {T} (P : T -> Prop) (r : size2d T) : Prop := let '(Size2D a b) := r in P a /\ P b.
Definition radii_all {T} (P : T -> Prop) (r : radii T) : Prop :=
  let '(Radii a b c d) := r in size_all P a /\ size_all P b /\ size_all P c /\ size_all P d.

(** The value ends here: nothing, a comma or another delimiter follows *)
Definition vends (rest : list vtok) : Prop :=
  match rest with [] => True | TkComma :: _ | TkDelim _ :: _ => True | _ => False end.

(** Used values of lengths: the size of each unit, and of each calc(), in pixels; [base] is what
    100% refers to. *)
Record metrics := Metrics { unit_px : string -> Q; calc_px : string -> Q -> Q }.
Definition lp_px (m : metrics) (base : Q) (x : lp) : Q :=
  match x with
  | LpLen q u => q * unit_px m u
  | LpPct q => q * base
  | LpCalc s => calc_px m s base
  end.
(** Offset of a position component from the start side of an area of size [base] *)
Definition pcomp_px (m : metrics) (base : Q) (c : pcomp) : Q :=
  match c with
  | PCenter => base * (1 # 2)
  | PLength x => lp_px m base x
  | PSide SStart None => 0
  | PSide SStart (Some x) => lp_px m base x
  | PSide SEnd None => base
  | PSide SEnd (Some x) => base - lp_px m base x
  end.
Definition position_px (m : metrics) (w h : Q) (p : position) : Q * Q :=
  let '(Position x y) := p in (pcomp_px m w x, pcomp_px m h y).
Definition qpair_eq (a b : Q * Q) : Prop := fst a == fst b /\ snd a == snd b.

(** The units a parsed length can have *)
Definition lp_ok (x : lp) : bool :=
  match x with LpLen _ u => MediaModel.is_length_unit u && String.eqb (MediaModel.lower u) u | _ => true end.
Definition pcomp_ok (c : pcomp) : bool :=
  match c with PLength x | PSide _ (Some x) => lp_ok x | _ => true end.
Definition position_ok (p : position) : bool := let '(Position x y) := p in pcomp_ok x && pcomp_ok y.

(** Two lengths with the same used value in every context *)
Definition lp_same (x y : lp) : Prop := forall m base, lp_px m base x == lp_px m base y.

Definition time_ms (t : time) : Q := match t with Seconds q => q * 1000 | Milliseconds q => q end.

(** CSS Easing Level 1: keywords stand for curves *)
Inductive curve := CLinear | CBezier (x1 y1 x2 y2 : Q) | CSteps (n : Z) (p : step_position).
Definition easing_curve (e : easing) : curve :=
  match e with
  | Linear => CLinear
  | Ease => CBezier (25 # 100) (1 # 10) (25 # 100) 1
  | EaseIn => CBezier (42 # 100) 0 1 1
  | EaseOut => CBezier 0 0 (58 # 100) 1
  | EaseInOut => CBezier (42 # 100) 0 (58 # 100) 1
  | CubicBezier a b c d => CBezier a b c d
  | Steps n p => CSteps n p
  end.
Definition curve_same (a b : curve) : Prop :=
  match a, b with
  | CLinear, CLinear => True
  | CBezier a b c d, CBezier a' b' c' d' => a == a' /\ b == b' /\ c == c' /\ d == d'
  | CSteps n p, CSteps n' p' => n = n' /\ p = p'
  | _, _ => False
  end.
