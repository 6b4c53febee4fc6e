(** * What transforms do (CSS Transforms 1, section 10; CSS Transforms 2, sections 3 and 10) *)
From Coq Require Import Reals List.
From Verif Require Import MatrixModel TransformModel.
Import ListNotations.
Local Open Scope R_scope.

(** Points in homogeneous coordinates, and maps of them *)
Definition point := (R * R * R * R)%type.
Definition effect := point -> point.
Definition same (f g : effect) : Prop := forall p, f p = g p.

Definition shift (dx dy dz : R) : effect := fun '(x, y, z, w) => (x + dx * w, y + dy * w, z + dz * w, w).
Definition stretch (a b c : R) : effect := fun '(x, y, z, w) => (a * x, b * y, c * z, w).
Definition turn_x (t : R) : effect := fun '(x, y, z, w) => (x, y * cos t - z * sin t, y * sin t + z * cos t, w).
Definition turn_y (t : R) : effect := fun '(x, y, z, w) => (x * cos t + z * sin t, y, - x * sin t + z * cos t, w).
Definition turn_z (t : R) : effect := fun '(x, y, z, w) => (x * cos t - y * sin t, x * sin t + y * cos t, z, w).
(** Rotation about a unit vector (Rodrigues): [v cos t + (k x v) sin t + k (k . v) (1 - cos t)] *)
Definition turn_unit (a b c t : R) : effect := fun '(x, y, z, w) =>
  let d := (a * x + b * y + c * z) * (1 - cos t) in
  (x * cos t + (b * z - c * y) * sin t + a * d, y * cos t + (c * x - a * z) * sin t + b * d, z * cos t + (a * y - b * x) * sin t + c * d, w).
(** About any vector; the vector 0 does nothing *)
Definition turn (a b c t : R) : effect :=
  let n := sqrt (a * a + b * b + c * c) in if Req_EM_T n 0 then fun p => p else turn_unit (a / n) (b / n) (c / n) t.
Definition slant (s t : R) : effect := fun '(x, y, z, w) => (x + y * tan s, x * tan t + y, z, w).
(** Distances below one pixel are one pixel *)
Definition project (d : R) : effect := fun '(x, y, z, w) => (x, y, z, w - z / Rmax d 1).
Definition flat (m : matrix) : effect := fun '(x, y, z, w) => (ma m * x + mc m * y + me m * w, mb m * x + md m * y + mf m * w, z, w).
(** The numbers of [matrix3d()] are column by column *)
Definition solid (m : matrix3d) : effect := fun '(x, y, z, w) =>
  (m11 m * x + m21 m * y + m31 m * z + m41 m * w, m12 m * x + m22 m * y + m32 m * z + m42 m * w,
   m13 m * x + m23 m * y + m33 m * z + m43 m * w, m14 m * x + m24 m * y + m34 m * z + m44 m * w).

(** Angles in radians *)
Definition rad (a : angle) : R := match a with Deg v => v * PI / 180 | Rad v => v | Grad v => v * PI / 200 | Turn v => v * (2 * PI) end.

Section Spec.
Context {LP LN : Type}.
(** Lengths in pixels; percentages are relative to a side of the box *)
Variable lp_value : LP -> R -> R.
Variable ln_value : LN -> R.
Variables width height : R.
Notation arg := (arg LP LN).
Notation call := (call LP LN).
Notation transform := (transform LP LN).

Inductive css_angle : arg -> R -> Prop := CAngle a : css_angle (AAngle a) (rad a) | CZero : css_angle (ANum 0) 0.
Inductive css_number : arg -> R -> Prop := CNumber x : css_number (ANum x) x | CPercentage x : css_number (APct x) x.
Notation X v := (lp_value v width).
Notation Y v := (lp_value v height).
(** The functions with their effects *)
Inductive css_call : call -> effect -> Prop :=
| CMatrix a b c d e f : css_call (FMatrix, map (ANum) [a; b; c; d; e; f]) (flat (Matrix a b c d e f))
| CMatrix3d a b c d e f g h i j k l m n o p :
    css_call (FMatrix3d, map (ANum) [a; b; c; d; e; f; g; h; i; j; k; l; m; n; o; p]) (solid (M a b c d e f g h i j k l m n o p))
| CTranslate1 x : css_call (FTranslate, [ALp x]) (shift (X x) 0 0)
| CTranslate2 x y : css_call (FTranslate, [ALp x; ALp y]) (shift (X x) (Y y) 0)
| CTranslateX x : css_call (FTranslateX, [ALp x]) (shift (X x) 0 0)
| CTranslateY y : css_call (FTranslateY, [ALp y]) (shift 0 (Y y) 0)
| CTranslateZ z : css_call (FTranslateZ, [ALn z]) (shift 0 0 (ln_value z))
| CTranslate3d x y z : css_call (FTranslate3d, [ALp x; ALp y; ALn z]) (shift (X x) (Y y) (ln_value z))
| CScale1 x a : css_number x a -> css_call (FScale, [x]) (stretch a a 1)
| CScale2 x a y b : css_number x a -> css_number y b -> css_call (FScale, [x; y]) (stretch a b 1)
| CScaleX x a : css_number x a -> css_call (FScaleX, [x]) (stretch a 1 1)
| CScaleY y b : css_number y b -> css_call (FScaleY, [y]) (stretch 1 b 1)
| CScaleZ z c : css_number z c -> css_call (FScaleZ, [z]) (stretch 1 1 c)
| CScale3d x a y b z c : css_number x a -> css_number y b -> css_number z c -> css_call (FScale3d, [x; y; z]) (stretch a b c)
| CRotate a t : css_angle a t -> css_call (FRotate, [a]) (turn_z t)
| CRotateX a t : css_angle a t -> css_call (FRotateX, [a]) (turn_x t)
| CRotateY a t : css_angle a t -> css_call (FRotateY, [a]) (turn_y t)
| CRotateZ a t : css_angle a t -> css_call (FRotateZ, [a]) (turn_z t)
| CRotate3d x y z a t : css_angle a t -> css_call (FRotate3d, [ANum x; ANum y; ANum z; a]) (turn x y z t)
| CSkew1 a s : css_angle a s -> css_call (FSkew, [a]) (slant s 0)
| CSkew2 a s b t : css_angle a s -> css_angle b t -> css_call (FSkew, [a; b]) (slant s t)
| CSkewX a s : css_angle a s -> css_call (FSkewX, [a]) (slant s 0)
| CSkewY b t : css_angle b t -> css_call (FSkewY, [b]) (slant 0 t)
| CPerspective d : 0 <= ln_value d -> css_call (FPerspective, [ALn d]) (project (ln_value d))
| CPerspectiveNone : css_call (FPerspective, [ANone]) (fun p => p).
(** The last function is applied first *)
Inductive css_calls : list call -> effect -> Prop :=
| CNil : css_calls [] (fun p => p)
| CCons c f r g : css_call c f -> css_calls r g -> css_calls (c :: r) (fun p => f (g p)).
(** [None] is no transform, which differs from one without effect *)
Inductive css_text : text LP LN -> option effect -> Prop :=
| CNone : css_text None None
| CSome c r f : css_calls (c :: r) f -> css_text (Some (c :: r)) (Some f).
Definition same_option (f g : option effect) : Prop := match f, g with Some f, Some g => same f g | None, None => True | _, _ => False end.

(** What a parsed function does *)
Definition transform_effect (t : transform) : effect :=
  match t with
  | Translate x y => shift (X x) (Y y) 0
  | TranslateX x => shift (X x) 0 0
  | TranslateY y => shift 0 (Y y) 0
  | TranslateZ z => shift 0 0 (ln_value z)
  | Translate3d x y z => shift (X x) (Y y) (ln_value z)
  | Scale x y => stretch (num x) (num y) 1
  | ScaleX x => stretch (num x) 1 1
  | ScaleY y => stretch 1 (num y) 1
  | ScaleZ z => stretch 1 1 (num z)
  | Scale3d x y z => stretch (num x) (num y) (num z)
  | Rotate a | RotateZ a => turn_z (rad a)
  | RotateX a => turn_x (rad a)
  | RotateY a => turn_y (rad a)
  | Rotate3d x y z a => turn x y z (rad a)
  | Skew a b => slant (rad a) (rad b)
  | SkewX a => slant (rad a) 0
  | SkewY b => slant 0 (rad b)
  | Perspective d => project (ln_value d)
  | TMatrix m => flat m
  | TMatrix3d m => solid m
  end.
Definition list_effect (l : list transform) : effect := fold_right (fun t g p => transform_effect t (g p)) (fun p => p) l.
(** Distances cannot be negative *)
Definition valid (t : transform) : Prop := match t with Perspective d => 0 <= ln_value d | _ => True end.

(** Functions other than [perspective(none)] *)
Definition plain (c : call) : Prop := c <> (FPerspective, [ANone]).
Definition plain_text (t : text LP LN) : Prop := match t with Some l => Forall plain l | None => True end.
(** Distances of at least one pixel *)
Definition far (t : transform) : Prop := match t with Perspective d => 1 <= ln_value d | _ => True end.

(** What is asked of lengths: [zero()] is zero, [is_zero()] and [to_px()] are right about the value, [px()] makes pixels *)
Definition right_zero (lp_zero : LP) (lp_is_zero : LP -> bool) (ln_zero : LN) (ln_is_zero : LN -> bool) : Prop :=
  (forall b, lp_value lp_zero b = 0) /\ (forall l, lp_is_zero l = true -> forall b, lp_value l b = 0)
  /\ ln_value ln_zero = 0 /\ (forall l, ln_is_zero l = true -> ln_value l = 0).
Definition right_px (lp_px : LP -> option R) (ln_px : LN -> option R) : Prop :=
  (forall l x, lp_px l = Some x -> forall b, lp_value l b = x) /\ (forall l x, ln_px l = Some x -> ln_value l = x).
Definition right_of_px (lp_of_px : R -> LP) (ln_of_px : R -> LN) : Prop :=
  (forall x b, lp_value (lp_of_px x) b = x) /\ (forall x, ln_value (ln_of_px x) = x).

(** ** The individual properties *)
Notation token := (token LP LN).
Inductive css_translate : list token -> option effect -> Prop :=
| CTNone : css_translate [KNone] None
| CT1 x : css_translate [KArg (ALp x)] (Some (shift (X x) 0 0))
| CT2 x y : css_translate [KArg (ALp x); KArg (ALp y)] (Some (shift (X x) (Y y) 0))
| CT3 x y z : css_translate [KArg (ALp x); KArg (ALp y); KArg (ALn z)] (Some (shift (X x) (Y y) (ln_value z))).
Inductive css_axis : list token -> (R -> effect) -> Prop :=
| CAX : css_axis [KX] turn_x | CAY : css_axis [KY] turn_y | CAZ : css_axis [KZ] turn_z
| CA3 x y z : css_axis [KArg (ANum x); KArg (ANum y); KArg (ANum z)] (turn x y z).
Inductive css_rotate : list token -> option effect -> Prop :=
| CRNone : css_rotate [KNone] None
| CRAngle a : css_rotate [KArg (AAngle a)] (Some (turn_z (rad a)))
| CRAxis l f a : css_axis l f -> css_rotate (l ++ [KArg (AAngle a)]) (Some (f (rad a)))
| CRAxisLast l f a : css_axis l f -> css_rotate (KArg (AAngle a) :: l) (Some (f (rad a))).
Inductive css_scale : list token -> option effect -> Prop :=
| CSNone : css_scale [KNone] None
| CS1 x a : css_number x a -> css_scale [KArg x] (Some (stretch a a 1))
| CS2 x a y b : css_number x a -> css_number y b -> css_scale [KArg x; KArg y] (Some (stretch a b 1))
| CS3 x a y b z c : css_number x a -> css_number y b -> css_number z c -> css_scale [KArg x; KArg y; KArg z] (Some (stretch a b c)).
Definition translate_effect (v : translate_value LP LN) : option effect := match v with TNone => None | TXYZ x y z => Some (shift (X x) (Y y) (ln_value z)) end.
Definition rotate_effect (v : rotate_value) : option effect := match v with RNone => None | RXYZ x y z a => Some (turn x y z (rad a)) end.
Definition scale_effect (v : scale_value) : option effect := match v with SNone => None | SXYZ x y z => Some (stretch (num x) (num y) (num z)) end.
Definition or_nothing (o : option effect) : effect := match o with Some f => f | None => fun p => p end.
End Spec.


(** Lengths for the examples: pixels and a fraction of the side, and pixels *)
Definition px_fraction := (R * R)%type.
Definition px_fraction_value (l : px_fraction) (b : R) : R := fst l + snd l * b.
Definition px_fraction_zero (l : px_fraction) : bool := andb (eqb (fst l) 0) (eqb (snd l) 0).
Definition px_fraction_px (l : px_fraction) : option R := if eqb (snd l) 0 then Some (fst l) else None.
