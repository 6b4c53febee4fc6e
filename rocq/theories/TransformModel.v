(** * Transform functions and the properties [transform], [translate], [rotate] and [scale]
    (src/properties/transform.rs, src/values/angle.rs).  Simplification: numbers are real. *)
From Coq Require Import Reals List Bool.
From Verif Require Import MatrixModel.
Import ListNotations.
Local Open Scope R_scope.

(** angle.rs:34-43 *)
Inductive angle := Deg (v : R) | Rad (v : R) | Grad (v : R) | Turn (v : R).
(** angle.rs:165-171 *)
Definition angle_zero (a : angle) : bool := match a with Deg v | Rad v | Grad v | Turn v => eqb v 0 end.
(** angle.rs:142-150 *)
Definition to_radians (a : angle) : R :=
  match a with
  | Deg v => v * (PI / 180)
  | Rad v => v
  | Grad v => v * 180 / 200 * (PI / 180)
  | Turn v => v * 360 * (PI / 180)
  end.
(** [f32::round], away from zero in the middle, and [f32::fract] *)
Definition floor (x : R) : R := IZR (Int_part x).
Definition round (x : R) : R := if ltb x 0 then - floor (- x + 1 / 2) else floor (x + 1 / 2).
Definition fract (x : R) : R := if ltb x 0 then x + floor (- x) else x - floor x.
(** angle.rs:103-127: the angle that is printed, with its unit *)
Definition print_angle (a : angle) : angle :=
  match a with
  | Rad v => let deg := v * (180 / PI) in if eqb (fract (round (deg * 100000))) 0 then Deg deg else Rad v
  | _ => a
  end.
(** angle.rs:189-200 *)
Definition times (a : angle) (f : R) : angle :=
  match a with Deg v => Deg (v * f) | Rad v => Rad (v * f) | Grad v => Grad (v * f) | Turn v => Turn (v * f) end.

(** percentage.rs:158-172; a percentage is stored as a fraction *)
Inductive number := Num (x : R) | Perc (x : R).
Definition num (n : number) : R := match n with Num x | Perc x => x end.
(** percentage.rs:157: the derived equality *)
Definition number_eqb (a b : number) : bool := match a, b with Num x, Num y | Perc x, Perc y => eqb x y | _, _ => false end.

Section Transform.
(** [LengthPercentage] and [Length] with [zero()], [is_zero()] and, for [to_matrix], [to_px()] of a
    dimension.  What they are worth is a matter of the specification. *)
Variables LP LN : Type.
Variable lp_zero : LP. Variable lp_is_zero : LP -> bool. Variable lp_px : LP -> option R.
Variable ln_zero : LN. Variable ln_is_zero : LN -> bool. Variable ln_px : LN -> option R.

(** transform.rs:163-211 *)
Inductive transform :=
| Translate (x y : LP) | TranslateX (x : LP) | TranslateY (y : LP) | TranslateZ (z : LN) | Translate3d (x y : LP) (z : LN)
| Scale (x y : number) | ScaleX (x : number) | ScaleY (y : number) | ScaleZ (z : number) | Scale3d (x y z : number)
| Rotate (a : angle) | RotateX (a : angle) | RotateY (a : angle) | RotateZ (a : angle) | Rotate3d (x y z : R) (a : angle)
| Skew (x y : angle) | SkewX (x : angle) | SkewY (y : angle)
| Perspective (d : LN) | TMatrix (m : matrix) | TMatrix3d (m : matrix3d).

(** The text of a function: its name and its arguments.  Simplification: an argument is one token; a
    length is a token with its value, whose kind says whether it is read as a length or as a
    length-percentage, and the zero without unit, as an angle, is the number 0. *)
Inductive func :=
| FMatrix | FMatrix3d | FTranslate | FTranslateX | FTranslateY | FTranslateZ | FTranslate3d | FScale | FScaleX | FScaleY | FScaleZ | FScale3d
| FRotate | FRotateX | FRotateY | FRotateZ | FRotate3d | FSkew | FSkewX | FSkewY | FPerspective.
Inductive arg := ALp (v : LP) | ALn (v : LN) | ANum (x : R) | APct (x : R) | AAngle (a : angle) | ANone.
Definition call := (func * list arg)%type.

(** angle.rs:57-86 *)
Definition parse_angle (unitless : bool) (a : arg) : option angle :=
  match a with
  | AAngle a => Some a
  | ANum x => if unitless && eqb x 0 then Some (Deg 0) else None
  | _ => None
  end.
Definition parse_number (a : arg) : option number := match a with ANum x => Some (Num x) | APct x => Some (Perc x) | _ => None end.
Definition bind {A B} (o : option A) (f : A -> option B) : option B := match o with Some a => f a | None => None end.
Notation "'do' x <- o ; k" := (bind o (fun x => k)) (at level 200, x name, right associativity).
(** transform.rs:905-1066.  All arguments have to be used ([parse_nested_block]). *)
Definition parse_transform (c : call) : option transform :=
  match c with
  | (FMatrix, [ANum a; ANum b; ANum c; ANum d; ANum e; ANum f]) => Some (TMatrix (Matrix a b c d e f))
  | (FMatrix3d, [ANum a11; ANum a12; ANum a13; ANum a14; ANum a21; ANum a22; ANum a23; ANum a24;
                 ANum a31; ANum a32; ANum a33; ANum a34; ANum a41; ANum a42; ANum a43; ANum a44]) =>
      Some (TMatrix3d (M a11 a12 a13 a14 a21 a22 a23 a24 a31 a32 a33 a34 a41 a42 a43 a44))
  | (FTranslate, [ALp x]) => Some (Translate x lp_zero)
  | (FTranslate, [ALp x; ALp y]) => Some (Translate x y)
  | (FTranslateX, [ALp x]) => Some (TranslateX x)
  | (FTranslateY, [ALp y]) => Some (TranslateY y)
  | (FTranslateZ, [ALn z]) => Some (TranslateZ z)
  | (FTranslate3d, [ALp x; ALp y; ALn z]) => Some (Translate3d x y z)
  | (FScale, [x]) => do x <- parse_number x; Some (Scale x x)
  | (FScale, [x; y]) => do x <- parse_number x; do y <- parse_number y; Some (Scale x y)
  | (FScaleX, [x]) => do x <- parse_number x; Some (ScaleX x)
  | (FScaleY, [y]) => do y <- parse_number y; Some (ScaleY y)
  | (FScaleZ, [z]) => do z <- parse_number z; Some (ScaleZ z)
  | (FScale3d, [x; y; z]) => do x <- parse_number x; do y <- parse_number y; do z <- parse_number z; Some (Scale3d x y z)
  | (FRotate, [a]) => do a <- parse_angle true a; Some (Rotate a)
  | (FRotateX, [a]) => do a <- parse_angle true a; Some (RotateX a)
  | (FRotateY, [a]) => do a <- parse_angle true a; Some (RotateY a)
  | (FRotateZ, [a]) => do a <- parse_angle true a; Some (RotateZ a)
  | (FRotate3d, [ANum x; ANum y; ANum z; a]) => do a <- parse_angle true a; Some (Rotate3d x y z a)
  | (FSkew, [x]) => do x <- parse_angle true x; Some (Skew x (Deg 0))
  | (FSkew, [x; y]) => do x <- parse_angle true x; do y <- parse_angle true y; Some (Skew x y)
  | (FSkewX, [a]) => do a <- parse_angle true a; Some (SkewX a)
  | (FSkewY, [a]) => do a <- parse_angle true a; Some (SkewY a)
  | (FPerspective, [ALn d]) => Some (Perspective d)
  | _ => None
  end.

(** angle.rs:131-139 *)
Definition unitless (a : angle) : arg := if angle_zero a then ANum 0 else AAngle (print_angle a).
Variable minify : bool.
(** transform.rs:1069-1297 *)
Definition print_transform (t : transform) : call :=
  match t with
  | Translate x y =>
      if minify && lp_is_zero x && negb (lp_is_zero y) then (FTranslateY, [ALp y])
      else (FTranslate, ALp x :: if lp_is_zero y then [] else [ALp y])
  | TranslateX x => (if minify then FTranslate else FTranslateX, [ALp x])
  | TranslateY y => (FTranslateY, [ALp y])
  | TranslateZ z => (FTranslateZ, [ALn z])
  | Translate3d x y z =>
      if minify && negb (lp_is_zero x) && lp_is_zero y && ln_is_zero z then (FTranslate, [ALp x])
      else if minify && lp_is_zero x && negb (lp_is_zero y) && ln_is_zero z then (FTranslateY, [ALp y])
      else if minify && lp_is_zero x && lp_is_zero y && negb (ln_is_zero z) then (FTranslateZ, [ALn z])
      else if minify && ln_is_zero z then (FTranslate, [ALp x; ALp y])
      else (FTranslate3d, [ALp x; ALp y; ALn z])
  | Scale x y =>
      let x := num x in let y := num y in
      if minify && eqb x 1 && negb (eqb y 1) then (FScaleY, [ANum y])
      else if minify && negb (eqb x 1) && eqb y 1 then (FScaleX, [ANum x])
      else (FScale, ANum x :: if eqb y x then [] else [ANum y])
  | ScaleX x => (FScaleX, [match x with Num x => ANum x | Perc x => APct x end])
  | ScaleY y => (FScaleY, [match y with Num x => ANum x | Perc x => APct x end])
  | ScaleZ z => (FScaleZ, [match z with Num x => ANum x | Perc x => APct x end])
  | Scale3d x y z =>
      let x := num x in let y := num y in let z := num z in
      if minify && eqb z 1 && eqb x y then (FScale, [ANum x])
      else if minify && negb (eqb x 1) && eqb y 1 && eqb z 1 then (FScaleX, [ANum x])
      else if minify && eqb x 1 && negb (eqb y 1) && eqb z 1 then (FScaleY, [ANum y])
      else if minify && eqb x 1 && eqb y 1 && negb (eqb z 1) then (FScaleZ, [ANum z])
      else if minify && eqb z 1 then (FScale, [ANum x; ANum y])
      else (FScale3d, [ANum x; ANum y; ANum z])
  | Rotate a => (FRotate, [unitless a])
  | RotateX a => (FRotateX, [unitless a])
  | RotateY a => (FRotateY, [unitless a])
  | RotateZ a => (if minify then FRotate else FRotateZ, [unitless a])
  | Rotate3d x y z a =>
      if minify && eqb x 1 && eqb y 0 && eqb z 0 then (FRotateX, [unitless a])
      else if minify && eqb x 0 && eqb y 1 && eqb z 0 then (FRotateY, [unitless a])
      else if minify && eqb x 0 && eqb y 0 && eqb z 1 then (FRotate, [unitless a])
      else (FRotate3d, [ANum x; ANum y; ANum z; unitless a])
  | Skew x y =>
      if minify && angle_zero x && negb (angle_zero y) then (FSkewY, [unitless y])
      else (FSkew, AAngle (print_angle x) :: if angle_zero y then [] else [unitless y])
  | SkewX a => (if minify then FSkew else FSkewX, [unitless a])
  | SkewY a => (FSkewY, [unitless a])
  | Perspective d => (FPerspective, [ALn d])
  | TMatrix (Matrix a b c d e f) => (FMatrix, [ANum a; ANum b; ANum c; ANum d; ANum e; ANum f])
  | TMatrix3d m =>
      (FMatrix3d, [ANum (m11 m); ANum (m12 m); ANum (m13 m); ANum (m14 m); ANum (m21 m); ANum (m22 m); ANum (m23 m); ANum (m24 m);
                   ANum (m31 m); ANum (m32 m); ANum (m33 m); ANum (m34 m); ANum (m41 m); ANum (m42 m); ANum (m43 m); ANum (m44 m)])
  end.

(** The text of [transform]: [None] is the keyword *)
Definition text := option (list call).
(** transform.rs:30-47 *)
Fixpoint parse_calls (l : list call) : list transform * list call :=
  match l with
  | [] => ([], [])
  | c :: r => match parse_transform c with Some t => let (ts, rest) := parse_calls r in (t :: ts, rest) | None => ([], l) end
  end.
Definition parse_list (t : text) : option (list transform * list call) :=
  match t with
  | None => Some ([], [])
  | Some l => match parse_calls l with ([], _) => None | p => Some p end
  end.
(** transform.rs:49-139 *)
Definition print_list (l : list transform) : text := match l with [] => None | _ => Some (map print_transform l) end.

(** transform.rs:1303-1316 *)
Definition radians (a : angle) : option R := let rad := to_radians a in if ltb rad 0 || negb (ltb rad (2 * PI)) then None else Some rad.
(** transform.rs:1302-1370 *)
Definition to_matrix (t : transform) : option matrix3d :=
  match t with
  | Translate x y => do x <- lp_px x; do y <- lp_px y; Some (translate x y 0)
  | TranslateX x => do x <- lp_px x; Some (translate x 0 0)
  | TranslateY y => do y <- lp_px y; Some (translate 0 y 0)
  | TranslateZ z => do z <- ln_px z; Some (translate 0 0 z)
  | Translate3d x y z => do x <- lp_px x; do y <- lp_px y; do z <- ln_px z; Some (translate x y z)
  | Scale x y => Some (scale (num x) (num y) 1)
  | ScaleX x => Some (scale (num x) 1 1)
  | ScaleY y => Some (scale 1 (num y) 1)
  | ScaleZ z => Some (scale 1 1 (num z))
  | Scale3d x y z => Some (scale (num x) (num y) (num z))
  | Rotate a | RotateZ a => do a <- radians a; Some (rotate 0 0 1 a)
  | RotateX a => do a <- radians a; Some (rotate 1 0 0 a)
  | RotateY a => do a <- radians a; Some (rotate 0 1 0 a)
  | Rotate3d x y z a => do a <- radians a; Some (rotate x y z a)
  | Skew x y => do x <- radians x; do y <- radians y; Some (skew x y)
  | SkewX x => do x <- radians x; Some (skew x 0)
  | SkewY y => do y <- radians y; Some (skew 0 y)
  | Perspective d => do d <- ln_px d; Some (perspective d)
  | TMatrix m => Some (to_matrix3d m)
  | TMatrix3d m => Some m
  end.
(** transform.rs:142-152 *)
Fixpoint list_matrix (l : list transform) (m : matrix3d) : option matrix3d :=
  match l with [] => Some m | t :: r => do a <- to_matrix t; list_matrix r (multiply a m) end.

(** ** The individual properties *)
(** transform.rs:1424-1443, 1524-1543, 1618-1640 *)
Inductive translate_value := TNone | TXYZ (x y : LP) (z : LN).
Inductive rotate_value := RNone | RXYZ (x y z : R) (a : angle).
Inductive scale_value := SNone | SXYZ (x y z : number).
Inductive token := KNone | KX | KY | KZ | KArg (a : arg).
(** transform.rs:1445-1467; what is left over is returned *)
Definition parse_translate (l : list token) : option (translate_value * list token) :=
  match l with
  | KNone :: r => Some (TNone, r)
  | KArg (ALp x) :: r =>
      Some match r with
      | KArg (ALp y) :: r => match r with KArg (ALn z) :: r => (TXYZ x y z, r) | _ => (TXYZ x y ln_zero, r) end
      | _ => (TXYZ x lp_zero ln_zero, r)
      end
  | _ => None
  end.
(** transform.rs:1469-1495 *)
Definition print_translate (t : translate_value) : list token :=
  match t with
  | TNone => [KNone]
  | TXYZ x y z => KArg (ALp x) :: if negb (lp_is_zero y) || negb (ln_is_zero z) then KArg (ALp y) :: if ln_is_zero z then [] else [KArg (ALn z)] else []
  end.
(** transform.rs:1545-1580 *)
Definition parse_axis (l : list token) : R * R * R * list token :=
  match l with
  | KX :: r => (1, 0, 0, r)
  | KY :: r => (0, 1, 0, r)
  | KZ :: r => (0, 0, 1, r)
  | KArg (ANum x) :: KArg (ANum y) :: KArg (ANum z) :: r => (x, y, z, r)
  | _ => (0, 0, 1, l)
  end.
Definition parse_rotate (l : list token) : option (rotate_value * list token) :=
  match l with
  | KNone :: r => Some (RNone, r)
  | KArg (AAngle a) :: r => let '(x, y, z, r) := parse_axis r in Some (RXYZ x y z a, r)
  | _ => let '(x, y, z, r) := parse_axis l in match r with KArg (AAngle a) :: r => Some (RXYZ x y z a, r) | _ => None end
  end.
(** transform.rs:1582-1609 *)
Definition print_rotate (v : rotate_value) : list token :=
  match v with
  | RNone => [KNone]
  | RXYZ x y z a =>
      let flip (c : R) := KArg (AAngle (print_angle (if ltb c 0 then times a (-1) else a))) in
      if eqb y 0 && eqb z 0 && negb (eqb x 0) then [KX; flip x]
      else if eqb x 0 && eqb z 0 && negb (eqb y 0) then [KY; flip y]
      else if eqb x 0 && eqb y 0 && negb (eqb z 0) then [flip z]
      else [KArg (ANum x); KArg (ANum y); KArg (ANum z); KArg (AAngle (print_angle a))]
  end.
(** transform.rs:1642-1664 *)
Definition token_number (t : token) : option number := match t with KArg a => parse_number a | _ => None end.
Definition parse_scale (l : list token) : option (scale_value * list token) :=
  match l with
  | KNone :: r => Some (SNone, r)
  | t :: r =>
      match token_number t with
      | Some x =>
          Some match r with
          | u :: s =>
              match token_number u with
              | Some y =>
                  match s with v :: s' => match token_number v with Some z => (SXYZ x y z, s') | None => (SXYZ x y (Num 1), s) end | [] => (SXYZ x y (Num 1), []) end
              | None => (SXYZ x x (Num 1), r)
              end
          | [] => (SXYZ x x (Num 1), [])
          end
      | None => None
      end
  | [] => None
  end.
(** transform.rs:1666-1692 *)
Definition print_number (n : number) : token := KArg match n with Num x => ANum x | Perc x => APct x end.
Definition print_scale (v : scale_value) : list token :=
  match v with
  | SNone => [KNone]
  | SXYZ x y z =>
      print_number x :: if negb (number_eqb y x) || negb (eqb (num z) 1) then print_number y :: if eqb (num z) 1 then [] else [print_number z] else []
  end.
(** transform.rs:1497-1508, 1611-1618, 1694-1706 *)
Definition translate_transform (v : translate_value) : transform := match v with TNone => Translate3d lp_zero lp_zero ln_zero | TXYZ x y z => Translate3d x y z end.
Definition rotate_transform (v : rotate_value) : transform := match v with RNone => Rotate3d 0 0 1 (Deg 0) | RXYZ x y z a => Rotate3d x y z a end.
Definition scale_transform (v : scale_value) : transform := match v with SNone => Scale3d (Num 1) (Num 1) (Num 1) | SXYZ x y z => Scale3d x y z end.
End Transform.
Arguments Translate {LP LN}.
Arguments TranslateX {LP LN}.
Arguments TranslateY {LP LN}.
Arguments TranslateZ {LP LN}.
Arguments Translate3d {LP LN}.
Arguments Scale {LP LN}.
Arguments ScaleX {LP LN}.
Arguments ScaleY {LP LN}.
Arguments ScaleZ {LP LN}.
Arguments Scale3d {LP LN}.
Arguments Rotate {LP LN}.
Arguments RotateX {LP LN}.
Arguments RotateY {LP LN}.
Arguments RotateZ {LP LN}.
Arguments Rotate3d {LP LN}.
Arguments Skew {LP LN}.
Arguments SkewX {LP LN}.
Arguments SkewY {LP LN}.
Arguments Perspective {LP LN}.
Arguments TMatrix {LP LN}.
Arguments TMatrix3d {LP LN}.
Arguments ALp {LP LN}.
Arguments ALn {LP LN}.
Arguments ANum {LP LN}.
Arguments APct {LP LN}.
Arguments AAngle {LP LN}.
Arguments ANone {LP LN}.
Arguments TNone {LP LN}.
Arguments TXYZ {LP LN}.
Arguments KNone {LP LN}.
Arguments KX {LP LN}.
Arguments KY {LP LN}.
Arguments KZ {LP LN}.
Arguments KArg {LP LN}.
Arguments parse_angle {LP LN}.
Arguments parse_number {LP LN}.
Arguments parse_transform {LP LN}.
Arguments unitless {LP LN}.
Arguments print_transform {LP LN}.
Arguments parse_calls {LP LN}.
Arguments parse_list {LP LN}.
Arguments print_list {LP LN}.
Arguments to_matrix {LP LN}.
Arguments list_matrix {LP LN}.
Arguments parse_translate {LP LN}.
Arguments print_translate {LP LN}.
Arguments parse_axis {LP LN}.
Arguments parse_rotate {LP LN}.
Arguments print_rotate {LP LN}.
Arguments token_number {LP LN}.
Arguments parse_scale {LP LN}.
Arguments print_number {LP LN}.
Arguments print_scale {LP LN}.
Arguments translate_transform {LP LN}.
Arguments rotate_transform {LP LN}.
Arguments scale_transform {LP LN}.
