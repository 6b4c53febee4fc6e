(** * Matrices of transforms (src/properties/transform.rs:207-656).  Simplification: numbers are real. *)
From Coq Require Import Reals List Bool.
Import ListNotations.
Local Open Scope R_scope.

Definition eqb (x y : R) : bool := if Req_EM_T x y then true else false.
Definition ltb (x y : R) : bool := if Rlt_dec x y then true else false.

(** transform.rs:214-222 *)
Record matrix := Matrix { ma : R; mb : R; mc : R; md : R; me : R; mf : R }.
(** transform.rs:254-271 *)
Record matrix3d := M {
  m11 : R; m12 : R; m13 : R; m14 : R; m21 : R; m22 : R; m23 : R; m24 : R;
  m31 : R; m32 : R; m33 : R; m34 : R; m41 : R; m42 : R; m43 : R; m44 : R
}.
(** transform.rs:228-247 *)
Definition to_matrix3d (a : matrix) : matrix3d := M (ma a) (mb a) 0 0 (mc a) (md a) 0 0 0 0 1 0 (me a) (mf a) 0 1.
(** transform.rs:278-297 *)
Definition identity : matrix3d := M 1 0 0 0 0 1 0 0 0 0 1 0 0 0 0 1.
(** transform.rs:300-319 *)
Definition translate (x y z : R) : matrix3d := M 1 0 0 0 0 1 0 0 0 0 1 0 x y z 1.
(** transform.rs:322-341 *)
Definition scale (x y z : R) : matrix3d := M x 0 0 0 0 y 0 0 0 0 z 0 0 0 0 1.
(** transform.rs:344-387 *)
Definition rotate (x y z angle : R) : matrix3d :=
  let length := sqrt (x * x + y * y + z * z) in
  if eqb length 0 then identity
  else
    let x := x / length in
    let y := y / length in
    let z := z / length in
    let half_angle := angle / 2 in
    let sin_ := sin half_angle in
    let sc := sin_ * cos half_angle in
    let sq := sin_ * sin_ in
    M (1 - 2 * (y * y + z * z) * sq) (2 * (x * y * sq + z * sc)) (2 * (x * z * sq - y * sc)) 0
      (2 * (x * y * sq - z * sc)) (1 - 2 * (x * x + z * z) * sq) (2 * (y * z * sq + x * sc)) 0
      (2 * (x * z * sq + y * sc)) (2 * (y * z * sq - x * sc)) (1 - 2 * (x * x + y * y) * sq) 0
      0 0 0 1.
(** transform.rs:390-409 *)
Definition skew (a b : R) : matrix3d := M 1 (tan b) 0 0 (tan a) 1 0 0 0 0 1 0 0 0 0 1.
(** transform.rs:412-431 *)
Definition perspective (d : R) : matrix3d := M 1 0 0 0 0 1 0 0 0 0 1 (- 1 / d) 0 0 0 1.
(** transform.rs:434-453 *)
Definition multiply (a b : matrix3d) : matrix3d :=
  M (m11 a * m11 b + m12 a * m21 b + m13 a * m31 b + m14 a * m41 b)
    (m11 a * m12 b + m12 a * m22 b + m13 a * m32 b + m14 a * m42 b)
    (m11 a * m13 b + m12 a * m23 b + m13 a * m33 b + m14 a * m43 b)
    (m11 a * m14 b + m12 a * m24 b + m13 a * m34 b + m14 a * m44 b)
    (m21 a * m11 b + m22 a * m21 b + m23 a * m31 b + m24 a * m41 b)
    (m21 a * m12 b + m22 a * m22 b + m23 a * m32 b + m24 a * m42 b)
    (m21 a * m13 b + m22 a * m23 b + m23 a * m33 b + m24 a * m43 b)
    (m21 a * m14 b + m22 a * m24 b + m23 a * m34 b + m24 a * m44 b)
    (m31 a * m11 b + m32 a * m21 b + m33 a * m31 b + m34 a * m41 b)
    (m31 a * m12 b + m32 a * m22 b + m33 a * m32 b + m34 a * m42 b)
    (m31 a * m13 b + m32 a * m23 b + m33 a * m33 b + m34 a * m43 b)
    (m31 a * m14 b + m32 a * m24 b + m33 a * m34 b + m34 a * m44 b)
    (m41 a * m11 b + m42 a * m21 b + m43 a * m31 b + m44 a * m41 b)
    (m41 a * m12 b + m42 a * m22 b + m43 a * m32 b + m44 a * m42 b)
    (m41 a * m13 b + m42 a * m23 b + m43 a * m33 b + m44 a * m43 b)
    (m41 a * m14 b + m42 a * m24 b + m43 a * m34 b + m44 a * m44 b).
(** transform.rs:456-467 *)
Definition is_2d (a : matrix3d) : bool :=
  eqb (m31 a) 0 && eqb (m32 a) 0 && eqb (m13 a) 0 && eqb (m23 a) 0 && eqb (m43 a) 0 && eqb (m14 a) 0 && eqb (m24 a) 0 && eqb (m34 a) 0
  && eqb (m33 a) 1 && eqb (m44 a) 1.
(** transform.rs:471-483 *)
Definition to_matrix2d (a : matrix3d) : option matrix :=
  if is_2d a then Some (Matrix (m11 a) (m12 a) (m21 a) (m22 a) (m41 a) (m42 a)) else None.
(** transform.rs:506-531 *)
Definition determinant (a : matrix3d) : R :=
  m14 a * m23 a * m32 a * m41 a
  - m13 a * m24 a * m32 a * m41 a
  - m14 a * m22 a * m33 a * m41 a
  + m12 a * m24 a * m33 a * m41 a
  + m13 a * m22 a * m34 a * m41 a
  - m12 a * m23 a * m34 a * m41 a
  - m14 a * m23 a * m31 a * m42 a
  + m13 a * m24 a * m31 a * m42 a
  + m14 a * m21 a * m33 a * m42 a
  - m11 a * m24 a * m33 a * m42 a
  - m13 a * m21 a * m34 a * m42 a
  + m11 a * m23 a * m34 a * m42 a
  + m14 a * m22 a * m31 a * m43 a
  - m12 a * m24 a * m31 a * m43 a
  - m14 a * m21 a * m32 a * m43 a
  + m11 a * m24 a * m32 a * m43 a
  + m12 a * m21 a * m34 a * m43 a
  - m11 a * m22 a * m34 a * m43 a
  - m13 a * m22 a * m31 a * m44 a
  + m12 a * m23 a * m31 a * m44 a
  + m13 a * m21 a * m32 a * m44 a
  - m11 a * m23 a * m32 a * m44 a
  - m12 a * m21 a * m33 a * m44 a
  + m11 a * m22 a * m33 a * m44 a.
(** transform.rs:534-623 *)
Definition inverse (a : matrix3d) : option matrix3d :=
  let det := determinant a in
  if eqb det 0 then None
  else
    let det := 1 / det in
    Some (M
      (det * (m23 a * m34 a * m42 a - m24 a * m33 a * m42 a + m24 a * m32 a * m43 a - m22 a * m34 a * m43 a - m23 a * m32 a * m44 a + m22 a * m33 a * m44 a))
      (det * (m14 a * m33 a * m42 a - m13 a * m34 a * m42 a - m14 a * m32 a * m43 a + m12 a * m34 a * m43 a + m13 a * m32 a * m44 a - m12 a * m33 a * m44 a))
      (det * (m13 a * m24 a * m42 a - m14 a * m23 a * m42 a + m14 a * m22 a * m43 a - m12 a * m24 a * m43 a - m13 a * m22 a * m44 a + m12 a * m23 a * m44 a))
      (det * (m14 a * m23 a * m32 a - m13 a * m24 a * m32 a - m14 a * m22 a * m33 a + m12 a * m24 a * m33 a + m13 a * m22 a * m34 a - m12 a * m23 a * m34 a))
      (det * (m24 a * m33 a * m41 a - m23 a * m34 a * m41 a - m24 a * m31 a * m43 a + m21 a * m34 a * m43 a + m23 a * m31 a * m44 a - m21 a * m33 a * m44 a))
      (det * (m13 a * m34 a * m41 a - m14 a * m33 a * m41 a + m14 a * m31 a * m43 a - m11 a * m34 a * m43 a - m13 a * m31 a * m44 a + m11 a * m33 a * m44 a))
      (det * (m14 a * m23 a * m41 a - m13 a * m24 a * m41 a - m14 a * m21 a * m43 a + m11 a * m24 a * m43 a + m13 a * m21 a * m44 a - m11 a * m23 a * m44 a))
      (det * (m13 a * m24 a * m31 a - m14 a * m23 a * m31 a + m14 a * m21 a * m33 a - m11 a * m24 a * m33 a - m13 a * m21 a * m34 a + m11 a * m23 a * m34 a))
      (det * (m22 a * m34 a * m41 a - m24 a * m32 a * m41 a + m24 a * m31 a * m42 a - m21 a * m34 a * m42 a - m22 a * m31 a * m44 a + m21 a * m32 a * m44 a))
      (det * (m14 a * m32 a * m41 a - m12 a * m34 a * m41 a - m14 a * m31 a * m42 a + m11 a * m34 a * m42 a + m12 a * m31 a * m44 a - m11 a * m32 a * m44 a))
      (det * (m12 a * m24 a * m41 a - m14 a * m22 a * m41 a + m14 a * m21 a * m42 a - m11 a * m24 a * m42 a - m12 a * m21 a * m44 a + m11 a * m22 a * m44 a))
      (det * (m14 a * m22 a * m31 a - m12 a * m24 a * m31 a - m14 a * m21 a * m32 a + m11 a * m24 a * m32 a + m12 a * m21 a * m34 a - m11 a * m22 a * m34 a))
      (det * (m23 a * m32 a * m41 a - m22 a * m33 a * m41 a - m23 a * m31 a * m42 a + m21 a * m33 a * m42 a + m22 a * m31 a * m43 a - m21 a * m32 a * m43 a))
      (det * (m12 a * m33 a * m41 a - m13 a * m32 a * m41 a + m13 a * m31 a * m42 a - m11 a * m33 a * m42 a - m12 a * m31 a * m43 a + m11 a * m32 a * m43 a))
      (det * (m13 a * m22 a * m41 a - m12 a * m23 a * m41 a - m13 a * m21 a * m42 a + m11 a * m23 a * m42 a + m12 a * m21 a * m43 a - m11 a * m22 a * m43 a))
      (det * (m12 a * m23 a * m31 a - m13 a * m22 a * m31 a + m13 a * m21 a * m32 a - m11 a * m23 a * m32 a - m12 a * m21 a * m33 a + m11 a * m22 a * m33 a))).
(** transform.rs:626-645 *)
Definition transpose (a : matrix3d) : matrix3d :=
  M (m11 a) (m21 a) (m31 a) (m41 a) (m12 a) (m22 a) (m32 a) (m42 a) (m13 a) (m23 a) (m33 a) (m43 a) (m14 a) (m24 a) (m34 a) (m44 a).
(** transform.rs:648-655 *)
Definition multiply_vector (a : matrix3d) (p : R * R * R * R) : R * R * R * R :=
  let '(x, y, z, w) := p in
  (x * m11 a + y * m21 a + z * m31 a + w * m41 a, x * m12 a + y * m22 a + z * m32 a + w * m42 a,
   x * m13 a + y * m23 a + z * m33 a + w * m43 a, x * m14 a + y * m24 a + z * m34 a + w * m44 a).
