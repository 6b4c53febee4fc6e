(** * Decomposition of a matrix into transform functions (src/properties/transform.rs:658-900).
    Simplification: numbers are real. *)
From Coq Require Import Reals List Bool.
From Verif Require Import MatrixModel TransformModel.
Import ListNotations.
Local Open Scope R_scope.

(** transform.rs:662-683 *)
Definition vec := (R * R * R)%type.
Definition combine (a b : vec) (s t : R) : vec := let '(x, y, z) := a in let '(x', y', z') := b in (s * x + t * x', s * y + t * y', s * z + t * z').
Definition dot (a b : vec) : R := let '(x, y, z) := a in let '(x', y', z') := b in x * x' + y * y' + z * z'.
Definition cross (a b : vec) : vec := let '(x, y, z) := a in let '(x', y', z') := b in (y * z' - z * y', z * x' - x * z', x * y' - y * x').
Definition length (a : vec) : R := sqrt (dot a a).
Definition divide (a : vec) (d : R) : vec := let '(x, y, z) := a in (x / d, y / d, z / d).
Definition negate (a : vec) : vec := let '(x, y, z) := a in (x * -1, y * -1, z * -1).
(** transform.rs:486-503 *)
Definition scale_by_factor (a : matrix3d) (f : R) : matrix3d :=
  M (m11 a * f) (m12 a * f) (m13 a * f) (m14 a * f) (m21 a * f) (m22 a * f) (m23 a * f) (m24 a * f)
    (m31 a * f) (m32 a * f) (m33 a * f) (m34 a * f) (m41 a * f) (m42 a * f) (m43 a * f) (m44 a * f).
(** transform.rs:786-790 *)
Definition round5 (x : R) : R := round (x * 100000) / 100000.
(** [f32::atan2] *)
Definition atan2 (y x : R) : R :=
  if ltb 0 x then atan (y / x)
  else if ltb x 0 then if ltb y 0 then atan (y / x) - PI else atan (y / x) + PI
  else if ltb 0 y then PI / 2 else if ltb y 0 then - PI / 2 else 0.

Section Decompose.
Variables LP LN : Type.
(** [LengthPercentage::px] and [Length::px] *)
Variable lp_of_px : R -> LP.
Variable ln_of_px : R -> LN.
Notation transform := (transform LP LN).

(** transform.rs:705-717: [None] if the matrix cannot be decomposed *)
Definition perspective_part (m p : matrix3d) : option (list transform) :=
  if negb (eqb (m14 m) 0) || negb (eqb (m24 m) 0) || negb (eqb (m34 m) 0) then
    match inverse p with
    | Some i =>
        let '(p0, p1, p2, p3) := multiply_vector (transpose i) (m14 m, m24 m, m34 m, m44 m) in
        if eqb p0 0 && eqb p1 0 && eqb p3 0 then Some [Perspective (ln_of_px (-1 / p2))] else None
    | None => None
    end
  else Some [].
(** transform.rs:719-727 *)
Definition translate_part (m : matrix3d) : list transform :=
  if negb (eqb (m41 m) 0) || negb (eqb (m42 m) 0) || negb (eqb (m43 m) 0) then [Translate3d (lp_of_px (m41 m)) (lp_of_px (m42 m)) (ln_of_px (m43 m))] else [].
(** transform.rs:729-784: the skews, the scales and the rows that are left *)
Definition split_rows (r0 r1 r2 : vec) : (R * R * R) * (R * R * R) * (vec * vec * vec) :=
  let scale_x := length r0 in
  let r0 := divide r0 scale_x in
  let skew_x := dot r0 r1 in
  let r1 := combine r1 r0 1 (- skew_x) in
  let scale_y := length r1 in
  let r1 := divide r1 scale_y in
  let skew_x := skew_x / scale_y in
  let skew_y := dot r0 r2 in
  let r2 := combine r2 r0 1 (- skew_y) in
  let skew_z := dot r1 r2 in
  let r2 := combine r2 r1 1 (- skew_z) in
  let scale_z := length r2 in
  let r2 := divide r2 scale_z in
  ((skew_x, skew_y / scale_z, skew_z / scale_z), (scale_x, scale_y, scale_z), (r0, r1, r2)).
(** transform.rs:792-798 *)
Definition skew_part (x y z : R) : list transform :=
  let x := round5 x in let y := round5 y in let z := round5 z in
  if negb (eqb x 0) || negb (eqb y 0) || negb (eqb z 0) then [Skew (Rad x) (Rad y)] else [].
(** transform.rs:816-826 *)
Definition scale_part (x y z : R) : list transform :=
  let x := round5 x in let y := round5 y in let z := round5 z in
  if negb (eqb x 1) || negb (eqb y 1) || negb (eqb z 1) then [Scale3d (Num x) (Num y) (Num z)] else [].
(** transform.rs:829-866 *)
Definition rotate_part (rows : vec * vec * vec) : list transform :=
  let '((a00, a01, a02), (a10, a11, a12), (a20, a21, a22)) := rows in
  let x := 1 / 2 * sqrt (Rmax (1 + a00 - a11 - a22) 0) in
  let y := 1 / 2 * sqrt (Rmax (1 - a00 + a11 - a22) 0) in
  let z := 1 / 2 * sqrt (Rmax (1 - a00 - a11 + a22) 0) in
  let w := 1 / 2 * sqrt (Rmax (1 + a00 + a11 + a22) 0) in
  let x := if ltb a12 a21 then - x else x in
  let y := if ltb a20 a02 then - y else y in
  let z := if ltb a01 a10 then - z else z in
  let len := length (x, y, z) in
  let '(x, y, z) := if eqb len 0 then (x, y, z) else divide (x, y, z) len in
  let a := 2 * atan2 len w in
  let max := Rmax (Rmax x y) z in
  let '(x, y, z) := divide (x, y, z) max in
  if eqb a 0 then [] else [Rotate3d x y z (Rad a)].
(** transform.rs:800-814: a coordinate system flip *)
Definition flip_part (s : R * R * R) (rows : vec * vec * vec) : (R * R * R) * (vec * vec * vec) :=
  let '(x, y, z) := s in let '(r0, r1, r2) := rows in
  if ltb (dot r0 (cross r1 r2)) 0 then ((- x, - y, - z), (negate r0, negate r1, negate r2)) else (s, rows).
(** transform.rs:685-703, 868-873 *)
Definition decompose (a : matrix3d) : option (list transform) :=
  if eqb (m44 a) 0 then None
  else
    let m := scale_by_factor a (1 / m44 a) in
    let p := M (m11 m) (m12 m) (m13 m) 0 (m21 m) (m22 m) (m23 m) 0 (m31 m) (m32 m) (m33 m) 0 (m41 m) (m42 m) (m43 m) 1 in
    if eqb (determinant p) 0 then None
    else
      match perspective_part m p with
      | None => None
      | Some l =>
          let '((skew_x, skew_y, skew_z), s, rows) := split_rows (m11 m, m12 m, m13 m) (m21 m, m22 m, m23 m) (m31 m, m32 m, m33 m) in
          if negb (eqb skew_z 0) then None
          else
            let '((x, y, z), rows) := flip_part s rows in
            match l ++ translate_part m ++ skew_part skew_x skew_y skew_z ++ scale_part x y z ++ rotate_part rows with [] => None | l => Some l end
      end.
End Decompose.
Arguments perspective_part {LP LN}. Arguments translate_part {LP LN}. Arguments skew_part {LP LN}. Arguments scale_part {LP LN}. Arguments rotate_part {LP LN}. Arguments decompose {LP LN}.
