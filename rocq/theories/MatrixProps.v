(** * C60: matrices of transforms *)
From Coq Require Import Reals List Lra ZArith.
From Verif Require Import MatrixModel MatrixProofs TransformModel TransformSpec TransformProofs DecomposeModel DecomposeProofs.
Import ListNotations.
Local Open Scope R_scope.

(** The matrix of a list of functions does to points what the list does, if distances are at least one pixel. *)
Theorem C60_matrix_partial : forall (LP LN : Type) (lp_px : LP -> option R) (ln_px : LN -> option R) (lp_value : LP -> R -> R) (ln_value : LN -> R),
  right_px lp_value ln_value lp_px ln_px ->
  forall (width height : R) ts m, Forall (far ln_value) ts -> list_matrix lp_px ln_px ts identity = Some m ->
  same (multiply_vector m) (list_effect lp_value ln_value width height ts).
Proof. exact (fun LP LN lp np lv nv H w h => matrix_effect lp np lv nv w h (proj1 H) (proj2 H)). Qed.
Print Assumptions C60_matrix_partial.
(** [translate(10px, 20px) rotate3d(1, 1, 0, 90deg) perspective(500px)] has a matrix *)
Example C60_matrix_case :
  let l := [Translate (10, 0) (20, 0); Rotate3d 1 1 0 (Deg 90); Perspective 500] in
  right_px px_fraction_value (fun x : R => x) px_fraction_px Some /\ Forall (far (fun x : R => x)) l /\ exists m, list_matrix px_fraction_px Some l identity = Some m.
Proof.
  cbv zeta. split; [|split].
  - split; [|intros l x [= ->]; reflexivity]. intros [a b] x. unfold px_fraction_px, px_fraction_value. cbn. destruct (eqb b 0) eqn:E; [|discriminate]. intros [= ->] c.
    apply eqb_iff in E as ->. ring.
  - repeat constructor. cbn. lra.
  - unfold list_matrix, to_matrix, px_fraction_px, radians, to_radians. cbn [fst snd bind]. decide_eqb. cbn [bind]. pose proof PI_RGT_0. decide_ltb. cbn [orb negb bind]. eexists. reflexivity.
Qed.
(** [perspective(0.5px)] stands for one pixel, which the matrix does not respect. *)
Theorem C60_perspective_refuted : exists (l : list (transform R R)) m,
  right_px (fun x _ => x) (fun x => x) Some Some /\ list_matrix Some Some l identity = Some m
  /\ multiply_vector m (0, 0, 1, 1) = (0, 0, 1, -1) /\ list_effect (fun x _ => x) (fun x => x) 0 0 l (0, 0, 1, 1) = (0, 0, 1, 0).
Proof.
  exists [Perspective (1 / 2)]. eexists. split; [split; congruence|]. split; [reflexivity|]. split.
  - unfold multiply_vector, multiply, perspective, identity. entries. repeat apply pair_eq; field.
  - cbn [list_effect fold_right transform_effect]. unfold project. rewrite Rmax_right by lra. repeat apply pair_eq; field.
Qed.
Print Assumptions C60_perspective_refuted.

(** Multiplying matrices composes their effects, and a matrix is determined by its effect *)
Theorem C60_multiply : forall a b p, multiply_vector (multiply a b) p = multiply_vector b (multiply_vector a p).
Proof. exact vector_multiply. Qed.
Print Assumptions C60_multiply.
Theorem C60_effect : forall a b, same (multiply_vector a) (multiply_vector b) -> a = b.
Proof. exact vector_ext. Qed.
Print Assumptions C60_effect.
Example C60_multiply_case : multiply_vector (multiply (scale 2 2 1) (translate 1 0 0)) (1, 1, 0, 1) = (3, 2, 0, 1).
Proof. unfold multiply_vector, multiply, scale, translate. entries. repeat apply pair_eq; ring. Qed.
(** The inverse undoes a matrix on both sides; a matrix without an inverse cannot be undone *)
Theorem C60_inverse : forall a, match inverse a with
  | Some b => multiply a b = identity /\ multiply b a = identity
  | None => forall b, multiply a b <> identity /\ multiply b a <> identity
  end.
Proof.
  exact (fun a => match inverse a as o return inverse a = o -> match o with Some b => multiply a b = identity /\ multiply b a = identity | None => forall b, multiply a b <> identity /\ multiply b a <> identity end
    with Some b => fun E => conj (inverse_right a b E) (inverse_left a b E) | None => fun E => inverse_none a E end eq_refl).
Qed.
Print Assumptions C60_inverse.
Example C60_inverse_case : (exists b, inverse (scale 2 1 1) = Some b) /\ inverse (scale 0 1 1) = None.
Proof.
  unfold inverse. assert (determinant (scale 2 1 1) = 2) as -> by (unfold determinant, scale; entries; ring). assert (determinant (scale 0 1 1) = 0) as -> by (unfold determinant, scale; entries; ring).
  decide_eqb. split; [eexists; reflexivity|reflexivity].
Qed.
Theorem C60_determinant : forall a b, determinant (multiply a b) = determinant a * determinant b.
Proof. exact determinant_multiply. Qed.
Print Assumptions C60_determinant.
Theorem C60_transpose : forall a b, transpose (multiply a b) = multiply (transpose b) (transpose a) /\ determinant (transpose a) = determinant a.
Proof. exact (fun a b => conj (transpose_multiply a b) (determinant_transpose a)). Qed.
Print Assumptions C60_transpose.
(** Exactly the matrices of the form [matrix(a, b, c, d, e, f)] are turned into that form *)
Theorem C60_to_2d : forall a m, to_matrix2d a = Some m <-> a = to_matrix3d m.
Proof. exact to_2d_iff. Qed.
Print Assumptions C60_to_2d.

(** A matrix that scales by the same factor in all directions, a number with five decimals, rotates by less than 180
    degrees about an axis with a positive coordinate, and moves, is decomposed into functions with its effect. *)
Theorem C60_decompose_partial : forall (LP LN : Type) (lp_of_px : R -> LP) (ln_of_px : R -> LN) (lp_value : LP -> R -> R) (ln_value : LN -> R),
  right_of_px lp_value ln_value lp_of_px ln_of_px ->
  forall (width height : R) m (k x y z t a b c : R) (n : Z),
  same (multiply_vector m) (fun p => shift a b c (turn x y z t (stretch k k k p))) ->
  k <> 0 -> k * 100000 = IZR n -> 0 < x \/ 0 < y \/ 0 < z -> 0 <= t < PI ->
  match decompose lp_of_px ln_of_px m with
  | Some l => same (list_effect lp_value ln_value width height l) (multiply_vector m)
  | None => same (multiply_vector m) (fun p => p)
  end.
Proof. exact (fun LP LN lo no lv nv H w h => decompose_similarity lv nv w h lo no (proj1 H) (proj2 H)). Qed.
Print Assumptions C60_decompose_partial.
(** [translate(5px) rotate(90deg) scale3d(-1.5, -1.5, -1.5)] *)
Example C60_decompose_case : exists m, same (multiply_vector m) (fun p => shift 5 0 0 (turn 0 0 1 (PI / 2) (stretch (- (3 / 2)) (- (3 / 2)) (- (3 / 2)) p)))
  /\ - (3 / 2) * 100000 = IZR (-150000) /\ 0 <= PI / 2 < PI.
Proof.
  exists (multiply (scale (- (3 / 2)) (- (3 / 2)) (- (3 / 2))) (multiply (rotate 0 0 1 (PI / 2)) (translate 5 0 0))). split; [|split; [lra|pose proof PI_RGT_0; lra]].
  intros p. rewrite !vector_multiply, rotate_vector. assert (multiply_vector (scale (- (3 / 2)) (- (3 / 2)) (- (3 / 2))) p = stretch (- (3 / 2)) (- (3 / 2)) (- (3 / 2)) p) as ->.
  { destruct p as [[[px py] pz] pw]. unfold multiply_vector, scale, stretch. entries. repeat apply pair_eq; ring. }
  destruct (turn _ _ _ _ _) as [[[px py] pz] pw]. unfold multiply_vector, translate, shift. entries. repeat apply pair_eq; ring.
Qed.
(** [rotate(90deg) scaleX(2)] is decomposed into [scale3d(2, 1, 1) rotate3d(0, 0, 1, 90deg)]. *)
Theorem C60_decompose_order_refuted : exists m l, same (multiply_vector m) (fun p => turn_z (PI / 2) (stretch 2 1 1 p))
  /\ decompose (LP := R) (LN := R) (fun x => x) (fun x => x) m = Some l
  /\ list_effect (fun x _ => x) (fun x => x) 0 0 l (1, 0, 0, 1) = (0, 1, 0, 1) /\ multiply_vector m (1, 0, 0, 1) = (0, 2, 0, 1).
Proof. destruct stretched_wrong as (l & H). exists stretched, l. split; [exact stretched_effect|exact H]. Qed.
Print Assumptions C60_decompose_order_refuted.
(** [matrix(1, 0, 3, 1, 0, 0)], a shear by the factor 3, is decomposed into [skew(3rad)]. *)
Theorem C60_decompose_skew_refuted : exists l, let m := to_matrix3d (Matrix 1 0 3 1 0 0) in
  decompose (LP := R) (LN := R) (fun x => x) (fun x => x) m = Some l /\ ~ same (list_effect (fun x _ => x) (fun x => x) 0 0 l) (multiply_vector m).
Proof. exact shear_wrong. Qed.
Print Assumptions C60_decompose_skew_refuted.
(** [rotate3d(1, -1, 0, 180deg)] is decomposed into [rotate3d(1, 1, 0, 180deg)]. *)
Theorem C60_decompose_half_turn_refuted : exists m l, same (multiply_vector m) (turn 1 (-1) 0 PI)
  /\ decompose (LP := R) (LN := R) (fun x => x) (fun x => x) m = Some l
  /\ list_effect (fun x _ => x) (fun x => x) 0 0 l (1, 0, 0, 1) = (0, 1, 0, 1) /\ multiply_vector m (1, 0, 0, 1) = (0, -1, 0, 1).
Proof. destruct half_turn_wrong as (l & H). exists half_turn, l. split; [exact half_turn_effect|exact H]. Qed.
Print Assumptions C60_decompose_half_turn_refuted.
