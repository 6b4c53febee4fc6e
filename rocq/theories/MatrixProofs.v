(** * Proofs about matrices *)
From Coq Require Import Reals List Bool Lra.
From Verif Require Import MatrixModel.
Local Open Scope R_scope.

Lemma eqb_iff x y : eqb x y = true <-> x = y.
Proof. unfold eqb. destruct (Req_EM_T x y); split; congruence. Qed.
Lemma eqb_false x y : eqb x y = false <-> x <> y.
Proof. unfold eqb. destruct (Req_EM_T x y); split; congruence. Qed.
Lemma ltb_iff x y : ltb x y = true <-> x < y.
Proof. unfold ltb. destruct (Rlt_dec x y); split; try congruence; contradiction. Qed.
Lemma ltb_false x y : ltb x y = false <-> y <= x.
Proof. unfold ltb. destruct (Rlt_dec x y); split; try congruence; [intros; lra|intros _; now apply Rnot_lt_le]. Qed.

(** [f_equal] is slow here *)
Lemma M_eq a11 a12 a13 a14 a21 a22 a23 a24 a31 a32 a33 a34 a41 a42 a43 a44 b11 b12 b13 b14 b21 b22 b23 b24 b31 b32 b33 b34 b41 b42 b43 b44 :
  a11 = b11 -> a12 = b12 -> a13 = b13 -> a14 = b14 -> a21 = b21 -> a22 = b22 -> a23 = b23 -> a24 = b24 -> a31 = b31 -> a32 = b32 -> a33 = b33 -> a34 = b34 -> a41 = b41 -> a42 = b42 -> a43 = b43 -> a44 = b44 ->
  M a11 a12 a13 a14 a21 a22 a23 a24 a31 a32 a33 a34 a41 a42 a43 a44 = M b11 b12 b13 b14 b21 b22 b23 b24 b31 b32 b33 b34 b41 b42 b43 b44.
Proof. intros; subst; reflexivity. Qed.
Ltac entries := cbn [MatrixModel.m11 MatrixModel.m12 MatrixModel.m13 MatrixModel.m14 MatrixModel.m21 MatrixModel.m22 MatrixModel.m23 MatrixModel.m24
  MatrixModel.m31 MatrixModel.m32 MatrixModel.m33 MatrixModel.m34 MatrixModel.m41 MatrixModel.m42 MatrixModel.m43 MatrixModel.m44] in *.

Ltac by_entries := repeat match goal with a : matrix3d |- _ => destruct a end; unfold multiply, identity, transpose, determinant; entries.

Lemma multiply_assoc a b c : multiply (multiply a b) c = multiply a (multiply b c).
Proof. by_entries. apply M_eq; ring. Qed.
Lemma multiply_identity_left a : multiply identity a = a.
Proof. by_entries. apply M_eq; ring. Qed.
Lemma multiply_identity_right a : multiply a identity = a.
Proof. by_entries. apply M_eq; ring. Qed.
Lemma transpose_multiply a b : transpose (multiply a b) = multiply (transpose b) (transpose a).
Proof. by_entries. apply M_eq; ring. Qed.
Lemma determinant_multiply a b : determinant (multiply a b) = determinant a * determinant b.
Proof. by_entries. ring. Qed.
Lemma determinant_transpose a : determinant (transpose a) = determinant a.
Proof. by_entries. ring. Qed.
Lemma determinant_identity : determinant identity = 1.
Proof. by_entries. ring. Qed.
Lemma pair_eq {A B} (a b : A) (c d : B) : a = b -> c = d -> (a, c) = (b, d).
Proof. now intros -> ->. Qed.
Lemma vector_multiply a b p : multiply_vector (multiply a b) p = multiply_vector b (multiply_vector a p).
Proof. destruct p as [[[x y] z] w]. by_entries. unfold multiply_vector. entries. repeat apply pair_eq; ring. Qed.
Lemma vector_identity p : multiply_vector identity p = p.
Proof. destruct p as [[[x y] z] w]. unfold multiply_vector, identity. entries. repeat apply pair_eq; ring. Qed.

Lemma inverse_some a b : inverse a = Some b -> 1 / determinant a * determinant a = 1.
Proof. intros H. field. intros N. apply eqb_iff in N. unfold inverse in H. rewrite N in H. discriminate. Qed.
Lemma inverse_right a b : inverse a = Some b -> multiply a b = identity.
Proof.
  intros H. pose proof (inverse_some a b H) as D. unfold inverse in H. destruct (eqb (determinant a) 0); [discriminate|]. injection H as <-.
  revert D. generalize (1 / determinant a). intros d D. unfold identity. rewrite <- D. clear D. destruct a. unfold determinant, multiply. entries. apply M_eq; ring.
Qed.
Lemma inverse_left a b : inverse a = Some b -> multiply b a = identity.
Proof.
  intros H. pose proof (inverse_some a b H) as D. unfold inverse in H. destruct (eqb (determinant a) 0); [discriminate|]. injection H as <-.
  revert D. generalize (1 / determinant a). intros d D. unfold identity. rewrite <- D. clear D. destruct a. unfold determinant, multiply. entries. apply M_eq; ring.
Qed.
Lemma inverse_none a : inverse a = None -> forall b, multiply a b <> identity /\ multiply b a <> identity.
Proof.
  unfold inverse. destruct (eqb (determinant a) 0) eqn:E; [|discriminate]. intros _ b. apply eqb_iff in E.
  split; intros H; apply (f_equal determinant) in H; rewrite determinant_multiply, determinant_identity, E in H; lra.
Qed.
Lemma to_2d_iff a m : to_matrix2d a = Some m <-> a = to_matrix3d m.
Proof.
  unfold to_matrix2d. split.
  - destruct (is_2d a) eqn:E; [|discriminate]. intros H. injection H as <-. unfold is_2d in E. rewrite !andb_true_iff, !eqb_iff in E. destruct a. entries.
    unfold to_matrix3d. cbn [ma mb mc md me mf]. apply M_eq; tauto.
  - intros ->. unfold is_2d, to_matrix3d. entries. assert (forall x, eqb x x = true) as -> by (intros; now apply eqb_iff). cbn [andb].
    assert (eqb 1 1 = true) as -> by now apply eqb_iff. cbn [andb]. now destruct m.
Qed.
