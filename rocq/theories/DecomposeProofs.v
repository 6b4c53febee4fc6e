(** * Proofs about the decomposition of matrices *)
From Coq Require Import Reals List Bool Lra Lia.
From Verif Require Import MatrixModel MatrixProofs TransformModel TransformSpec TransformProofs DecomposeModel.
Import ListNotations.
Local Open Scope R_scope.

Lemma vec_eq (x y z x' y' z' : R) : x = x' -> y = y' -> z = z' -> (x, y, z) = (x', y', z').
Proof. now intros -> -> ->. Qed.
Definition times (k : R) (a : vec) : vec := let '(x, y, z) := a in (k * x, k * y, k * z).
Lemma dot_times_left k a b : dot (times k a) b = k * dot a b.
Proof. destruct a as [[]], b as [[]]. cbn. ring. Qed.
Lemma dot_times_right k a b : dot a (times k b) = k * dot a b.
Proof. destruct a as [[]], b as [[]]. cbn. ring. Qed.
Lemma times_times k l a : times k (times l a) = times (k * l) a.
Proof. destruct a as [[]]. cbn. apply vec_eq; ring. Qed.
Lemma times_1 a : times 1 a = a.
Proof. destruct a as [[]]. cbn. apply vec_eq; ring. Qed.
Lemma divide_times a d : divide a d = times (/ d) a.
Proof. destruct a as [[]]. cbn. apply vec_eq; unfold Rdiv; ring. Qed.
Lemma combine_0 a b : combine a b 1 (- 0) = a.
Proof. destruct a as [[]], b as [[]]. cbn. apply vec_eq; ring. Qed.
Lemma negate_times a : negate a = times (-1) a.
Proof. destruct a as [[]]. cbn. apply vec_eq; ring. Qed.
Lemma cross_times k l a b : cross (times k a) (times l b) = times (k * l) (cross a b).
Proof. destruct a as [[]], b as [[]]. cbn. apply vec_eq; ring. Qed.
Lemma length_times k a : dot a a = 1 -> length (times k a) = Rabs k.
Proof. intros H. unfold length. rewrite dot_times_left, dot_times_right, H, <- norm_axis. f_equal. ring. Qed.
Record frame (a b c : vec) : Prop := Frame {
  len_a : dot a a = 1; len_b : dot b b = 1; len_c : dot c c = 1; ab : dot a b = 0; ac : dot a c = 0; bc : dot b c = 0; right_handed : dot a (cross b c) = 1
}.
Lemma split_frame k1 k2 k3 a b c : k1 <> 0 -> k2 <> 0 -> k3 <> 0 -> frame a b c ->
  split_rows (times k1 a) (times k2 b) (times k3 c) = ((0, 0, 0), (Rabs k1, Rabs k2, Rabs k3), (times (k1 / Rabs k1) a, times (k2 / Rabs k2) b, times (k3 / Rabs k3) c)).
Proof.
  intros N1 N2 N3 F. destruct F. unfold split_rows. cbv zeta.
  assert (forall k v, k <> 0 -> times (/ Rabs k) (times k v) = times (k / Rabs k) v) as E by (intros k v N; rewrite times_times; f_equal; field; now apply Rabs_no_R0).
  rewrite (length_times k1 a) by assumption. rewrite !divide_times, !E by assumption. rewrite dot_times_left, dot_times_right, ab0, !Rmult_0_r, !combine_0.
  rewrite (length_times k2 b) by assumption. rewrite !E by assumption.
  rewrite (dot_times_left _ a), (dot_times_right _ a), ac0, !Rmult_0_r, !combine_0, dot_times_left, dot_times_right, bc0, !Rmult_0_r, !combine_0.
  rewrite (length_times k3 c) by assumption. rewrite !E by assumption. unfold Rdiv. now rewrite !Rmult_0_l.
Qed.
Lemma split_scaled k a b c : k <> 0 -> frame a b c ->
  split_rows (times k a) (times k b) (times k c) = ((0, 0, 0), (Rabs k, Rabs k, Rabs k), (times (k / Rabs k) a, times (k / Rabs k) b, times (k / Rabs k) c)).
Proof. intros N. now apply split_frame. Qed.
Lemma sign_cases k : k <> 0 -> (0 < k /\ Rabs k = k /\ k / Rabs k = 1) \/ (k < 0 /\ Rabs k = - k /\ k / Rabs k = -1).
Proof.
  intros N. destruct (Rtotal_order k 0) as [L|[E|G]]; [right|contradiction|left].
  - split; [exact L|]. split; [now apply Rabs_left|now apply sign_neg].
  - split; [exact G|]. split; [apply Rabs_right; lra|now apply sign_pos].
Qed.
Lemma flip_scaled k a b c : k <> 0 -> frame a b c ->
  flip_part (Rabs k, Rabs k, Rabs k) (times (k / Rabs k) a, times (k / Rabs k) b, times (k / Rabs k) c) = ((k, k, k), (a, b, c)).
Proof.
  intros N F. unfold flip_part. rewrite cross_times, dot_times_left, dot_times_right, (right_handed _ _ _ F).
  destruct (sign_cases k N) as [(L & -> & ->)|(L & -> & ->)].
  - destruct (ltb _ 0) eqn:E; [apply ltb_iff in E; lra|]. now rewrite !times_1.
  - destruct (ltb _ 0) eqn:E; [|apply ltb_false in E; lra]. rewrite !negate_times, !times_times. replace (-1 * -1) with 1 by ring. rewrite !times_1, Ropp_involutive. reflexivity.
Qed.

(** ** Rounding *)
Lemma floor_half k : floor (IZR k + 1 / 2) = IZR k.
Proof. unfold floor, Int_part. f_equal. rewrite <- (tech_up (IZR k + 1 / 2) (k + 1)); [lia|..]; rewrite plus_IZR; lra. Qed.
Lemma round_int k : round (IZR k) = IZR k.
Proof.
  unfold round. destruct (ltb _ 0); [|apply floor_half]. rewrite <- opp_IZR, floor_half, opp_IZR. ring.
Qed.
Lemma round5_exact x k : x * 100000 = IZR k -> round5 x = x.
Proof. intros H. unfold round5. rewrite H, round_int, <- H. field. Qed.
Lemma round5_0 : round5 0 = 0.
Proof. apply (round5_exact 0 0). ring. Qed.

(** ** Rotations *)
Definition row0 (x y z t : R) : vec := (cos t + x * x * (1 - cos t), z * sin t + x * y * (1 - cos t), - y * sin t + x * z * (1 - cos t)).
Definition row1 (x y z t : R) : vec := (- z * sin t + x * y * (1 - cos t), cos t + y * y * (1 - cos t), x * sin t + y * z * (1 - cos t)).
Definition row2 (x y z t : R) : vec := (y * sin t + x * z * (1 - cos t), - x * sin t + y * z * (1 - cos t), cos t + z * z * (1 - cos t)).
Lemma rows_frame x y z t : x * x + y * y + z * z = 1 -> frame (row0 x y z t) (row1 x y z t) (row2 x y z t).
Proof.
  intros U. pose proof (sin2_cos2 t) as C. unfold Rsqr in C. unfold row0, row1, row2, dot, cross.
  assert (z * z = 1 - x * x - y * y) as Z by lra. assert (sin t * sin t = 1 - cos t * cos t) as S by lra.
  revert Z S. generalize (sin t) (cos t). intros s c Z S. clear U C.
  split; unfold dot, cross; cbv beta iota; ring [Z S].
Qed.
Lemma turn_unit_rows x y z t : same (turn_unit x y z t)
  (fun '(a, b, c, w) =>
     let '(r00, r01, r02) := row0 x y z t in let '(r10, r11, r12) := row1 x y z t in let '(r20, r21, r22) := row2 x y z t in
     (a * r00 + b * r10 + c * r20, a * r01 + b * r11 + c * r21, a * r02 + b * r12 + c * r22, w)).
Proof. intros [[[a b] c] w]. unfold turn_unit, row0, row1, row2. repeat apply pair_eq; ring. Qed.

Lemma sqrt_square x : 0 <= x -> 1 / 2 * sqrt (4 * (x * x)) = x.
Proof. intros H. replace (4 * (x * x)) with (2 * x * (2 * x)) by ring. rewrite sqrt_square by lra. field. Qed.
(** One coordinate of the axis *)
Lemma coordinate (x h k e d : R) : 0 <= h -> k = 4 * (x * h * (x * h)) -> (0 < h -> 0 < e) -> d = x * e ->
  (if ltb d (- d) then - (1 / 2 * sqrt (Rmax k 0)) else 1 / 2 * sqrt (Rmax k 0)) = x * h.
Proof.
  intros Hh -> He ->. assert (0 <= x * h * (x * h)) by (apply Rle_0_sqr). rewrite Rmax_left by lra.
  destruct (Req_EM_T h 0) as [->|N].
  { rewrite !Rmult_0_r, sqrt_0, Rmult_0_r, Ropp_0. now destruct (ltb _ _). }
  specialize (He ltac:(lra)). destruct (ltb (x * e) (- (x * e))) eqn:L.
  - apply ltb_iff in L. assert (x < 0) as P. { destruct (Rlt_le_dec x 0) as [P|P]; [exact P|]. pose proof (Rmult_le_pos x e P ltac:(lra)). lra. }
    replace (x * h * (x * h)) with (- x * h * (- x * h)) by ring. rewrite sqrt_square; [ring|]. apply Rmult_le_pos; lra.
  - apply ltb_false in L. assert (0 <= x) as P. { destruct (Rlt_le_dec x 0) as [P|P]; [|exact P]. pose proof (Rmult_lt_compat_r e x 0 He P). lra. }
    apply sqrt_square. now apply Rmult_le_pos.
Qed.
Lemma ltb_shift a b c : ltb (a + c) (b + c) = ltb a b.
Proof. unfold ltb. destruct (Rlt_dec (a + c) (b + c)), (Rlt_dec a b); try reflexivity; lra. Qed.
Lemma norm_times x y z h : 0 <= h -> x * x + y * y + z * z = 1 -> length (x * h, y * h, z * h) = h.
Proof.
  intros H U. unfold length, dot. replace (x * h * (x * h) + y * h * (y * h) + z * h * (z * h)) with ((x * x + y * y + z * z) * (h * h)) by ring.
  rewrite U, Rmult_1_l. now apply sqrt_square_abs || (rewrite norm_axis; now apply Rabs_pos_eq).
Qed.
Lemma turn_scaled x y z k t : 0 < k -> same (turn (x * k) (y * k) (z * k) t) (turn x y z t).
Proof.
  intros K p. unfold turn.
  assert (sqrt (x * k * (x * k) + y * k * (y * k) + z * k * (z * k)) = k * sqrt (x * x + y * y + z * z)) as E.
  { replace (x * k * (x * k) + y * k * (y * k) + z * k * (z * k)) with (k * k * (x * x + y * y + z * z)) by ring.
    assert (0 <= x * x + y * y + z * z). { pose proof (Rle_0_sqr x). pose proof (Rle_0_sqr y). pose proof (Rle_0_sqr z). unfold Rsqr in *. lra. }
    rewrite sqrt_mult_alt by (apply Rmult_le_pos; lra). rewrite norm_axis, Rabs_pos_eq by lra. reflexivity. }
  rewrite E. destruct (Req_EM_T (k * sqrt (x * x + y * y + z * z)) 0) as [Z|Z], (Req_EM_T (sqrt (x * x + y * y + z * z)) 0) as [Z'|Z']; try reflexivity.
  - apply Rmult_integral in Z. destruct Z; [lra|contradiction].
  - rewrite Z' in Z. lra.
  - f_equal; field; split; lra || exact Z'.
Qed.
Lemma turn_unit_axis x y z t : x * x + y * y + z * z = 1 -> same (turn x y z t) (turn_unit x y z t).
Proof. intros U p. unfold turn. rewrite U, sqrt_1. destruct (Req_EM_T 1 0); [lra|]. unfold Rdiv. now rewrite Rinv_1, !Rmult_1_r. Qed.
Lemma turn_unit_0 x y z : same (turn_unit x y z 0) (fun p => p).
Proof. intros [[[a b] c] w]. unfold turn_unit. rewrite cos_0, sin_0. repeat apply pair_eq; ring. Qed.

Section Rotation.
Context {LP LN : Type}.
Variable lp_value : LP -> R -> R.
Variable ln_value : LN -> R.
Variables width height : R.
Notation list_effect := (@list_effect LP LN lp_value ln_value width height).
Lemma rotate_part_effect x y z t : x * x + y * y + z * z = 1 -> 0 < x \/ 0 < y \/ 0 < z -> 0 <= t < PI ->
  same (list_effect (rotate_part (row0 x y z t, row1 x y z t, row2 x y z t))) (turn_unit x y z t).
Proof.
  intros U P T. unfold rotate_part, row0, row1, row2. cbv beta iota.
  set (h := sin (t / 2)). assert (0 <= h) as Hh by (apply sin_ge_0; lra). assert (0 < cos (t / 2)) as Hc by (apply cos_gt_0; lra).
  assert (1 - cos t = 2 * (h * h)) as V by (unfold h; rewrite half_cos; field).
  assert (0 < h -> 0 < sin t) as Hs. { intros G. replace t with (2 * (t / 2)) by field. rewrite sin_2a. fold h. apply Rmult_lt_0_compat; lra. }
  assert (cos t = 1 - 2 * (h * h)) as C by lra. assert (z * z = 1 - x * x - y * y) as Z by lra.
  rewrite !ltb_shift. replace (- x * sin t) with (- (x * sin t)) by ring. replace (- y * sin t) with (- (y * sin t)) by ring. replace (- z * sin t) with (- (z * sin t)) by ring.
  rewrite (coordinate x h) with (e := sin t); [|exact Hh|rewrite C; ring [Z]|exact Hs|reflexivity].
  rewrite (coordinate y h) with (e := sin t); [|exact Hh|rewrite C; ring [Z]|exact Hs|reflexivity].
  rewrite (coordinate z h) with (e := sin t); [|exact Hh|rewrite C; ring [Z]|exact Hs|reflexivity].
  rewrite norm_times by assumption.
  replace (1 / 2 * sqrt (Rmax (1 + (cos t + x * x * (1 - cos t)) + (cos t + y * y * (1 - cos t)) + (cos t + z * z * (1 - cos t))) 0)) with (cos (t / 2)).
  2:{ pose proof (sin2_cos2 (t / 2)) as S. unfold Rsqr in S. fold h in S.
      replace (1 + (cos t + x * x * (1 - cos t)) + (cos t + y * y * (1 - cos t)) + (cos t + z * z * (1 - cos t))) with (4 * (cos (t / 2) * cos (t / 2))).
      - rewrite Rmax_left by (pose proof (Rmult_lt_0_compat _ _ Hc Hc); lra). rewrite sqrt_square; lra.
      - rewrite C. assert (cos (t / 2) * cos (t / 2) = 1 - h * h) as -> by lra. ring [Z]. }
  assert (2 * atan2 h (cos (t / 2)) = t) as ->.
  { unfold atan2. destruct (ltb 0 (cos (t / 2))) eqn:L; [|apply ltb_false in L; lra]. change (h / cos (t / 2)) with (tan (t / 2)). rewrite atan_tan by lra. field. }
  destruct (eqb t 0) eqn:E0.
  { apply eqb_iff in E0. intros p. destruct (if eqb h 0 then _ else _) as [[? ?] ?]. cbv beta iota. rewrite E0, turn_unit_0. reflexivity. }
  apply eqb_false in E0. assert (0 < h) as Hp by (apply sin_gt_0; lra).
  destruct (eqb h 0) eqn:Eh; [apply eqb_iff in Eh; lra|]. cbn [divide]. replace (x * h / h) with x by (field; lra). replace (y * h / h) with y by (field; lra). replace (z * h / h) with z by (field; lra).
  assert (0 < Rmax (Rmax x y) z) as Hm.
  { pose proof (Rmax_l (Rmax x y) z). pose proof (Rmax_r (Rmax x y) z). pose proof (Rmax_l x y). pose proof (Rmax_r x y). lra. }
  intros p. cbn [TransformSpec.list_effect fold_right transform_effect rad]. unfold Rdiv. rewrite turn_scaled by now apply Rinv_0_lt_compat. now apply turn_unit_axis.
Qed.

(** ** Similarities *)
Variable lp_of_px : R -> LP.
Variable ln_of_px : R -> LN.
Hypothesis lp_of_px_value : forall x b, lp_value (lp_of_px x) b = x.
Hypothesis ln_of_px_value : forall x, ln_value (ln_of_px x) = x.
Lemma vector_ext m n : same (multiply_vector m) (multiply_vector n) -> m = n.
Proof.
  intros H. pose proof (H (1, 0, 0, 0)) as H1. pose proof (H (0, 1, 0, 0)) as H2. pose proof (H (0, 0, 1, 0)) as H3. pose proof (H (0, 0, 0, 1)) as H4.
  unfold multiply_vector in *. injection H1 as E11 E12 E13 E14. injection H2 as E21 E22 E23 E24. injection H3 as E31 E32 E33 E34. injection H4 as E41 E42 E43 E44.
  destruct m, n. entries. apply M_eq; lra.
Qed.
Definition similarity (k : R) (r0 r1 r2 : vec) (a b c : R) : matrix3d :=
  let '(r00, r01, r02) := r0 in let '(r10, r11, r12) := r1 in let '(r20, r21, r22) := r2 in
  M (k * r00) (k * r01) (k * r02) 0 (k * r10) (k * r11) (k * r12) 0 (k * r20) (k * r21) (k * r22) 0 a b c 1.
Lemma similarity_effect k x y z t a b c : same (multiply_vector (similarity k (row0 x y z t) (row1 x y z t) (row2 x y z t) a b c))
  (fun p => shift a b c (turn_unit x y z t (stretch k k k p))).
Proof.
  intros p. rewrite turn_unit_rows. destruct p as [[[px py] pz] pw]. unfold similarity, row0, row1, row2, multiply_vector, shift, stretch. entries. repeat apply pair_eq; ring.
Qed.
Lemma similarity_decompose k r0 r1 r2 a b c n : k <> 0 -> k * 100000 = IZR n -> frame r0 r1 r2 ->
  decompose lp_of_px ln_of_px (similarity k r0 r1 r2 a b c) =
  match translate_part lp_of_px ln_of_px (similarity k r0 r1 r2 a b c) ++ scale_part k k k ++ rotate_part (r0, r1, r2) with [] => None | l => Some l end.
Proof.
  intros N Hn F. unfold decompose.
  assert (scale_by_factor (similarity k r0 r1 r2 a b c) (1 / m44 (similarity k r0 r1 r2 a b c)) = similarity k r0 r1 r2 a b c) as ->.
  { destruct r0 as [[]], r1 as [[]], r2 as [[]]. unfold scale_by_factor, similarity. entries. apply M_eq; field. }
  assert (eqb (m44 (similarity k r0 r1 r2 a b c)) 0 = false) as ->.
  { destruct r0 as [[]], r1 as [[]], r2 as [[]]. cbn. apply eqb_false. lra. }
  pose proof (right_handed _ _ _ F) as D. pose proof (split_scaled k _ _ _ N F) as S. pose proof (flip_scaled k _ _ _ N F) as G.
  destruct r0 as [[r00 r01] r02], r1 as [[r10 r11] r12], r2 as [[r20 r21] r22]. unfold similarity. entries. cbv zeta.
  destruct (eqb (determinant _) 0) eqn:E.
  { apply eqb_iff in E. exfalso. unfold determinant, dot, cross in *. entries. apply N.
    assert (k * k * k * 1 = 0) as K. { rewrite <- D. etransitivity; [|exact E]. ring. }
    rewrite Rmult_1_r in K.
    apply Rmult_integral in K as [K|K]; [apply Rmult_integral in K as [K|K]|]; exact K. }
  unfold perspective_part. entries. assert (eqb 0 0 = true) as Z by now apply eqb_iff. rewrite Z. cbn [negb orb].
  cbn [times] in S. rewrite S. cbn [times] in G. cbn [times]. rewrite Z. cbn [negb]. rewrite G. cbn [app]. unfold skew_part. cbv zeta. rewrite round5_0, Z. reflexivity.
Qed.
Lemma decompose_similarity m k x y z t a b c n :
  same (multiply_vector m) (fun p => shift a b c (turn x y z t (stretch k k k p))) ->
  k <> 0 -> k * 100000 = IZR n -> 0 < x \/ 0 < y \/ 0 < z -> 0 <= t < PI ->
  match decompose lp_of_px ln_of_px m with
  | Some l => same (list_effect l) (multiply_vector m)
  | None => same (multiply_vector m) (fun p => p)
  end.
Proof.
  intros H N Hn P T.
  assert (0 < x * x + y * y + z * z) as Q.
  { pose proof (Rle_0_sqr x). pose proof (Rle_0_sqr y). pose proof (Rle_0_sqr z). unfold Rsqr in *.
    destruct P as [P|[P|P]]; pose proof (Rmult_lt_0_compat _ _ P P); lra. }
  set (d := sqrt (x * x + y * y + z * z)). assert (0 < d) as Hd by now apply sqrt_lt_R0.
  pose proof (norm_unit x y z ltac:(fold d; lra)) as U. cbv zeta in U. fold d in U.
  assert (same (turn x y z t) (turn_unit (x / d) (y / d) (z / d) t)) as Tu.
  { intros p. unfold turn. fold d. destruct (Req_EM_T d 0); [lra|reflexivity]. }
  assert (0 < x / d \/ 0 < y / d \/ 0 < z / d) as P'.
  { destruct P as [P|[P|P]]; [left|right; left|right; right]; apply Rdiv_lt_0_compat; assumption. }
  revert Tu U P'. generalize (x / d) (y / d) (z / d). clear d Hd Q P. intros u v w Tu U P.
  assert (m = similarity k (row0 u v w t) (row1 u v w t) (row2 u v w t) a b c) as ->.
  { apply vector_ext. intros p. rewrite similarity_effect, H. now rewrite Tu. }
  rewrite (similarity_decompose _ _ _ _ _ _ _ n N Hn (rows_frame u v w t U)).
  set (l := translate_part _ _ _ ++ _).
  assert (same (list_effect l) (multiply_vector (similarity k (row0 u v w t) (row1 u v w t) (row2 u v w t) a b c))) as G.
  { intros p. rewrite similarity_effect. unfold l.
    assert (forall l1 l2 p, list_effect (l1 ++ l2) p = list_effect l1 (list_effect l2 p)) as App.
    { intros l1 l2 q. induction l1 as [|f l1 IH]; [reflexivity|]. cbn. unfold TransformSpec.list_effect in IH. now rewrite IH. }
    rewrite !App, (rotate_part_effect u v w t U P T).
    assert (same (list_effect (scale_part k k k)) (stretch k k k)) as Es.
    { intros [[[px py] pz] pw]. unfold scale_part. cbv zeta. rewrite (round5_exact k n Hn). destruct (eqb k 1) eqn:E; [|reflexivity]. apply eqb_iff in E as ->.
      cbn. repeat apply pair_eq; ring. }
    assert (forall q, list_effect (translate_part lp_of_px ln_of_px (similarity k (row0 u v w t) (row1 u v w t) (row2 u v w t) a b c)) q = shift a b c q) as Et.
    { intros [[[px py] pz] pw]. unfold translate_part, similarity, row0, row1, row2. entries.
      destruct (eqb a 0) eqn:E1, (eqb b 0) eqn:E2, (eqb c 0) eqn:E3; cbn [negb orb TransformSpec.list_effect fold_right transform_effect];
        rewrite ?lp_of_px_value, ?ln_of_px_value; try reflexivity.
      apply eqb_iff in E1 as ->. apply eqb_iff in E2 as ->. apply eqb_iff in E3 as ->. cbn. repeat apply pair_eq; ring. }
    rewrite Et, Es. destruct p as [[[px py] pz] pw]. unfold turn_unit, stretch. f_equal. repeat apply pair_eq; ring. }
  destruct l eqn:El; [|exact G]. intros p. rewrite <- G. reflexivity.
Qed.
End Rotation.

(** ** Matrices that are not decomposed well *)
Ltac decide_eqb := repeat match goal with
  | |- context [eqb ?x ?y] => first [replace (eqb x y) with true by (symmetry; apply eqb_iff; lra) | replace (eqb x y) with false by (symmetry; apply eqb_false; lra)]
  end.
Ltac decide_ltb := repeat match goal with
  | |- context [ltb ?x ?y] => first [replace (ltb x y) with true by (symmetry; apply ltb_iff; lra) | replace (ltb x y) with false by (symmetry; apply ltb_false; lra)]
  end.
Notation decompose_px := (@decompose R R (fun x => x) (fun x => x)).
Notation effect_px := (@list_effect R R (fun x _ => x) (fun x => x) 0 0).
Lemma round5_1 : round5 1 = 1.
Proof. apply (round5_exact 1 100000). ring. Qed.
(** A half turn about an axis with coordinates of different sign *)
Definition half_turn : matrix3d := M 0 (-1) 0 0 (-1) 0 0 0 0 0 (-1) 0 0 0 0 1.
Lemma half_turn_effect : same (multiply_vector half_turn) (turn 1 (-1) 0 PI).
Proof.
  intros [[[x y] z] w]. unfold turn. assert (sqrt (1 * 1 + -1 * -1 + 0 * 0) = sqrt 2) as -> by (f_equal; ring).
  assert (sqrt 2 * sqrt 2 = 2) as S by (apply sqrt_sqrt; lra). destruct (Req_EM_T (sqrt 2) 0) as [E|N]; [rewrite E in S; lra|].
  unfold multiply_vector, half_turn, turn_unit. entries. rewrite cos_PI, sin_PI.
  assert (1 / sqrt 2 * (1 / sqrt 2) = 1 / 2) as D. { replace (1 / sqrt 2 * (1 / sqrt 2)) with (1 / (sqrt 2 * sqrt 2)) by (field; exact N). now rewrite S. }
  replace (-1 / sqrt 2) with (- (1 / sqrt 2)) by (field; exact N). replace (0 / sqrt 2) with 0 by (field; exact N). revert D. generalize (1 / sqrt 2). intros d D.
  repeat apply pair_eq; ring_simplify; replace (d ^ 2) with (1 / 2) by (rewrite <- D; ring); field.
Qed.
Lemma turn_110 : turn 1 1 0 PI (1, 0, 0, 1) = (0, 1, 0, 1).
Proof.
  unfold turn. assert (sqrt (1 * 1 + 1 * 1 + 0 * 0) = sqrt 2) as -> by (f_equal; ring).
  assert (sqrt 2 * sqrt 2 = 2) as S by (apply sqrt_sqrt; lra). destruct (Req_EM_T (sqrt 2) 0) as [E|N]; [rewrite E in S; lra|].
  unfold turn_unit. rewrite cos_PI, sin_PI.
  assert (1 / sqrt 2 * (1 / sqrt 2) = 1 / 2) as D. { replace (1 / sqrt 2 * (1 / sqrt 2)) with (1 / (sqrt 2 * sqrt 2)) by (field; exact N). now rewrite S. }
  replace (0 / sqrt 2) with 0 by (field; exact N). revert D. generalize (1 / sqrt 2). intros d D.
  repeat apply pair_eq; ring_simplify; replace (d ^ 2) with (1 / 2) by (rewrite <- D; ring); field.
Qed.
Lemma half_turn_decompose : exists x y, 0 < x /\ x = y /\ decompose_px half_turn = Some [Rotate3d x y 0 (Rad PI)].
Proof.
  assert (frame (0, -1, 0) (-1, 0, 0) (0, 0, -1)) as F by (split; unfold dot, cross; cbv beta iota; ring).
  assert (half_turn = similarity 1 (0, -1, 0) (-1, 0, 0) (0, 0, -1) 0 0 0) as -> by (unfold half_turn, similarity; apply M_eq; ring).
  rewrite (similarity_decompose (fun x => x) (fun x => x) 1 _ _ _ _ _ _ 100000 ltac:(lra) ltac:(ring) F).
  unfold similarity, translate_part, scale_part. entries. rewrite round5_1. decide_eqb. cbn [negb orb app].
  unfold rotate_part.
  replace (1 + 0 - 0 - -1) with 2 by ring. replace (1 - 0 + 0 - -1) with 2 by ring. replace (1 - 0 - 0 + -1) with 0 by ring. replace (1 + 0 + 0 + -1) with 0 by ring.
  decide_ltb. rewrite !Rmax_left by lra. rewrite sqrt_0, !Rmult_0_r.
  assert (sqrt 2 * sqrt 2 = 2) as S by (apply sqrt_sqrt; lra). pose proof (sqrt_pos 2) as P.
  assert (length (1 / 2 * sqrt 2, 1 / 2 * sqrt 2, 0) = 1) as ->.
  { unfold length, dot. transitivity (sqrt 1); [f_equal; lra|apply sqrt_1]. }
  decide_eqb. cbn [divide]. assert (2 * atan2 1 0 = PI) as ->. { unfold atan2. decide_ltb. field. }
  pose proof PI_RGT_0. decide_eqb. cbv zeta. replace (1 / 2 * sqrt 2 / 1) with (1 / 2 * sqrt 2) by field. replace (0 / 1) with 0 by field. rewrite (Rmax_left (1 / 2 * sqrt 2) (1 / 2 * sqrt 2)), (Rmax_left (1 / 2 * sqrt 2) 0) by lra.
  assert (0 < sqrt 2) as Q by (apply sqrt_lt_R0; lra).
  exists (1 / 2 * sqrt 2 / (1 / 2 * sqrt 2)), (1 / 2 * sqrt 2 / (1 / 2 * sqrt 2)). split; [apply Rdiv_lt_0_compat; lra|]. split; [reflexivity|].
  do 3 f_equal. field. lra.
Qed.
Lemma half_turn_wrong : exists l, decompose_px half_turn = Some l /\ effect_px l (1, 0, 0, 1) = (0, 1, 0, 1) /\ multiply_vector half_turn (1, 0, 0, 1) = (0, -1, 0, 1).
Proof.
  destruct half_turn_decompose as (x & y & P & <- & E). exists [Rotate3d x x 0 (Rad PI)]. split; [exact E|]. split.
  - cbn [list_effect fold_right transform_effect rad]. rewrite <- turn_110. replace (turn x x 0 PI) with (turn (1 * x) (1 * x) (0 * x) PI) by (f_equal; ring). now apply turn_scaled.
  - unfold half_turn, multiply_vector. entries. repeat apply pair_eq; ring.
Qed.
(** A shear *)
Definition shear : matrix3d := M 1 0 0 0 3 1 0 0 0 0 1 0 0 0 0 1.
Lemma len_100 : length (1, 0, 0) = 1.
Proof. unfold length, dot. transitivity (sqrt 1); [f_equal; ring|apply sqrt_1]. Qed.
Lemma len_010 : length (0, 1, 0) = 1.
Proof. unfold length, dot. transitivity (sqrt 1); [f_equal; ring|apply sqrt_1]. Qed.
Lemma len_001 : length (0, 0, 1) = 1.
Proof. unfold length, dot. transitivity (sqrt 1); [f_equal; ring|apply sqrt_1]. Qed.
Lemma identity_rows : @rotate_part R R ((1, 0, 0), (0, 1, 0), (0, 0, 1)) = [].
Proof.
  unfold rotate_part. replace (1 + 1 - 1 - 1) with 0 by ring. replace (1 - 1 + 1 - 1) with 0 by ring. replace (1 - 1 - 1 + 1) with 0 by ring. replace (1 + 1 + 1 + 1) with 4 by ring.
  decide_ltb. rewrite !Rmax_left by lra. rewrite sqrt_0, !Rmult_0_r.
  assert (length (0, 0, 0) = 0) as ->. { unfold length, dot. transitivity (sqrt 0); [f_equal; ring|apply sqrt_0]. }
  decide_eqb. cbn [divide]. assert (0 < sqrt 4) as Q by (apply sqrt_lt_R0; lra).
  assert (2 * atan2 0 (1 / 2 * sqrt 4) = 0) as ->. { unfold atan2. decide_ltb. unfold Rdiv. rewrite Rmult_0_l, atan_0. ring. }
  now decide_eqb.
Qed.
Lemma round5_3 : round5 3 = 3.
Proof. apply (round5_exact 3 300000). ring. Qed.
Lemma shear_decompose : decompose_px shear = Some [Skew (Rad 3) (Rad 0)].
Proof.
  unfold decompose. assert (scale_by_factor shear (1 / m44 shear) = shear) as -> by (unfold scale_by_factor, shear; entries; apply M_eq; field).
  unfold shear. entries. assert (determinant (M 1 0 0 0 3 1 0 0 0 0 1 0 0 0 0 1) = 1) as -> by (unfold determinant; entries; ring).
  unfold perspective_part, translate_part. entries. decide_eqb. cbn [negb orb app].
  assert (split_rows (1, 0, 0) (3, 1, 0) (0, 0, 1) = ((3, 0, 0), (1, 1, 1), ((1, 0, 0), (0, 1, 0), (0, 0, 1)))) as ->.
  { unfold split_rows. cbv zeta. rewrite len_100. cbn [divide].
    replace (1 / 1) with 1 by field. replace (0 / 1) with 0 by field.
    assert (dot (1, 0, 0) (3, 1, 0) = 3) as -> by (unfold dot; ring).
    assert (combine (3, 1, 0) (1, 0, 0) 1 (- (3)) = (0, 1, 0)) as -> by (unfold combine; apply vec_eq; ring). rewrite len_010. cbn [divide].
    replace (3 / 1) with 3 by field. replace (1 / 1) with 1 by field. replace (0 / 1) with 0 by field.
    assert (dot (1, 0, 0) (0, 0, 1) = 0) as -> by (unfold dot; ring). rewrite combine_0.
    assert (dot (0, 1, 0) (0, 0, 1) = 0) as -> by (unfold dot; ring). rewrite combine_0, len_001. cbn [divide].
    replace (1 / 1) with 1 by field. replace (0 / 1) with 0 by field. reflexivity. }
  decide_eqb. cbn [negb]. unfold flip_part. assert (dot (1, 0, 0) (cross (0, 1, 0) (0, 0, 1)) = 1) as -> by (unfold dot, cross; ring). decide_ltb.
  rewrite identity_rows. unfold skew_part, scale_part. rewrite round5_0, round5_1, round5_3. now decide_eqb.
Qed.
Lemma tan_3 : tan 3 < 0.
Proof.
  pose proof PI2_3_2. pose proof PI_4. assert (0 < sin 3) by (apply sin_gt_0; lra). assert (cos 3 < 0) by (apply cos_lt_0; lra).
  unfold tan, Rdiv. assert (/ cos 3 < 0) by now apply Rinv_lt_0_compat. pose proof (Rmult_lt_0_compat (sin 3) (- / cos 3) ltac:(lra) ltac:(lra)). lra.
Qed.
Lemma shear_wrong : exists l, decompose_px shear = Some l /\ ~ same (effect_px l) (multiply_vector shear).
Proof.
  exists [Skew (Rad 3) (Rad 0)]. split; [exact shear_decompose|]. intros H. specialize (H (0, 1, 0, 1)). cbn [list_effect fold_right transform_effect rad] in H.
  unfold slant, multiply_vector, shear in H. entries. injection H as H _. pose proof tan_3. lra.
Qed.
(** A rotation of a box that is stretched in one direction *)
Definition stretched : matrix3d := M 0 2 0 0 (-1) 0 0 0 0 0 1 0 0 0 0 1.
Lemma stretched_effect : same (multiply_vector stretched) (fun p => turn_z (PI / 2) (stretch 2 1 1 p)).
Proof. intros [[[x y] z] w]. unfold multiply_vector, stretched, turn_z, stretch. entries. rewrite cos_PI2, sin_PI2. repeat apply pair_eq; ring. Qed.
Lemma round5_2 : round5 2 = 2.
Proof. apply (round5_exact 2 200000). ring. Qed.
Lemma stretched_wrong : exists l, decompose_px stretched = Some l /\ effect_px l (1, 0, 0, 1) = (0, 1, 0, 1) /\ multiply_vector stretched (1, 0, 0, 1) = (0, 2, 0, 1).
Proof.
  pose proof (rotate_part_effect (LP := R) (LN := R) (fun x _ => x) (fun x => x) 0 0 0 0 1 (PI / 2) ltac:(ring) ltac:(lra) ltac:(pose proof PI_RGT_0; lra)) as H.
  pose proof (rows_frame 0 0 1 (PI / 2) ltac:(ring)) as F.
  assert (row0 0 0 1 (PI / 2) = (0, 1, 0)) as E0 by (unfold row0; rewrite cos_PI2, sin_PI2; apply vec_eq; ring).
  assert (row1 0 0 1 (PI / 2) = (-1, 0, 0)) as E1 by (unfold row1; rewrite cos_PI2, sin_PI2; apply vec_eq; ring).
  assert (row2 0 0 1 (PI / 2) = (0, 0, 1)) as E2 by (unfold row2; rewrite cos_PI2, sin_PI2; apply vec_eq; ring).
  rewrite E0, E1, E2 in H, F.
  exists (Scale3d (Num 2) (Num 1) (Num 1) :: rotate_part ((0, 1, 0), (-1, 0, 0), (0, 0, 1))). split; [|split].
  - unfold decompose. assert (scale_by_factor stretched (1 / m44 stretched) = stretched) as -> by (unfold scale_by_factor, stretched; entries; apply M_eq; field).
    unfold stretched. entries. assert (determinant (M 0 2 0 0 (-1) 0 0 0 0 0 1 0 0 0 0 1) = 2) as -> by (unfold determinant; entries; ring).
    unfold perspective_part, translate_part. entries. decide_eqb. cbn [negb orb app].
    pose proof (split_frame 2 1 1 _ _ _ ltac:(lra) ltac:(lra) ltac:(lra) F) as S. rewrite !Rabs_pos_eq in S by lra. cbn [times] in S.
    replace (2 * 0) with 0 in S by ring. replace (2 * 1) with 2 in S by ring. replace (1 * -1) with (-1) in S by ring. replace (1 * 0) with 0 in S by ring. replace (1 * 1) with 1 in S by ring.
    rewrite S. replace (2 / 2 * 0) with 0 by field. replace (2 / 2 * 1) with 1 by field. replace (1 / 1 * -1) with (-1) by field. replace (1 / 1 * 0) with 0 by field. replace (1 / 1 * 1) with 1 by field.
    decide_eqb. cbn [negb]. unfold flip_part. assert (dot (0, 1, 0) (cross (-1, 0, 0) (0, 0, 1)) = 1) as -> by (unfold dot, cross; ring). decide_ltb.
    unfold skew_part, scale_part. rewrite round5_0, round5_1, round5_2. decide_eqb. reflexivity.
  - change (effect_px (Scale3d (Num 2) (Num 1) (Num 1) :: rotate_part ((0, 1, 0), (-1, 0, 0), (0, 0, 1))) (1, 0, 0, 1))
      with (stretch 2 1 1 (effect_px (rotate_part ((0, 1, 0), (-1, 0, 0), (0, 0, 1))) (1, 0, 0, 1))).
    rewrite H, turn_unit_z. unfold turn_z, stretch. rewrite cos_PI2, sin_PI2. repeat apply pair_eq; ring.
  - unfold stretched, multiply_vector. entries. repeat apply pair_eq; ring.
Qed.
