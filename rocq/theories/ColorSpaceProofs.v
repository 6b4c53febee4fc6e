(** * Proofs about the conversions of colours *)
From Coq Require Import Reals ZArith Bool List Lra Lia Psatz.
From Verif Require Import MatrixModel MatrixProofs ColorSpaceModel ColorSpaceSpec.
Import ListNotations.
Local Open Scope R_scope.

Ltac ltb_case a b := let E := fresh "E" in destruct (ltb a b) eqn:E; [apply ltb_iff in E | apply ltb_false in E].
Lemma ltb_true a b : a < b -> ltb a b = true.
Proof. apply ltb_iff. Qed.
Lemma ltb_no a b : b <= a -> ltb a b = false.
Proof. apply ltb_false. Qed.
Lemma floor_range x : floor x <= x < floor x + 1.
Proof. unfold floor. destruct (base_Int_part x). lra. Qed.

(** ** Powers and cube roots *)
Lemma powf_zero y : powf 0 y = 0.
Proof. unfold powf. destruct (eqb 0 0) eqn:E; [reflexivity|]. apply eqb_false in E. lra. Qed.
Lemma powf_Rpower x y : 0 < x -> powf x y = Rpower x y.
Proof. intros H. unfold powf. destruct (eqb x 0) eqn:E; [apply eqb_iff in E; lra | reflexivity]. Qed.
Lemma powf_power e x : 0 <= x -> power e x (powf x e).
Proof.
  intros H. destruct (Req_dec x 0) as [->|N]; [left; rewrite powf_zero; auto|]. right. split; [lra|]. apply powf_Rpower. lra.
Qed.
Lemma powf_pos x y : 0 < x -> 0 < powf x y.
Proof. intros H. rewrite powf_Rpower by exact H. apply exp_pos. Qed.
Lemma powf_nonneg x y : 0 <= x -> 0 <= powf x y.
Proof. intros H. destruct (Req_dec x 0) as [->|N]; [rewrite powf_zero; lra|]. left. apply powf_pos. lra. Qed.
Lemma powf_inverse x y z : 0 <= x -> y * z = 1 -> powf (powf x y) z = x.
Proof.
  intros H E. destruct (Req_dec x 0) as [->|N]; [rewrite !powf_zero; reflexivity|].
  rewrite (powf_Rpower _ z) by (apply powf_pos; lra). rewrite powf_Rpower by lra. rewrite Rpower_mult, E, Rpower_1; lra.
Qed.
Lemma powf_3 x : 0 <= x -> powf (x ^ 3) (1 / 3) = x.
Proof.
  intros H. destruct (Req_dec x 0) as [->|N]; [replace (0 ^ 3) with 0 by ring; apply powf_zero|].
  assert (P : 0 < x ^ 3) by (apply pow_lt; lra). rewrite powf_Rpower by exact P.
  rewrite <- Rpower_pow by lra. rewrite Rpower_mult. replace (INR 3 * (1 / 3)) with 1 by (cbn; lra). apply Rpower_1. lra.
Qed.
Lemma powf_third x : 0 <= x -> powf x (1 / 3) ^ 3 = x.
Proof.
  intros H. destruct (Req_dec x 0) as [->|N]; [rewrite powf_zero; ring|].
  rewrite <- Rpower_pow by (apply powf_pos; lra). rewrite powf_Rpower by lra. rewrite Rpower_mult.
  replace (1 / 3 * INR 3) with 1 by (cbn; lra). apply Rpower_1. lra.
Qed.
Lemma cbrt_cube x : cbrt (x ^ 3) = x.
Proof.
  unfold cbrt. ltb_case (x ^ 3) 0.
  - assert (x < 0). { destruct (Rlt_le_dec x 0); [assumption|]. pose proof (pow_le x 3 r). lra. }
    replace (- x ^ 3) with ((- x) ^ 3) by ring. rewrite powf_3 by lra. ring.
  - destruct (Rlt_le_dec x 0) as [L|L]; [|apply powf_3; exact L].
    exfalso. assert (0 < (- x) ^ 3) by (apply pow_lt; lra). replace ((- x) ^ 3) with (- x ^ 3) in H by ring. lra.
Qed.
Lemma cube_cbrt x : cbrt x ^ 3 = x.
Proof.
  unfold cbrt. ltb_case x 0.
  - replace ((- powf (- x) (1 / 3)) ^ 3) with (- (powf (- x) (1 / 3)) ^ 3) by ring. rewrite powf_third by lra. ring.
  - apply powf_third. exact E.
Qed.

(** ** Lab *)
Lemma lab_e_cube : lab_e = (6 / 29) ^ 3.
Proof. unfold lab_e. field. Qed.
Lemma cube_lt a b : a < b <-> a ^ 3 < b ^ 3.
Proof.
  assert (F : forall a b, a < b -> a ^ 3 < b ^ 3).
  { intros u v H. assert (P : 0 < (v - u) * (u ^ 2 + u * v + v ^ 2)).
    { apply Rmult_lt_0_compat; [lra|]. destruct (Req_dec v 0) as [->|N].
      - replace (u ^ 2 + u * 0 + 0 ^ 2) with (u * u) by ring. apply Rsqr_pos_lt. lra.
      - replace (u ^ 2 + u * v + v ^ 2) with (Rsqr (u + v / 2) + 3 / 4 * Rsqr v) by (unfold Rsqr; field).
        pose proof (Rle_0_sqr (u + v / 2)). pose proof (Rsqr_pos_lt v N). lra. }
    replace ((v - u) * (u ^ 2 + u * v + v ^ 2)) with (v ^ 3 - u ^ 3) in P by ring. lra. }
  split; [apply F|]. intros H. destruct (Rlt_le_dec a b) as [L|L]; [exact L|]. destruct (Req_dec a b) as [->|N]; [lra|].
  assert (b ^ 3 < a ^ 3) by (apply F; lra). lra.
Qed.
Lemma from_lab_curve f : lab_curve f (if ltb lab_e (f ^ 3) then f ^ 3 else (116 * f - 16) / lab_k).
Proof.
  rewrite lab_e_cube. ltb_case ((6 / 29) ^ 3) (f ^ 3).
  - apply cube_lt in E. left. auto.
  - right. split; [|unfold lab_k; field]. destruct (Rle_lt_dec f (6 / 29)) as [L|L]; [exact L|]. apply cube_lt in L. lra.
Qed.
Lemma to_lab_curve t : lab_curve (lab_f t) t.
Proof.
  unfold lab_f. ltb_case lab_e t.
  - left. split; [|symmetry; apply cube_cbrt]. apply cube_lt. rewrite cube_cbrt, <- lab_e_cube. exact E.
  - right. unfold lab_k, lab_e in *. split; [lra | field].
Qed.
Lemma lab_curve_fun f g t u : lab_curve f t -> lab_curve g u -> (f = g <-> t = u).
Proof.
  intros [[A ->]|[A ->]] [[B ->]|[B ->]]; split; intros E; try lra; try (subst; lra).
  - destruct (Rtotal_order f g) as [L|[L|L]]; [|exact L|]; apply cube_lt in L; lra.
  - apply cube_lt in A. lra.
  - apply cube_lt in B. lra.
Qed.
Lemma d50_D50 : d50 = D50.
Proof. reflexivity. Qed.
Lemma wx_pos : 0 < 0.3457 / 0.3585. Proof. lra. Qed.
Lemma wz_pos : 0 < (1 - 0.3457 - 0.3585) / 0.3585. Proof. lra. Qed.
Lemma lab_to_xyz_point v : lab_point v (lab_to_xyz v).
Proof.
  destruct v as [[L a] b]. pose proof wx_pos. pose proof wz_pos.
  unfold lab_to_xyz, lab_point, D50, white, d50.
  set (wx := 0.3457 / 0.3585) in *. set (wz := (1 - 0.3457 - 0.3585) / 0.3585) in *.
  exists (a / 500 + (L + 16) / 116), ((L + 16) / 116), ((L + 16) / 116 - b / 200).
  split; [lra|]. split; [lra|]. split; [lra|].
  split; [|split].
  - match goal with |- lab_curve _ (?u * wx / wx) => replace (u * wx / wx) with u by (field; lra) end. apply from_lab_curve.
  - match goal with |- lab_curve _ (?u * 1 / 1) => replace (u * 1 / 1) with u by field end.
    ltb_case (lab_k * lab_e) L.
    + left. unfold lab_k, lab_e in E. split; [lra | reflexivity].
    + right. unfold lab_k, lab_e in *. split; [lra | field].
  - match goal with |- lab_curve _ (?u * wz / wz) => replace (u * wz / wz) with u by (field; lra) end. apply from_lab_curve.
Qed.
Lemma xyz_to_lab_point x : lab_point (xyz_to_lab x) x.
Proof.
  destruct x as [[X Y] Z]. unfold xyz_to_lab, lab_point, D50, white, d50.
  exists (lab_f (X / (0.3457 / 0.3585))), (lab_f (Y / 1)), (lab_f (Z / ((1 - 0.3457 - 0.3585) / 0.3585))).
  repeat split; apply to_lab_curve.
Qed.
Lemma lab_point_fun v w x y : lab_point v x -> lab_point w y -> (v = w <-> x = y).
Proof.
  destruct v as [[L a] b], w as [[L' a'] b'], x as [[X Y] Z], y as [[X' Y'] Z'].
  pose proof wx_pos. pose proof wz_pos. unfold lab_point, D50, white.
  set (wx := 0.3457 / 0.3585) in *. set (wz := (1 - 0.3457 - 0.3585) / 0.3585) in *.
  intros [fx [fy [fz [-> [-> [-> [A [B C]]]]]]]] [gx [gy [gz [-> [-> [-> [A' [B' C']]]]]]]].
  pose proof (lab_curve_fun _ _ _ _ A A') as FA. pose proof (lab_curve_fun _ _ _ _ B B') as FB. pose proof (lab_curve_fun _ _ _ _ C C') as FC.
  split.
  - intros E. injection E as E1 E2 E3. assert (fy = gy) by lra. assert (fx = gx) by lra. assert (fz = gz) by lra.
    apply FA in H2. apply FB in H1. apply FC in H3.
    f_equal; [f_equal|].
    + apply Rmult_eq_reg_r with (/ wx); [exact H2|]. apply Rinv_neq_0_compat. lra.
    + lra.
    + apply Rmult_eq_reg_r with (/ wz); [exact H3|]. apply Rinv_neq_0_compat. lra.
  - intros E. injection E as -> -> ->. assert (fx = gx) by (apply FA; reflexivity). assert (fy = gy) by (apply FB; reflexivity).
    assert (fz = gz) by (apply FC; reflexivity). subst. reflexivity.
Qed.

(** ** Polar coordinates *)
Lemma atan2_polar x y : x = sqrt (x ^ 2 + y ^ 2) * cos (atan2 y x) /\ y = sqrt (x ^ 2 + y ^ 2) * sin (atan2 y x).
Proof.
  assert (POS : forall u v, 0 < u -> u = sqrt (u ^ 2 + v ^ 2) * cos (atan (v / u)) /\ v = sqrt (u ^ 2 + v ^ 2) * sin (atan (v / u))).
  { intros u v U. assert (E : sqrt (u ^ 2 + v ^ 2) = u * sqrt (1 + (v / u)²)).
    { rewrite <- (sqrt_Rsqr u) at 2 by lra. rewrite <- sqrt_mult_alt by apply Rle_0_sqr. f_equal. unfold Rsqr. field. lra. }
    assert (Q : sqrt (1 + (v / u)²) <> 0).
    { apply Rgt_not_eq, sqrt_lt_R0. pose proof (Rle_0_sqr (v / u)). lra. }
    rewrite E, cos_atan, sin_atan. split; field; repeat split; (exact Q || lra). }
  unfold atan2. ltb_case 0 x; [apply POS; exact E|]. ltb_case x 0.
  - destruct (POS (- x) (- y)) as [A B]; [lra|]. replace ((- x) ^ 2 + (- y) ^ 2) with (x ^ 2 + y ^ 2) in * by ring.
    replace (- y / - x) with (y / x) in * by (field; lra).
    ltb_case y 0.
    + rewrite cos_minus, sin_minus, cos_PI, sin_PI. lra.
    + rewrite cos_plus, sin_plus, cos_PI, sin_PI. lra.
  - assert (x = 0) by lra. subst. ltb_case 0 y.
    + rewrite cos_PI2, sin_PI2. replace (0 ^ 2 + y ^ 2) with (y * y) by ring. rewrite sqrt_square by lra. lra.
    + ltb_case y 0.
      * rewrite cos_neg, sin_neg, cos_PI2, sin_PI2. replace (0 ^ 2 + y ^ 2) with (- y * - y) by ring. rewrite sqrt_square by lra. lra.
      * assert (y = 0) by lra. subst. replace (0 ^ 2 + 0 ^ 2) with 0 by ring. rewrite sqrt_0. lra.
Qed.
Lemma atan2_bound y x : - PI < atan2 y x <= PI.
Proof.
  pose proof PI_RGT_0. unfold atan2. pose proof (atan_bound (y / x)) as B.
  ltb_case 0 x; [lra|]. ltb_case x 0.
  - ltb_case y 0.
    + assert (0 < y / x) by (apply Rdiv_neg_neg || (unfold Rdiv; assert (/ x < 0) by (apply Rinv_lt_0_compat; lra); nra)).
      pose proof (atan_increasing 0 (y / x) H0) as I. rewrite atan_0 in I. lra.
    + assert (y / x <= 0) by (unfold Rdiv; assert (/ x < 0) by (apply Rinv_lt_0_compat; lra); nra).
      assert (atan (y / x) <= 0); [|lra]. destruct (Req_dec (y / x) 0) as [->|N]; [rewrite atan_0; lra|].
      left. rewrite <- atan_0. apply atan_increasing. lra.
  - ltb_case 0 y; [lra|]. ltb_case y 0; lra.
Qed.
Lemma frem_small x : 0 <= x < 360 -> frem x 360 = x.
Proof.
  intros H. unfold frem, trunc. rewrite ltb_no by lra. replace (floor (x / 360)) with 0; [lra|].
  unfold floor. destruct (base_Int_part (x / 360)) as [A B]. f_equal.
  assert (IZR (Int_part (x / 360)) < IZR 1) by lra. assert (IZR (-1) < IZR (Int_part (x / 360))) by lra.
  apply lt_IZR in H0, H1. lia.
Qed.
Lemma degrees_turn h : cos (degrees (h + 360)) = cos (degrees h) /\ sin (degrees (h + 360)) = sin (degrees h).
Proof.
  unfold degrees. replace ((h + 360) * PI / 180) with (h * PI / 180 + 2 * PI) by field.
  rewrite cos_plus, sin_plus, cos_2PI, sin_2PI. lra.
Qed.
Lemma polar_to_rectangular_spec v : polar v (polar_to_rectangular v).
Proof. destruct v as [[L c] h]. repeat split. Qed.
Lemma rectangular_to_polar_spec v :
  polar (rectangular_to_polar v) v /\ let '(_, c, h) := rectangular_to_polar v in 0 <= c /\ 0 <= h < 360.
Proof.
  destruct v as [[L a] b]. unfold rectangular_to_polar. cbn [polar].
  pose proof (atan2_polar a b) as [A B]. pose proof (atan2_bound b a) as [LO HI]. pose proof PI_RGT_0.
  set (t := atan2 b a) in *. set (r := sqrt (a ^ 2 + b ^ 2)) in *.
  assert (D : degrees (t * 180 / PI) = t) by (unfold degrees; field; lra).
  assert (R0 : 0 <= r) by apply sqrt_pos.
  assert (T0 : t * 180 / PI < 0 -> t < 0).
  { intros N. apply Rmult_lt_reg_r with (180 / PI); [apply Rdiv_lt_0_compat; lra|]. lra. }
  assert (TL : -180 < t * 180 / PI).
  { apply Rmult_lt_reg_r with PI; [lra|]. replace (t * 180 / PI * PI) with (t * 180) by (field; lra). lra. }
  assert (TH : t * 180 / PI <= 180).
  { apply Rmult_le_reg_r with PI; [lra|]. replace (t * 180 / PI * PI) with (t * 180) by (field; lra). lra. }
  ltb_case (t * 180 / PI) 0.
  - rewrite frem_small by lra. destruct (degrees_turn (t * 180 / PI)) as [-> ->]. rewrite D. split; [auto|lra].
  - rewrite frem_small by lra. rewrite D. split; [auto|lra].
Qed.

(** ** Transfer functions *)
Lemma sign_neg c : c < 0 -> sign c = -1.
Proof. intros H. unfold sign. rewrite ltb_true by exact H. reflexivity. Qed.
Lemma sign_pos c : 0 <= c -> sign c = 1.
Proof. intros H. unfold sign. rewrite ltb_no by exact H. reflexivity. Qed.
(** A function that is written with the absolute value and the sign *)
Lemma odd_intro (P : R -> R -> Prop) (f : R -> R) v :
  (forall u, 0 <= u -> P u (f u)) -> (forall u, u < 0 -> f u = - f (- u)) -> odd P v (f v).
Proof.
  intros A B. destruct (Rlt_le_dec v 0) as [N|N]; [right | left]; split; auto.
  rewrite B by exact N. rewrite Ropp_involutive. apply A. lra.
Qed.
Ltac signs :=
  repeat match goal with
         | |- context [sign ?c] => first [rewrite (sign_neg c) by lra | rewrite (sign_pos c) by lra]
         | |- context [Rabs ?c] => first [rewrite (Rabs_left c) by lra | rewrite (Rabs_pos_eq c) by lra]
         end.
Ltac odd_tac f :=
  intros u U; unfold f; signs; rewrite ?Ropp_involutive; repeat match goal with |- context [ltb ?a ?b] => ltb_case a b end; try lra.
Lemma lin_srgb_spec v : odd srgb_decoded v (lin_srgb v).
Proof.
  apply odd_intro; odd_tac lin_srgb.
  - left. lra.
  - right. split; [lra|]. rewrite Rmult_1_l. apply powf_power. lra.
Qed.
Lemma gam_srgb_spec v : odd srgb_encoded v (gam_srgb v).
Proof.
  apply odd_intro; odd_tac gam_srgb.
  - right. split; [lra|]. rewrite Rmult_1_l.
    match goal with |- power _ _ ?x => replace x with (powf u (1 / 2.4)) by lra end. apply powf_power. lra.
  - left. lra.
Qed.
Lemma lin_a98_spec v : odd a98_decoded v (lin_a98 v).
Proof. apply odd_intro; odd_tac lin_a98. rewrite Rmult_1_l. apply powf_power. lra. Qed.
Lemma gam_a98_spec v : odd a98_encoded v (gam_a98 v).
Proof. apply odd_intro; odd_tac gam_a98. rewrite Rmult_1_l. apply powf_power. lra. Qed.
Lemma lin_rec2020_spec v : odd rec2020_decoded v (lin_rec2020 v).
Proof.
  assert (0 < rec_a) by (unfold rec_a; lra). assert (0 < rec_b) by (unfold rec_b; lra). assert (1 < rec_a) by (unfold rec_a; lra).
  apply odd_intro; odd_tac lin_rec2020.
  - left. split; [exact E | lra].
  - right. split; [exact E|]. rewrite Rmult_1_l. apply powf_power. apply Rmult_le_pos; [lra|]. left. apply Rinv_0_lt_compat. lra.
Qed.
Lemma gam_rec2020_spec v : odd rec2020_encoded v (gam_rec2020 v).
Proof.
  assert (0 < rec_a) by (unfold rec_a; lra). assert (0 < rec_b) by (unfold rec_b; lra).
  apply odd_intro; odd_tac gam_rec2020.
  - right. split; [exact E|]. rewrite Rmult_1_l. change rec2020_alpha with rec_a.
    match goal with |- power _ _ ?x => replace x with (powf u 0.45) by (field; lra) end. apply powf_power. lra.
  - left. split; [exact E | lra].
Qed.
Lemma gam_prophoto_spec v : odd prophoto_encoded v (gam_prophoto v).
Proof.
  apply odd_intro; odd_tac gam_prophoto.
  - left. lra.
  - right. split; [lra|]. rewrite Rmult_1_l. apply powf_power. lra.
Qed.
Lemma lin_prophoto_spec v : - (16 / 512) <= v -> exists l, lin_prophoto v = Some l /\ odd prophoto_decoded v l.
Proof.
  intros H. unfold lin_prophoto. ltb_case (16 / 512) (Rabs v).
  - assert (0 <= v) by (revert E; unfold Rabs; destruct (Rcase_abs v); lra). rewrite ltb_no by lra. eexists. split; [reflexivity|].
    rewrite Rabs_pos_eq in E by lra. left. split; [lra|]. right. split; [lra|]. rewrite sign_pos, Rmult_1_l by lra. apply powf_power. lra.
  - eexists. split; [reflexivity|]. revert E. unfold Rabs. destruct (Rcase_abs v); intros E.
    + right. split; [lra|]. left. lra.
    + left. split; [lra|]. left. lra.
Qed.
Lemma lin_prophoto_negative v : v < - (16 / 512) -> lin_prophoto v = None.
Proof. intros H. unfold lin_prophoto. rewrite Rabs_left by lra. rewrite ltb_true by lra. rewrite ltb_true by lra. reflexivity. Qed.

(** The two directions are inverse to each other *)
Lemma power_fun e x y z : power e x y -> power e x z -> y = z.
Proof. intros [[A B]|[A B]] [[C D]|[C D]]; lra || congruence. Qed.
Lemma Rpower_lt_base x y e : 0 < e -> 0 < x < y -> Rpower x e < Rpower y e.
Proof. intros E [A B]. unfold Rpower. apply exp_increasing. apply Rmult_lt_compat_l; [exact E|]. apply ln_increasing; lra. Qed.
Lemma power_inverse e f x y : e * f = 1 -> power e x y -> power f y x.
Proof.
  intros E [[-> ->]|[A ->]]; [left; auto|]. right. split; [apply exp_pos|]. rewrite Rpower_mult, E, Rpower_1; auto.
Qed.
Lemma odd_inverse (P Q : R -> R -> Prop) (G : R -> Prop) v l :
  (forall u w, 0 < u -> G u -> P u w -> 0 < w /\ Q w u) -> (forall w, P 0 w -> w = 0 /\ Q 0 0) -> G (Rabs v) -> odd P v l -> odd Q l v.
Proof.
  intros H Z GV [[A B]|[A B]].
  - rewrite Rabs_pos_eq in GV by exact A. destruct (Req_dec v 0) as [->|N].
    + destruct (Z l B) as [-> C]. left. split; [lra | exact C].
    + destruct (H v l) as [C D]; [lra | exact GV | exact B |]. left. split; [lra | exact D].
  - rewrite Rabs_left in GV by exact A. destruct (H (- v) (- l)) as [C D]; [lra | exact GV | exact B |]. right. split; [lra | exact D].
Qed.
Lemma Rpower_pow_root x e n m : 0 < x -> e * INR n = INR m -> Rpower x e ^ n = x ^ m.
Proof.
  intros X E. rewrite <- (Rpower_pow n) by apply exp_pos. rewrite Rpower_mult, E. apply Rpower_pow. exact X.
Qed.
Lemma pow_le_base x y n : 0 <= x -> x <= y -> x ^ n <= y ^ n.
Proof. intros. apply pow_incr. lra. Qed.
Lemma Rpower_above x e y n m : 0 < x -> e * INR n = INR m -> 0 <= y -> y ^ n < x ^ m -> y < Rpower x e.
Proof.
  intros X E Y L. destruct (Rlt_le_dec y (Rpower x e)) as [H|H]; [exact H|].
  apply (pow_le_base _ _ n) in H; [|left; apply exp_pos]. rewrite (Rpower_pow_root x e n m X E) in H. lra.
Qed.
Lemma Rpower_below x e y n m : 0 < x -> e * INR n = INR m -> 0 <= y -> x ^ m < y ^ n -> Rpower x e < y.
Proof.
  intros X E Y L. destruct (Rlt_le_dec (Rpower x e) y) as [H|H]; [exact H|].
  apply (pow_le_base _ _ n) in H; [|exact Y]. rewrite (Rpower_pow_root x e n m X E) in H. lra.
Qed.
Lemma Rpower_le_base x y e : 0 < e -> 0 < x <= y -> Rpower x e <= Rpower y e.
Proof. intros E [A B]. destruct (Req_dec x y) as [->|N]; [lra|]. left. apply Rpower_lt_base; lra. Qed.
Lemma power_pos e x y : 0 < x -> power e x y -> y = Rpower x e /\ 0 < y.
Proof. intros X [[A _]|[_ ->]]; [lra|]. split; [reflexivity | apply exp_pos]. Qed.
Lemma Rlt_pow_base x y n : 0 <= x -> x < y -> (0 < n)%nat -> x ^ n < y ^ n.
Proof.
  intros X L N. induction n as [|n IH]; [lia|]. destruct n as [|n]; [lra|]. cbn [pow] in *.
  assert (P : x * x ^ n < y * y ^ n) by (apply IH; lia). assert (0 <= x * x ^ n) by (apply Rmult_le_pos; [lra | apply pow_le; lra]). nra.
Qed.
Ltac inr := cbn [INR]; lra.

(** sRGB: the pieces meet at 0.0031308 and at 0.04045, but not quite *)
Lemma srgb_knee : 0.0031308 < Rpower ((0.04045 + 0.055) / 1.055) 2.4.
Proof. apply (Rpower_above _ _ _ 5 12); [lra | inr | lra |]. lra. Qed.
Lemma srgb_knee_back : (0.04045 + 0.055) / 1.055 < Rpower 0.0031309 (1 / 2.4).
Proof. apply (Rpower_above _ _ _ 12 5); [lra | inr | lra |]. lra. Qed.
Lemma srgb_encode_decoded v l : srgb_smooth (Rabs v) -> odd srgb_decoded v l -> odd srgb_encoded l v.
Proof.
  apply odd_inverse.
  - intros u w U G [[A ->]|[A P]].
    + split; [lra|]. left. destruct G; lra.
    + destruct (power_pos 2.4 ((u + 0.055) / 1.055) w) as [E W]; [lra | exact P |]. split; [exact W|]. right.
      split; [|apply (power_inverse 2.4); [lra | exact P]]. rewrite E. apply Rlt_le_trans with (1 := srgb_knee). apply Rpower_le_base; lra.
  - intros w [[A ->]|[A P]]; [|lra]. split; [lra|]. left. lra.
Qed.
Lemma srgb_decode_encoded v l : srgb_smooth_light (Rabs l) -> odd srgb_encoded l v -> odd srgb_decoded v l.
Proof.
  apply odd_inverse.
  - intros u w U G [[A ->]|[A P]].
    + split; [lra|]. left. lra.
    + destruct (power_pos (1 / 2.4) u ((w + 0.055) / 1.055)) as [E W]; [lra | exact P |].
      assert (0.04045 <= w).
      { assert (Rpower 0.0031309 (1 / 2.4) <= Rpower u (1 / 2.4)) by (apply Rpower_le_base; destruct G; lra). pose proof srgb_knee_back. lra. }
      split; [lra|]. right. split; [exact H|]. apply (power_inverse (1 / 2.4)); [lra | exact P].
  - intros w [[A ->]|[A P]]; [|lra]. split; [lra|]. left. lra.
Qed.
Lemma a98_encode_decoded v l : odd a98_decoded v l -> odd a98_encoded l v.
Proof.
  apply (odd_inverse _ _ (fun _ => True)); [| |exact I].
  - intros u w U _ P. destruct (power_pos _ _ _ U P) as [_ W]. split; [exact W|]. apply (power_inverse (563 / 256)); [lra | exact P].
  - intros w [[_ ->]|[A _]]; [|lra]. split; [reflexivity|]. left. auto.
Qed.
Lemma a98_decode_encoded v l : odd a98_encoded l v -> odd a98_decoded v l.
Proof.
  apply (odd_inverse _ _ (fun _ => True)); [| |exact I].
  - intros u w U _ P. destruct (power_pos _ _ _ U P) as [_ W]. split; [exact W|]. apply (power_inverse (256 / 563)); [lra | exact P].
  - intros w [[_ ->]|[A _]]; [|lra]. split; [reflexivity|]. left. auto.
Qed.
(** ProPhoto RGB: the pieces meet *)
Lemma prophoto_knee : Rpower (16 / 512) 1.8 = 1 / 512.
Proof.
  assert (A : Rpower (16 / 512) 1.8 ^ 5 = (1 / 512) ^ 5) by (rewrite (Rpower_pow_root _ _ 5 9); [lra | lra | inr]).
  assert (P : 0 < Rpower (16 / 512) 1.8) by apply exp_pos. set (x := Rpower (16 / 512) 1.8) in *.
  destruct (Rtotal_order x (1 / 512)) as [L|[L|L]]; [|exact L|].
  - assert (x ^ 5 < (1 / 512) ^ 5); [|lra]. apply Rlt_pow_base; [lra | exact L | lia].
  - assert ((1 / 512) ^ 5 < x ^ 5); [|lra]. apply Rlt_pow_base; [lra | exact L | lia].
Qed.
Lemma prophoto_encode_decoded v l : odd prophoto_decoded v l -> odd prophoto_encoded l v.
Proof.
  apply (odd_inverse _ _ (fun _ => True)); [| |exact I].
  - intros u w U _ [[A ->]|[A P]].
    + split; [lra|]. destruct (Rlt_le_dec u (16 / 512)) as [L|L]; [left; lra|]. assert (u = 16 / 512) by lra. subst.
      right. split; [lra|]. apply (power_inverse 1.8); [lra|]. right. split; [lra|]. rewrite prophoto_knee. lra.
    + destruct (power_pos _ u _ U P) as [E W]. split; [exact W|]. right. split; [|apply (power_inverse 1.8); [lra | exact P]].
      rewrite E, <- prophoto_knee. apply Rpower_le_base; lra.
  - intros w [[_ ->]|[A _]]; [|lra]. split; [lra|]. left. lra.
Qed.
Lemma prophoto_decode_encoded v l : odd prophoto_encoded l v -> odd prophoto_decoded v l.
Proof.
  apply (odd_inverse _ _ (fun _ => True)); [| |exact I].
  - intros u w U _ [[A ->]|[A P]].
    + split; [lra|]. left. lra.
    + destruct (power_pos _ u _ U P) as [E W]. split; [exact W|].
      assert (B : power (1 / 1.8) (1 / 512) (16 / 512)).
      { apply (power_inverse 1.8); [lra|]. right. split; [lra|]. symmetry. apply prophoto_knee. }
      destruct (power_pos _ (1 / 512) _ ltac:(lra) B) as [EB _].
      destruct (Req_dec u (1 / 512)) as [->|N].
      * left. assert (w = 16 / 512) by congruence. lra.
      * right. split; [|apply (power_inverse (1 / 1.8)); [lra | exact P]]. rewrite E, EB. apply Rpower_lt_base; lra.
  - intros w [[_ ->]|[A _]]; [|lra]. split; [lra|]. left. lra.
Qed.
(** Rec. 2020: the constants have fifteen digits *)
Lemma rec2020_knee : rec2020_beta < Rpower ((rec2020_beta * 4.5 + 0.000000001 + rec2020_alpha - 1) / rec2020_alpha) (1 / 0.45).
Proof. unfold rec2020_beta, rec2020_alpha. apply (Rpower_above _ _ _ 9 20); [lra | inr | lra |]. lra. Qed.
Lemma rec2020_knee_back : (rec2020_beta * 4.5 + rec2020_alpha - 1) / rec2020_alpha < Rpower (rec2020_beta + 0.000000001) 0.45.
Proof. unfold rec2020_beta, rec2020_alpha. apply (Rpower_above _ _ _ 20 9); [lra | inr | lra |]. lra. Qed.
Lemma rec2020_encode_decoded v l : rec2020_smooth (Rabs v) -> odd rec2020_decoded v l -> odd rec2020_encoded l v.
Proof.
  assert (HB : 0 < rec2020_beta) by (unfold rec2020_beta; lra).
  assert (MONO : forall x y, x <= y -> (x + rec2020_alpha - 1) / rec2020_alpha <= (y + rec2020_alpha - 1) / rec2020_alpha)
    by (intros; unfold rec2020_alpha; lra).
  assert (POS : forall x, 0 < x -> 0 < (x + rec2020_alpha - 1) / rec2020_alpha) by (intros; unfold rec2020_alpha; lra).
  apply odd_inverse.
  - intros u w U G [[A ->]|[A P]].
    + split; [lra|]. left. lra.
    + destruct (power_pos _ _ _ (POS u U) P) as [E W]. split; [exact W|]. right. split; [|apply (power_inverse (1 / 0.45)); [lra | exact P]].
      rewrite E. apply Rlt_le_trans with (1 := rec2020_knee). destruct G; [lra|]. apply Rpower_le_base; [lra|]. split; [apply POS; lra | apply MONO; lra].
  - intros w [[_ ->]|[A _]]; [|lra]. split; [lra|]. left. lra.
Qed.
Lemma rec2020_decode_encoded v l : rec2020_smooth_light (Rabs l) -> odd rec2020_encoded l v -> odd rec2020_decoded v l.
Proof.
  assert (HB : 0 < rec2020_beta) by (unfold rec2020_beta; lra).
  assert (MONO : forall x y, (x + rec2020_alpha - 1) / rec2020_alpha <= (y + rec2020_alpha - 1) / rec2020_alpha -> x <= y)
    by (intros x y; unfold rec2020_alpha; lra).
  apply odd_inverse.
  - intros u w U G [[A ->]|[A P]].
    + split; [lra|]. left. destruct G; lra.
    + destruct (power_pos _ _ _ U P) as [E W]. assert (K : rec2020_beta * 4.5 <= w).
      { apply MONO. left. apply Rlt_le_trans with (1 := rec2020_knee_back). rewrite E. apply Rpower_le_base; destruct G; lra. }
      split; [lra|]. right. split; [exact K|]. apply (power_inverse 0.45); [lra | exact P].
  - intros w [[_ ->]|[A _]]; [|lra]. split; [lra|]. left. lra.
Qed.

(** ** Matrices *)
Definition col1 (m : mat) : triple := (m0 m, m3 m, m6 m).
Definition col2 (m : mat) : triple := (m1 m, m4 m, m7 m).
Definition col3 (m : mat) : triple := (m2 m, m5 m, m8 m).
Lemma columns m r g b : multiply_matrix m (r, g, b) = combine r g b (col1 m) (col2 m) (col3 m).
Proof. cbn. f_equal; [f_equal|]; ring. Qed.
Lemma size_nonneg v : 0 <= size v.
Proof. destruct v as [[x y] z]. cbn. pose proof (Rabs_pos x). pose proof (Rabs_pos y). pose proof (Rabs_pos z). lra. Qed.
Lemma close_refl e v : 0 <= e -> close e v v.
Proof.
  intros E. pose proof (size_nonneg v) as S. destruct v as [[x y] z]. unfold close.
  rewrite !Rminus_diag_eq, Rabs_R0 by reflexivity. repeat split; apply Rmult_le_pos; assumption.
Qed.
Lemma abs_bounds x : - Rabs x <= x <= Rabs x.
Proof. unfold Rabs. destruct (Rcase_abs x); lra. Qed.
Ltac small := apply Rabs_le; split; lra.
Ltac bounds x y z := pose proof (abs_bounds x); pose proof (abs_bounds y); pose proof (abs_bounds z).
Ltac inverse_tac :=
  match goal with |- close _ ?v _ => let x := fresh "x" in let y := fresh "y" in let z := fresh "z" in destruct v as [[x y] z]; bounds x y z end;
  cbn [multiply_matrix m0 m1 m2 m3 m4 m5 m6 m7 m8 close size]; unfold fine; repeat split; small.
Lemma srgb_inverse v : close fine v (multiply_matrix srgb_to_xyz (multiply_matrix xyz_to_srgb v)).
Proof. unfold srgb_to_xyz, xyz_to_srgb. inverse_tac. Qed.
Lemma p3_inverse v : close fine v (multiply_matrix p3_to_xyz (multiply_matrix xyz_to_p3 v)).
Proof. unfold p3_to_xyz, xyz_to_p3. inverse_tac. Qed.
Lemma a98_inverse v : close fine v (multiply_matrix a98_to_xyz (multiply_matrix xyz_to_a98 v)).
Proof. unfold a98_to_xyz, xyz_to_a98. inverse_tac. Qed.
Lemma rec2020_inverse v : close fine v (multiply_matrix rec2020_to_xyz (multiply_matrix xyz_to_rec2020 v)).
Proof. unfold rec2020_to_xyz, xyz_to_rec2020. inverse_tac. Qed.
Lemma prophoto_inverse v : close fine v (multiply_matrix prophoto_to_xyz (multiply_matrix xyz_to_prophoto v)).
Proof. unfold prophoto_to_xyz, xyz_to_prophoto. inverse_tac. Qed.
Lemma lms_inverse v : close fine v (multiply_matrix xyz_to_lms (multiply_matrix lms_to_xyz v)).
Proof. unfold lms_to_xyz, xyz_to_lms. inverse_tac. Qed.
Lemma oklab_inverse v : close fine v (multiply_matrix lms_to_oklab (multiply_matrix oklab_to_lms v)).
Proof. unfold lms_to_oklab, oklab_to_lms. inverse_tac. Qed.
Ltac basis_tac :=
  unfold basis, chromaticity, close, combine, col1, col2, col3, D65, D50, white, size, fine;
  cbn [m0 m1 m2 m3 m4 m5 m6 m7 m8 red_x red_y green_x green_y blue_x blue_y];
  rewrite ?(Rabs_pos_eq (0.3127 / 0.3290)), ?(Rabs_pos_eq 1), ?(Rabs_pos_eq ((1 - 0.3127 - 0.3290) / 0.3290)),
    ?(Rabs_pos_eq (0.3457 / 0.3585)), ?(Rabs_pos_eq ((1 - 0.3457 - 0.3585) / 0.3585)) by lra;
  repeat split; small.
Lemma srgb_basis : basis fine srgb_primaries D65 (col1 srgb_to_xyz) (col2 srgb_to_xyz) (col3 srgb_to_xyz).
Proof. unfold srgb_to_xyz, srgb_primaries. basis_tac. Qed.
Lemma p3_basis : basis fine p3_primaries D65 (col1 p3_to_xyz) (col2 p3_to_xyz) (col3 p3_to_xyz).
Proof. unfold p3_to_xyz, p3_primaries. basis_tac. Qed.
Lemma a98_basis : basis fine a98_primaries D65 (col1 a98_to_xyz) (col2 a98_to_xyz) (col3 a98_to_xyz).
Proof. unfold a98_to_xyz, a98_primaries. basis_tac. Qed.
Lemma rec2020_basis : basis fine rec2020_primaries D65 (col1 rec2020_to_xyz) (col2 rec2020_to_xyz) (col3 rec2020_to_xyz).
Proof. unfold rec2020_to_xyz, rec2020_primaries. basis_tac. Qed.
Lemma prophoto_basis : basis 0.00001 prophoto_primaries D50 (col1 prophoto_to_xyz) (col2 prophoto_to_xyz) (col3 prophoto_to_xyz).
Proof. unfold prophoto_to_xyz, prophoto_primaries. basis_tac. Qed.
Lemma to_d65_adapted v : adapted v (multiply_matrix d50_to_d65 v).
Proof.
  pose proof (size_nonneg (multiply_matrix d50_to_d65 v)) as S. set (n := size (multiply_matrix d50_to_d65 v)) in *.
  destruct v as [[x y] z]. bounds x y z. unfold adapted. fold n.
  cbn [bradford multiply_matrix d50_to_d65 m0 m1 m2 m3 m4 m5 m6 m7 m8 D50 D65 white]. unfold D50, D65, white. cbn [bradford size].
  change (size (multiply_matrix d50_to_d65 (x, y, z))) with n.
  repeat split; small.
Qed.
Lemma to_d50_adapted v : adapted (multiply_matrix d65_to_d50 v) v.
Proof.
  pose proof (size_nonneg (multiply_matrix d65_to_d50 v)) as S. set (n := size (multiply_matrix d65_to_d50 v)) in *.
  destruct v as [[x y] z]. bounds x y z. unfold adapted. fold n.
  cbn [bradford multiply_matrix d65_to_d50 m0 m1 m2 m3 m4 m5 m6 m7 m8]. unfold D50, D65, white. cbn [bradford size].
  change (size (multiply_matrix d65_to_d50 (x, y, z))) with n.
  repeat split; small.
Qed.

(** ** Oklab *)
Lemma cones_matrix x : cones x = multiply_matrix xyz_to_lms x.
Proof. destruct x as [[X Y] Z]. cbn. apply f_equal2; [apply f_equal2|]; lra. Qed.
Lemma opponents_matrix x : opponents x = multiply_matrix lms_to_oklab x.
Proof. destruct x as [[X Y] Z]. cbn. apply f_equal2; [apply f_equal2|]; lra. Qed.
Lemma fine_pos : 0 <= fine.
Proof. unfold fine. lra. Qed.
Lemma oklab_to_xyz_point v : oklab_point v (oklab_to_xyz v).
Proof.
  unfold oklab_to_xyz, oklab_point. pose proof (oklab_inverse v) as H. destruct (multiply_matrix oklab_to_lms v) as [[l m] s] eqn:E.
  exists l, m, s. rewrite opponents_matrix, cones_matrix. split; [exact H|]. apply lms_inverse.
Qed.
Lemma xyz_to_oklab_point x : oklab_point (xyz_to_oklab x) x.
Proof.
  unfold xyz_to_oklab, oklab_point. destruct (multiply_matrix xyz_to_lms x) as [[l m] s] eqn:E.
  exists (cbrt l), (cbrt m), (cbrt s). rewrite opponents_matrix, cones_matrix, E, !cube_cbrt. cbn [each].
  split; apply close_refl, fine_pos.
Qed.

(** ** HSL and HWB *)
Ltac rle_cases :=
  repeat match goal with
         | |- context [Rle_dec ?x ?y] => lazymatch x with context [Rle_dec _ _] => fail | _ => lazymatch y with context [Rle_dec _ _] => fail | _ => destruct (Rle_dec x y) end end
         end.
Lemma hue_to_rgb_channel l a k arg :
  0 <= k < 12 -> arg = k / 4 + 1 \/ arg = k / 4 - 2 -> hue_to_rgb (l - a) (l + a) arg = l - a * Rmax (-1) (Rmin (Rmin (k - 3) (9 - k)) 1).
Proof.
  intros K A. unfold hue_to_rgb, Rmax, Rmin.
  ltb_case arg 0; [ltb_case 3 (arg + 3) | ltb_case 3 arg];
    repeat match goal with |- context [ltb ?x ?y] => ltb_case x y end;
    rle_cases; destruct A; subst; first [lra | (exfalso; lra) | field | (replace k with 2 in * by lra; lra) | (replace k with 4 in * by lra; lra) | (replace k with 8 in * by lra; lra) | (replace k with 10 in * by lra; lra)].
Qed.
Lemma hsl_srgb_spec v : hsl_rgb v (hsl_srgb v).
Proof.
  destruct v as [[h s] l]. unfold hsl_srgb, hsl_rgb, hsl_to_rgb, hsl_channel.
  destruct (floor_range (h / 360)) as [F G]. unfold floor in *. set (j := Int_part (h / 360)) in *.
  set (s' := s / 100). set (l' := l / 100). set (H := (h - 360 * IZR j) / 360).
  assert (HK : H = (h / 30 - 12 * IZR j) / 12) by (unfold H; field).
  assert (H0 : 0 <= h / 30 - 12 * IZR j < 12) by lra. set (k := h / 30 - 12 * IZR j) in *.
  set (a := s' * Rmin l' (1 - l')).
  assert (N2 : (if ltb 0.5 l' then l' + s' - l' * s' else l' * (s' + 1)) = l' + a).
  { unfold a, Rmin. ltb_case 0.5 l'; destruct (Rle_dec l' (1 - l')); try lra. }
  rewrite N2. replace (l' * 2 - (l' + a)) with (l' - a) by lra.
  split; [|split].
  - exists k, j. split; [unfold k; lra|]. split; [exact H0|]. apply hue_to_rgb_channel; [exact H0|]. left. lra.
  - destruct (Rlt_le_dec (k + 8) 12) as [L|L].
    + exists (k + 8), j. split; [unfold k; lra|]. split; [lra|]. apply hue_to_rgb_channel; [lra|]. right. lra.
    + exists (k + 8 - 12), (j + 1)%Z. rewrite plus_IZR. split; [unfold k; lra|]. split; [lra|]. apply hue_to_rgb_channel; [lra|]. left. lra.
  - destruct (Rlt_le_dec (k + 4) 12) as [L|L].
    + exists (k + 4), j. split; [unfold k; lra|]. split; [lra|]. apply hue_to_rgb_channel; [lra|]. right. lra.
    + exists (k + 4 - 12), (j + 1)%Z. rewrite plus_IZR. split; [unfold k; lra|]. split; [lra|]. apply hue_to_rgb_channel; [lra|]. left. lra.
Qed.
Lemma hwb_srgb_spec v : hwb_rgb v (hwb_srgb v).
Proof.
  destruct v as [[h w] b]. unfold hwb_srgb, hwb_rgb. ltb_case (w / 100 + b / 100) 1.
  - pose proof (hsl_srgb_spec (h, 100, 50)) as H. destruct (hsl_srgb (h, 100, 50)) as [[x y] z]. cbn [each].
    right. split; [lra|]. exists x, y, z. auto.
  - left. split; [lra|]. split; [|auto]. field. lra.
Qed.
(** The hue that the code finds gives back each channel *)
Definition saw (k : R) : R := Rmax (-1) (Rmin (Rmin (k - 3) (9 - k)) 1).
Definition channel_ok (h n v top bottom : R) : Prop :=
  exists k j, k = n + h / 30 - 12 * IZR j /\ 0 <= k < 12 /\ v = (top + bottom) / 2 - (top - bottom) / 2 * saw k.
Lemma channel_intro h n v top bottom d :
  0 <= n + h / 30 < 24 -> d = top - bottom -> (forall k, k = n + h / 30 \/ k = n + h / 30 - 12 -> 0 <= k < 12 -> v = (top + bottom) / 2 - d / 2 * saw k) ->
  channel_ok h n v top bottom.
Proof.
  intros N -> F. destruct (Rlt_le_dec (n + h / 30) 12) as [L|L].
  - exists (n + h / 30), 0%Z. split; [lra|]. split; [lra|]. apply F; [auto | lra].
  - exists (n + h / 30 - 12), 1%Z. split; [lra|]. split; [lra|]. apply F; [auto | lra].
Qed.
Ltac saws :=
  unfold saw, Rmax, Rmin; rle_cases; try lra.
Lemma srgb_hue_spec r g b :
  let top := Rmax (Rmax r g) b in let bottom := Rmin (Rmin r g) b in
  (top = bottom /\ srgb_hue r g b = None) \/
  (bottom < top /\ exists h, srgb_hue r g b = Some h /\ 0 <= h < 360 /\
    channel_ok h 0 r top bottom /\ channel_ok h 8 g top bottom /\ channel_ok h 4 b top bottom).
Proof.
  cbn zeta. unfold srgb_hue.
  assert (MX : let m := Rmax (Rmax r g) b in r <= m /\ g <= m /\ b <= m /\ (m = r \/ m = g \/ m = b))
    by (cbn zeta; unfold Rmax; repeat destruct (Rle_dec _ _); lra).
  assert (MN : let m := Rmin (Rmin r g) b in m <= r /\ m <= g /\ m <= b /\ (m = r \/ m = g \/ m = b))
    by (cbn zeta; unfold Rmin; repeat destruct (Rle_dec _ _); lra).
  cbn zeta in MX, MN. set (top := Rmax (Rmax r g) b) in *. set (bottom := Rmin (Rmin r g) b) in *. clearbody top bottom.
  destruct MX as [X1 [X2 [X3 X4]]], MN as [N1 [N2 [N3 N4]]].
  destruct (eqb (top - bottom) 0) eqn:D; [apply eqb_iff in D; left; split; [lra | reflexivity]|]. apply eqb_false in D. right. split; [lra|].
  assert (DP : 0 < top - bottom) by lra. remember (top - bottom) as d eqn:Ed.
  assert (Q : forall u w, u - w <= d -> - d <= u - w -> exists q, (u - w) / d = q /\ d * q = u - w /\ -1 <= q <= 1).
  { intros u w A B. exists ((u - w) / d). split; [reflexivity|]. assert (E : d * ((u - w) / d) = u - w) by (field; lra). split; [exact E|]. nra. }
  destruct (eqb top r) eqn:ER; [apply eqb_iff in ER | apply eqb_false in ER].
  - destruct (Q g b) as [q [-> [DQ QB]]]; [lra | lra |]. ltb_case g b.
    + assert (q < 0) by nra. eexists. split; [reflexivity|]. split; [lra|].
      assert (bottom = g) by (repeat match goal with H : _ \/ _ |- _ => destruct H end; lra).
      repeat split; eapply channel_intro; try eassumption; try lra; intros k [->| ->] K; saws; nra.
    + assert (0 <= q) by nra. eexists. split; [reflexivity|]. split; [lra|].
      assert (bottom = b) by (repeat match goal with H : _ \/ _ |- _ => destruct H end; lra).
      repeat split; eapply channel_intro; try eassumption; try lra; intros k [->| ->] K; saws; nra.
  - destruct (eqb top g) eqn:EG; [apply eqb_iff in EG | apply eqb_false in EG].
    + destruct (Q b r) as [q [-> [DQ QB]]]; [lra | lra |]. eexists. split; [reflexivity|]. split; [lra|].
      repeat match goal with H : _ \/ _ |- _ => destruct H end; try lra;
      repeat split; eapply channel_intro; try eassumption; try lra; intros k [->| ->] K; saws; nra.
    + assert (EB : top = b) by (repeat match goal with H : _ \/ _ |- _ => destruct H end; lra).
      rewrite (proj2 (eqb_iff top b) EB).
      destruct (Q r g) as [q [-> [DQ QB]]]; [lra | lra |]. eexists. split; [reflexivity|]. split; [lra|].
      repeat match goal with H : _ \/ _ |- _ => destruct H end; try lra;
      repeat split; eapply channel_intro; try eassumption; try lra; intros k [->| ->] K; saws; nra.
Qed.
Lemma cube_bounds r g b :
  in_cube (r, g, b) -> 0 <= Rmin (Rmin r g) b /\ Rmin (Rmin r g) b <= Rmax (Rmax r g) b /\ Rmax (Rmax r g) b <= 1.
Proof. intros [A [B C]]. unfold Rmax, Rmin. rle_cases; lra. Qed.
Lemma saw_unfold h s l n v top bottom :
  s * Rmin l (1 - l) = (top - bottom) / 2 -> l = (top + bottom) / 2 -> channel_ok h n v top bottom -> hsl_channel h s l n v.
Proof. intros A B [k [j [K [R ->]]]]. exists k, j. split; [exact K|]. split; [exact R|]. rewrite A, <- B. reflexivity. Qed.
Lemma srgb_hsl_spec v a : in_cube v -> hsl_rgb (resolved (srgb_hsl v a)) v.
Proof.
  destruct v as [[r g] b]. intros C. apply cube_bounds in C. pose proof (srgb_hue_spec r g b) as H. cbn zeta in H.
  unfold srgb_hsl. unfold resolved. cbn [c1 c2 c3 resolve_num hsl_rgb].
  assert (MX : Rmax (Rmax r g) b = Rmin (Rmin r g) b -> r = Rmax (Rmax r g) b /\ g = Rmax (Rmax r g) b /\ b = Rmax (Rmax r g) b).
  { unfold Rmax, Rmin. rle_cases; lra. }
  set (top := Rmax (Rmax r g) b) in *. set (bottom := Rmin (Rmin r g) b) in *. clearbody top bottom.
  destruct H as [[E ->]|[L [h [-> [HB [H1 [H2 H3]]]]]]].
  - rewrite (proj2 (eqb_iff _ _)) by lra. destruct (MX E) as [-> [-> ->]]. cbn [resolve_num].
    assert (K : forall n, 0 <= n < 12 -> hsl_channel 0 (0 * 100 / 100) ((bottom + top) / 2 * 100 / 100) n top).
    { intros n N. exists n, 0%Z. split; [lra|]. split; [exact N|]. replace (0 * 100 / 100) with 0 by lra. rewrite !Rmult_0_l. lra. }
    repeat split; apply K; lra.
  - rewrite (proj2 (eqb_false _ _)) by lra.
    rewrite (proj2 (eqb_false ((bottom + top) / 2) 0)) by lra. rewrite (proj2 (eqb_false ((bottom + top) / 2) 1)) by lra. cbn [orb resolve_num].
    set (l := (bottom + top) / 2). assert (P : 0 < Rmin l (1 - l)) by (unfold l; apply Rmin_glb_lt; lra).
    replace (l * 100 / 100) with l by lra.
    assert (A : (top - l) / Rmin l (1 - l) * 100 / 100 * Rmin l (1 - l) = (top - bottom) / 2) by (unfold l at 1; field_simplify; [unfold l; lra | lra]).
    repeat split; (eapply saw_unfold; [exact A | unfold l; lra | assumption]).
Qed.
Lemma srgb_hwb_spec v a : in_cube v -> hwb_rgb (resolved (srgb_hwb v a)) v.
Proof.
  destruct v as [[r g] b]. intros C. apply cube_bounds in C. pose proof (srgb_hue_spec r g b) as H. cbn zeta in H.
  unfold srgb_hwb. unfold resolved. cbn [c1 c2 c3 resolve_num hwb_rgb].
  assert (MX : Rmax (Rmax r g) b = Rmin (Rmin r g) b -> r = Rmax (Rmax r g) b /\ g = Rmax (Rmax r g) b /\ b = Rmax (Rmax r g) b).
  { unfold Rmax, Rmin. rle_cases; lra. }
  set (top := Rmax (Rmax r g) b) in *. set (bottom := Rmin (Rmin r g) b) in *. clearbody top bottom.
  destruct H as [[E ->]|[L [h [-> [HB [H1 [H2 H3]]]]]]]; cbn [resolve_num].
  - left. destruct (MX E) as [-> [-> ->]]. split; [lra|]. split; [|auto].
    replace (bottom * 100 + (1 - top) * 100) with 100 by lra. lra.
  - right. split; [lra|].
    exists ((r - bottom) / (top - bottom)), ((g - bottom) / (top - bottom)), ((b - bottom) / (top - bottom)).
    assert (K : forall n v, channel_ok h n v top bottom -> hsl_channel h (100 / 100) (50 / 100) n ((v - bottom) / (top - bottom))).
    { intros n v [k [j [K [R ->]]]]. exists k, j. split; [exact K|]. split; [exact R|].
      replace (Rmin (50 / 100) (1 - 50 / 100)) with (1 / 2) by (unfold Rmin; rle_cases; lra). fold (saw k). field. lra. }
    cbn [hsl_rgb]. split; [auto|]. cbn zeta. repeat split; field; lra.
Qed.
