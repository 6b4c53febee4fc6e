(** * Rounding and remainders of rationals *)
From Coq Require Import List Bool ZArith QArith Qround Qabs Qminmax Lqa Lia Setoid.
From Verif Require Import CalcModel CalcSpec.
Import ListNotations.
Local Open Scope Q_scope.

Lemma floor_unique : forall x z, inject_Z z <= x -> x < inject_Z (z + 1) -> Qfloor x = z.
Proof.
  intros x z A B. pose proof (Qfloor_le x) as C. pose proof (Qlt_floor x) as D.
  assert (inject_Z z < inject_Z (Qfloor x + 1)) as E by (eapply Qle_lt_trans; eassumption).
  assert (inject_Z (Qfloor x) < inject_Z (z + 1)) as F by (eapply Qle_lt_trans; eassumption).
  apply Zlt_Qlt in E, F || (rewrite <- Zlt_Qlt in E, F). lia.
Qed.
Lemma ceiling_unique : forall x z, inject_Z (z - 1) < x -> x <= inject_Z z -> Qceiling x = z.
Proof.
  intros x z A B. unfold Qceiling. rewrite (floor_unique (- x) (- z)).
  - lia.
  - rewrite inject_Z_opp. lra.
  - replace (- z + 1)%Z with (- (z - 1))%Z by lia. rewrite inject_Z_opp. lra.
Qed.
Lemma ceiling_bounds : forall x, inject_Z (Qceiling x - 1) < x /\ x <= inject_Z (Qceiling x).
Proof. intros x. split; [apply Qceiling_lt | apply Qle_ceiling]. Qed.
Lemma floor_bounds : forall x, inject_Z (Qfloor x) <= x /\ x < inject_Z (Qfloor x + 1).
Proof. intros x. split; [apply Qfloor_le | apply Qlt_floor]. Qed.
Lemma inject_succ : forall z, inject_Z (z + 1) == inject_Z z + 1.
Proof. intros z. rewrite inject_Z_plus. reflexivity. Qed.
Lemma inject_pred : forall z, inject_Z (z - 1) == inject_Z z - 1.
Proof. intros z. unfold Z.sub. rewrite inject_Z_plus. reflexivity. Qed.
Lemma ceiling_of_floor : forall x, ~ inject_Z (Qfloor x) == x -> Qceiling x = (Qfloor x + 1)%Z.
Proof.
  intros x N. apply ceiling_unique.
  - replace (Qfloor x + 1 - 1)%Z with (Qfloor x) by lia. destruct (floor_bounds x) as [A _].
    apply Qle_lteq in A. destruct A as [A | A]; [exact A | contradiction].
  - apply Qlt_le_weak. apply floor_bounds.
Qed.
Lemma ceiling_of_integer : forall x, inject_Z (Qfloor x) == x -> Qceiling x = Qfloor x.
Proof.
  intros x N. apply ceiling_unique.
  - rewrite inject_pred. lra.
  - lra.
Qed.

Lemma is_neg_spec : forall q, is_neg q = true <-> q < 0.
Proof.
  intros q. unfold is_neg. destruct (q ?= 0) eqn:E.
  - apply Qeq_alt in E. split; [discriminate | lra].
  - apply Qlt_alt in E. tauto.
  - apply Qgt_alt in E. split; [discriminate | lra].
Qed.
Lemma is_neg_false : forall q, is_neg q = false <-> 0 <= q.
Proof.
  intros q. destruct (is_neg q) eqn:E.
  - apply is_neg_spec in E. split; [discriminate | lra].
  - split; [intros _ | reflexivity]. destruct (Qlt_le_dec q 0) as [H | H]; [|exact H].
    apply is_neg_spec in H. congruence.
Qed.
Lemma is_neg_comp : forall p q, p == q -> is_neg p = is_neg q.
Proof.
  intros p q E. unfold is_neg. rewrite E. reflexivity.
Qed.
Lemma qtrunc_comp : forall p q, p == q -> qtrunc p = qtrunc q.
Proof.
  intros p q E. unfold qtrunc. rewrite (is_neg_comp _ _ E).
  destruct (is_neg q); [apply Qceiling_comp | apply Qfloor_comp]; exact E.
Qed.
Lemma qrem_comp : forall a b a' b', a == a' -> b == b' -> qrem a b == qrem a' b'.
Proof.
  intros a b a' b' E F. unfold qrem. rewrite (qtrunc_comp (a / b) (a' / b')).
  - rewrite E, F. reflexivity.
  - rewrite E, F. reflexivity.
Qed.

Lemma abs_nonzero : forall b, ~ b == 0 -> ~ Qabs b == 0.
Proof.
  intros b N E. apply N. revert E. apply Qabs_case; intros; lra.
Qed.

(** ** Properness *)
Lemma lower_comp : forall a b a' b', a == a' -> b == b' -> lower a b == lower a' b'.
Proof.
  intros a b a' b' E F. unfold lower. rewrite (Qfloor_comp (a / Qabs b) (a' / Qabs b')).
  - rewrite F. reflexivity.
  - rewrite E, F. reflexivity.
Qed.
Lemma upper_comp : forall a b a' b', a == a' -> b == b' -> upper a b == upper a' b'.
Proof.
  intros a b a' b' E F. unfold upper. rewrite (Qceiling_comp (a / Qabs b) (a' / Qabs b')).
  - rewrite F. reflexivity.
  - rewrite E, F. reflexivity.
Qed.
Lemma css_round_comp : forall s a b a' b', a == a' -> b == b' -> css_round s a b == css_round s a' b'.
Proof.
  intros s a b a' b' E F. pose proof (lower_comp _ _ _ _ E F) as G. pose proof (upper_comp _ _ _ _ E F) as H.
  destruct s; cbn [css_round]; try assumption.
  - destruct (Qlt_le_dec (a - lower a b) (upper a b - a)), (Qlt_le_dec (a' - lower a' b') (upper a' b' - a')); try assumption;
      exfalso; lra.
  - destruct (Qlt_le_dec a 0), (Qlt_le_dec a' 0); try assumption; exfalso; lra.
Qed.
Lemma css_rem_comp : forall a b a' b', a == a' -> b == b' -> css_rem a b == css_rem a' b'.
Proof.
  intros a b a' b' E F. unfold css_rem. cbv zeta.
  rewrite (Qfloor_comp (Qabs a / Qabs b) (Qabs a' / Qabs b')) by (rewrite E, F; reflexivity).
  destruct (Qlt_le_dec a 0), (Qlt_le_dec a' 0); try (exfalso; lra); rewrite E, F; reflexivity.
Qed.
Lemma css_mod_comp : forall a b a' b', a == a' -> b == b' -> css_mod a b == css_mod a' b'.
Proof.
  intros a b a' b' E F. unfold css_mod. rewrite (Qfloor_comp (a / b) (a' / b')); rewrite E, F; reflexivity.
Qed.
Lemma css_sign_comp : forall a a', a == a' -> css_sign a = css_sign a'.
Proof.
  intros a a' E. unfold css_sign. destruct (Qlt_le_dec a 0), (Qlt_le_dec a' 0); try (exfalso; lra); [reflexivity|].
  rewrite E. reflexivity.
Qed.
Lemma css_abs_comp : forall a a', a == a' -> css_abs a == css_abs a'.
Proof.
  intros a a' E. unfold css_abs. destruct (Qlt_le_dec a 0), (Qlt_le_dec a' 0); lra.
Qed.

(** ** The arithmetic of the code and of CSS *)
Lemma code_rem : forall a b, ~ b == 0 -> qrem a b == css_rem a b.
Proof.
  intros a b N. unfold qrem, css_rem, qtrunc. cbv zeta.
  destruct (Qlt_le_dec a 0) as [A | A], (Qlt_le_dec b 0) as [B | B].
  - (* both negative *)
    assert (Qabs a == - a) as EA by (apply Qabs_neg; lra). assert (Qabs b == - b) as EB by (apply Qabs_neg; lra). 
    rewrite (Qfloor_comp (Qabs a / Qabs b) ((- a) / (- b))) by (rewrite EA, EB; reflexivity). rewrite EA, EB.
    assert (0 <= a / b) as P.
    { setoid_replace (a / b) with ((- a) / (- b)) by (field; lra). apply Qle_shift_div_l; lra. }
    rewrite (proj2 (is_neg_false _) P). rewrite (Qfloor_comp (- a / - b) (a / b)) by (field; lra). lra.
  - assert (Qabs a == - a) as EA by (apply Qabs_neg; lra). assert (Qabs b == b) as EB by (apply Qabs_pos; lra). 
    rewrite (Qfloor_comp (Qabs a / Qabs b) ((- a) / b)) by (rewrite EA, EB; reflexivity). rewrite EA, EB.
    assert (a / b < 0) as P by (apply Qlt_shift_div_r; lra).
    rewrite (proj2 (is_neg_spec _) P). unfold Qceiling. rewrite (Qfloor_comp (- (a / b)) (- a / b)) by (field; lra).
    rewrite inject_Z_opp. lra.
  - assert (Qabs a == a) as EA by (apply Qabs_pos; lra). assert (Qabs b == - b) as EB by (apply Qabs_neg; lra). 
    rewrite (Qfloor_comp (Qabs a / Qabs b) (a / (- b))) by (rewrite EA, EB; reflexivity). rewrite EA, EB.
    destruct (Qeq_dec a 0) as [Z | Z].
    + rewrite (is_neg_comp (a / b) 0) by (rewrite Z; field; lra). change (is_neg 0) with false. cbv iota.
      rewrite (Qfloor_comp (a / b) 0), (Qfloor_comp (a / - b) 0) by (rewrite Z; field; lra). change (Qfloor 0) with 0%Z.
      change (inject_Z 0) with 0. lra.
    + assert (a / b < 0) as P.
      { setoid_replace (a / b) with ((- a) / (- b)) by (field; lra). apply Qlt_shift_div_r; lra. }
      rewrite (proj2 (is_neg_spec _) P). unfold Qceiling. rewrite (Qfloor_comp (- (a / b)) (a / - b)) by (field; lra).
      rewrite inject_Z_opp. lra.
  - assert (Qabs a == a) as EA by (apply Qabs_pos; lra). assert (Qabs b == b) as EB by (apply Qabs_pos; lra). 
    rewrite (Qfloor_comp (Qabs a / Qabs b) (a / b)) by (rewrite EA, EB; reflexivity). rewrite EA, EB.
    assert (0 <= a / b) as P by (apply Qle_shift_div_l; lra).
    rewrite (proj2 (is_neg_false _) P). reflexivity.
Qed.

Lemma code_mod : forall a b, ~ b == 0 -> modulo a b == css_mod a b.
Proof.
  intros a b N. unfold modulo, css_mod. set (v := a / b).
  assert (a == b * v) as EA by (unfold v; field; exact N).
  set (r := v - inject_Z (qtrunc v)).
  assert (qrem a b == b * r) as E1 by (unfold qrem, r; fold v; rewrite EA at 1; ring).
  rewrite (qrem_comp _ _ (b * (r + 1)) b) by (rewrite ?E1; ring || reflexivity).
  unfold qrem. rewrite (qtrunc_comp (b * (r + 1) / b) (r + 1)) by (field; exact N).
  assert (forall q, 0 <= q -> qtrunc q = Qfloor q) as TP
    by (intros q Q; unfold qtrunc; rewrite (proj2 (is_neg_false _) Q); reflexivity).
  destruct (is_neg v) eqn:S.
  - assert (r == v - inject_Z (Qceiling v)) as ER by (unfold r, qtrunc; rewrite S; reflexivity).
    destruct (ceiling_bounds v) as [C1 C2]. rewrite inject_pred in C1.
    rewrite TP by lra.
    destruct (Qeq_dec (inject_Z (Qfloor v)) v) as [I | I].
    + rewrite (ceiling_of_integer _ I) in ER. rewrite (floor_unique (r + 1) 1); [|change (inject_Z 1) with 1; lra|].
      * rewrite EA, I, ER, I. change (inject_Z 1) with 1. ring.
      * change (inject_Z (1 + 1)) with 2. lra.
    + rewrite (ceiling_of_floor _ I), inject_succ in ER. rewrite (floor_unique (r + 1) 0).
      * rewrite ER. rewrite EA at 1. change (inject_Z 0) with 0. ring.
      * change (inject_Z 0) with 0. destruct (floor_bounds v) as [F1 _]. lra.
      * change (inject_Z (0 + 1)) with 1.
        destruct (floor_bounds v) as [F1 F2]. apply Qle_lteq in F1. destruct F1 as [F1 | F1]; [|contradiction].
        rewrite inject_succ in F2. lra.
  - assert (r == v - inject_Z (Qfloor v)) as ER by (unfold r, qtrunc; rewrite S; reflexivity).
    destruct (floor_bounds v) as [F1 F2]. rewrite inject_succ in F2. rewrite TP by lra.
    rewrite (floor_unique (r + 1) 1); [|change (inject_Z 1) with 1; lra|].
    + rewrite ER. rewrite EA at 1. change (inject_Z 1) with 1. ring.
    + change (inject_Z (1 + 1)) with 2. lra.
Qed.

Lemma code_round : forall s a b, 0 < b -> (s = SNearest -> a < 0 -> ~ tie a b) -> round s a b == css_round s a b.
Proof.
  intros s a b P H. assert (Qabs b == b) as AB by (apply Qabs_pos; lra).
  assert (lower a b == inject_Z (Qfloor (a / b)) * b) as EL.
  { unfold lower. rewrite (Qfloor_comp (a / Qabs b) (a / b)) by (rewrite AB; reflexivity). rewrite AB. reflexivity. }
  assert (upper a b == inject_Z (Qceiling (a / b)) * b) as EU.
  { unfold upper. rewrite (Qceiling_comp (a / Qabs b) (a / b)) by (rewrite AB; reflexivity). rewrite AB. reflexivity. }
  set (v := a / b) in *. assert (a == v * b) as EA by (unfold v; field; lra).
  assert (forall q, q * b < 0 -> q < 0) as NB.
  { intros q Q. destruct (Qlt_le_dec q 0) as [|G]; [assumption|]. exfalso. pose proof (Qmult_le_0_compat _ _ G (Qlt_le_weak _ _ P)). lra. }
  assert (forall q, q < 0 -> q * b < 0) as NB'.
  { intros q Q. setoid_replace 0 with (0 * b) by ring. apply Qmult_lt_r; assumption. }
  destruct s; unfold round; fold v; cbn [css_round].
  - destruct (floor_bounds v) as [F1 F2]. rewrite inject_succ in F2.
    destruct (Qeq_dec (inject_Z (Qfloor v)) v) as [I | I].
    + assert (qround v = Qfloor v) as R.
      { unfold qround. destruct (is_neg v); [apply ceiling_unique | apply floor_unique]; rewrite ?inject_pred, ?inject_succ; lra. }
      rewrite R. rewrite (ceiling_of_integer _ I) in EU. destruct (Qlt_le_dec _ _); lra.
    + rewrite (ceiling_of_floor _ I), inject_succ in EU. set (f := inject_Z (Qfloor v)) in *.
      assert (f < v) as F3. { apply Qle_lteq in F1. destruct F1 as [F1 | F1]; [exact F1 | contradiction]. }
      destruct (Qlt_le_dec (a - lower a b) (upper a b - a)) as [D | D].
      * assert (v < f + (1#2)) as V.
        { assert ((v - f - (1#2)) * b < 0) as W.
          { setoid_replace ((v - f - (1#2)) * b) with ((1#2) * ((a - lower a b) - (upper a b - a))) by (rewrite EL, EU, EA; ring). lra. }
          apply NB in W. lra. }
        assert (qround v = Qfloor v) as R.
        { unfold qround. destruct (is_neg v); [apply ceiling_unique | apply floor_unique]; rewrite ?inject_pred, ?inject_succ; fold f; lra. }
        rewrite R. rewrite EL. reflexivity.
      * assert (f + (1#2) <= v) as V.
        { destruct (Qlt_le_dec v (f + (1#2))) as [W|]; [|assumption]. exfalso.
          assert (v - f - (1#2) < 0) as W2 by lra. apply NB' in W2.
          setoid_replace ((v - f - (1#2)) * b) with ((1#2) * ((a - lower a b) - (upper a b - a))) in W2 by (rewrite EL, EU, EA; ring). lra. }
        assert (qround v = (Qfloor v + 1)%Z) as R.
        { unfold qround. destruct (is_neg v) eqn:S.
          - apply ceiling_unique; rewrite ?inject_pred, ?inject_succ; fold f; [|lra].
            destruct (Qeq_dec v (f + (1#2))) as [T | T]; [|lra]. exfalso. apply is_neg_spec in S.
            apply (H eq_refl); [rewrite EA; apply NB'; exact S|]. split; [rewrite EL, EU; setoid_replace a with ((f + (1#2)) * b) by (rewrite EA, T; reflexivity); ring|].
            intros X. rewrite EL, EA in X. apply I. apply (Qmult_inj_r _ _ b); [lra | exact X].
          - apply floor_unique; rewrite ?inject_succ; fold f; lra. }
        rewrite R. rewrite EU, inject_succ. reflexivity.
  - symmetry. exact EU.
  - symmetry. exact EL.
  - unfold qtrunc. destruct (Qlt_le_dec a 0) as [A | A].
    + rewrite (proj2 (is_neg_spec v)); [symmetry; exact EU|]. apply NB. rewrite <- EA. exact A.
    + rewrite (proj2 (is_neg_false v)); [symmetry; exact EL|]. unfold v. apply Qle_shift_div_l; lra.
Qed.

(** ** A change of unit *)
Section Scale.
Context (k : Q) (K : 0 < k).
Lemma abs_scale : forall x, Qabs (k * x) == k * Qabs x.
Proof. intros x. rewrite Qabs_Qmult. assert (Qabs k == k) as E by (apply Qabs_pos; lra). rewrite E. reflexivity. Qed.
Lemma ratio_scale : forall x y, ~ y == 0 -> k * x / (k * y) == x / y.
Proof. intros x y N. field. lra. Qed.
Lemma lower_scale : forall x y, ~ y == 0 -> lower (k * x) (k * y) == k * lower x y.
Proof.
  intros x y N. unfold lower. rewrite (Qfloor_comp (k * x / Qabs (k * y)) (x / Qabs y)).
  - rewrite abs_scale. ring.
  - rewrite abs_scale. apply ratio_scale. apply abs_nonzero; exact N.
Qed.
Lemma upper_scale : forall x y, ~ y == 0 -> upper (k * x) (k * y) == k * upper x y.
Proof.
  intros x y N. unfold upper. rewrite (Qceiling_comp (k * x / Qabs (k * y)) (x / Qabs y)).
  - rewrite abs_scale. ring.
  - rewrite abs_scale. apply ratio_scale. apply abs_nonzero; exact N.
Qed.
Lemma scale_neg : forall x, x < 0 -> k * x < 0.
Proof. intros x X. setoid_replace 0 with (k * 0) by ring. apply Qmult_lt_l; assumption. Qed.
Lemma scale_nonneg : forall x, 0 <= x -> 0 <= k * x.
Proof. intros x X. apply Qmult_le_0_compat; lra. Qed.
Lemma scale_sign : forall x, (k * x < 0 -> x < 0) /\ (0 < k * x -> 0 < x) /\ (k * x == 0 -> x == 0).
Proof.
  intros x. split; [|split]; intros H.
  - destruct (Qlt_le_dec x 0) as [|G]; [assumption|]. apply scale_nonneg in G. lra.
  - destruct (Qlt_le_dec 0 x) as [|G]; [assumption|]. exfalso.
    destruct (Qeq_dec x 0) as [E | E]; [rewrite E in H; lra|].
    assert (x < 0) as X by (apply Qle_lteq in G; tauto). apply scale_neg in X. lra.
  - destruct (Qmult_integral _ _ H) as [E | E]; [lra | exact E].
Qed.
Lemma css_round_scale : forall s x y, ~ y == 0 -> css_round s (k * x) (k * y) == k * css_round s x y.
Proof.
  intros s x y N. pose proof (lower_scale x y N) as EL. pose proof (upper_scale x y N) as EU.
  destruct s; cbn [css_round]; try assumption.
  - assert (k * ((x - lower x y) - (upper x y - x)) == (k * x - lower (k * x) (k * y)) - (upper (k * x) (k * y) - k * x)) as E
      by (rewrite EL, EU; ring).
    destruct (Qlt_le_dec (k * x - lower (k * x) (k * y)) (upper (k * x) (k * y) - k * x)) as [A | A],
      (Qlt_le_dec (x - lower x y) (upper x y - x)) as [B | B]; try assumption; exfalso.
    + assert (k * ((x - lower x y) - (upper x y - x)) < 0) as C by lra. apply scale_sign in C. lra.
    + assert (x - lower x y - (upper x y - x) < 0) as C by lra. apply scale_neg in C. lra.
  - destruct (Qlt_le_dec (k * x) 0) as [A | A], (Qlt_le_dec x 0) as [B | B]; try assumption; exfalso.
    + apply scale_sign in A. lra.
    + apply scale_neg in B. lra.
Qed.
Lemma css_rem_scale : forall x y, ~ y == 0 -> css_rem (k * x) (k * y) == k * css_rem x y.
Proof.
  intros x y N. unfold css_rem. cbv zeta.
  rewrite (Qfloor_comp (Qabs (k * x) / Qabs (k * y)) (Qabs x / Qabs y)).
  2: { rewrite !abs_scale. apply ratio_scale. apply abs_nonzero; exact N. }
  destruct (Qlt_le_dec (k * x) 0) as [A | A], (Qlt_le_dec x 0) as [B | B].
  - rewrite !abs_scale. ring.
  - apply scale_sign in A. lra.
  - apply scale_neg in B. lra.
  - rewrite !abs_scale. ring.
Qed.
Lemma css_mod_scale : forall x y, ~ y == 0 -> css_mod (k * x) (k * y) == k * css_mod x y.
Proof.
  intros x y N. unfold css_mod. rewrite (Qfloor_comp (k * x / (k * y)) (x / y)) by (apply ratio_scale; exact N). ring.
Qed.
Lemma tie_scale : forall x y, ~ y == 0 -> tie x y -> tie (k * x) (k * y).
Proof.
  intros x y N [A B]. pose proof (lower_scale x y N) as EL. pose proof (upper_scale x y N) as EU. split.
  - rewrite EL, EU. setoid_replace (k * x - k * lower x y) with (k * (x - lower x y)) by ring. rewrite A. ring.
  - rewrite EL. intros C. apply B. apply (proj1 (Qmult_inj_l (lower x y) x k ltac:(lra))). exact C.
Qed.
Lemma css_sign_scale : forall x, css_sign (k * x) = css_sign x.
Proof.
  intros x. unfold css_sign. destruct (Qlt_le_dec (k * x) 0) as [A | A], (Qlt_le_dec x 0) as [B | B]; try reflexivity.
  - apply scale_sign in A. lra.
  - apply scale_neg in B. lra.
  - destruct (Qeq_bool (k * x) 0) eqn:C, (Qeq_bool x 0) eqn:D; try reflexivity.
    + apply Qeq_bool_iff in C. apply scale_sign in C. apply Qeq_bool_iff in C. congruence.
    + apply Qeq_bool_iff in D. assert (k * x == 0) as X by (rewrite D; ring). apply Qeq_bool_iff in X. congruence.
Qed.
End Scale.

Lemma css_abs_scale : forall k x, 0 <= k -> css_abs (k * x) == k * css_abs x.
Proof.
  intros k x K. apply Qle_lteq in K. destruct K as [K | K].
  - unfold css_abs. destruct (Qlt_le_dec (k * x) 0) as [A | A], (Qlt_le_dec x 0) as [B | B]; try ring.
    + apply (scale_sign k K) in A. lra.
    + apply (scale_neg k K) in B. lra.
  - rewrite (css_abs_comp (k * x) 0) by (rewrite <- K; ring). rewrite <- K. unfold css_abs. destruct (Qlt_le_dec 0 0); lra.
Qed.
Lemma code_sign : forall x, qsign x == css_sign x.
Proof.
  intros x. unfold qsign, css_sign. destruct (x ?= 0) eqn:E.
  - apply Qeq_alt in E. destruct (Qlt_le_dec x 0); [lra|]. apply Qeq_bool_iff in E. rewrite E. reflexivity.
  - apply Qlt_alt in E. destruct (Qlt_le_dec x 0); [reflexivity | lra].
  - apply Qgt_alt in E. destruct (Qlt_le_dec x 0); [lra|]. destruct (Qeq_bool x 0) eqn:F; [|reflexivity].
    apply Qeq_bool_iff in F. lra.
Qed.
Lemma qsign_comp : forall x y, x == y -> qsign x = qsign y.
Proof. intros x y E. unfold qsign. rewrite E. reflexivity. Qed.
Lemma qsign_sign : forall x, qsign (qsign x) = qsign x.
Proof. intros x. unfold qsign. destruct (x ?= 0); reflexivity. Qed.
Lemma code_abs : forall x, Qabs x == css_abs x.
Proof.
  intros x. unfold css_abs. destruct (Qlt_le_dec x 0) as [A | A]; [apply Qabs_neg | apply Qabs_pos]; lra.
Qed.
