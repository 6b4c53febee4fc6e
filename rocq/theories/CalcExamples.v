(** * Examples of math functions *)
From Coq Require Import List Bool ZArith QArith Qround Qabs Qreduction Lqa Lia String.
From Verif Require Import CalcModel CalcSpec CalcArithProofs CalcProofs CalcFuelProofs.
Import ListNotations.
Local Open Scope Q_scope.
Local Open Scope string_scope.

(** ** A square root on the rationals: exact where there is one, and zero elsewhere *)
Definition square_root (x : Q) : Q :=
  let n := (Qnum x * Z.pos (Qden x))%Z in
  let s := Z.sqrt n in if Z.eqb (s * s) n then s # Qden x else 0.
Lemma square_divides : forall n b c : Z, (b <> 0)%Z -> (n * (b * b) = c * c)%Z -> exists d, (n = d * d)%Z.
Proof.
  intros n b c B E. set (g := Z.gcd b c).
  assert (g <> 0)%Z as G by (intros Z; apply Z.gcd_eq_0_l in Z; contradiction).
  destruct (Z.gcd_divide_l b c) as (b' & B'). destruct (Z.gcd_divide_r b c) as (c' & C'). fold g in B', C'.
  assert (n * (b' * b') = c' * c')%Z as E'.
  { apply (Z.mul_reg_l _ _ (g * g)); [nia|]. rewrite B', C' in E. nia. }
  assert (Z.gcd b' c' = 1)%Z as CO.
  { assert (Z.gcd b' c' * g = g)%Z as X.
    { assert (Z.gcd (b' * g) (c' * g) = Z.gcd b' c' * Z.abs g)%Z as Y by apply Z.gcd_mul_mono_r.
      rewrite <- B', <- C' in Y. fold g in Y. pose proof (Z.gcd_nonneg b c). fold g in H. rewrite Z.abs_eq in Y by exact H. congruence. }
    pose proof (Z.gcd_nonneg b' c'). nia. }
  assert (b' | c')%Z as D.
  { apply (Z.gauss _ c'); [|exact CO]. exists (n * b')%Z. lia. }
  assert (b' | 1)%Z as D1 by (rewrite <- CO; apply Z.gcd_greatest; [apply Z.divide_refl | exact D]).
  exists c'. apply Z.divide_1_r in D1. destruct D1; subst b'; lia.
Qed.
Lemma square_root_cases : forall x,
  (0 <= square_root x /\ square_root x * square_root x == x) \/ (square_root x == 0 /\ forall r, ~ r * r == x).
Proof.
  intros [p q]. unfold square_root. cbn [Qnum Qden]. destruct (Z.eqb_spec (Z.sqrt (p * Z.pos q) * Z.sqrt (p * Z.pos q)) (p * Z.pos q)) as [E|N].
  - left. pose proof (Z.sqrt_nonneg (p * Z.pos q)). split; [unfold Qle; cbn; lia|]. unfold Qeq, Qmult. cbn [Qnum Qden].
    rewrite E, Pos2Z.inj_mul. ring.
  - right. split; [reflexivity|]. intros [a b] E. apply N. unfold Qeq, Qmult in E. cbn [Qnum Qden] in E. rewrite Pos2Z.inj_mul in E.
    destruct (square_divides (p * Z.pos q) (Z.pos b) (a * Z.pos q)) as (d & D); [lia | nia|].
    rewrite D. rewrite <- (Z.abs_square d). rewrite Z.sqrt_square by apply Z.abs_nonneg. reflexivity.
Qed.
Lemma square_unique : forall r s, 0 <= r -> 0 <= s -> r * r == s * s -> r == s.
Proof.
  intros r s R S E. destruct (Qlt_le_dec r s) as [L | L].
  - exfalso. nra.
  - destruct (Qlt_le_dec s r) as [M | M]; [exfalso; nra | lra].
Qed.
Lemma square_root_is : forall x r, 0 <= r -> r * r == x -> square_root x == r.
Proof.
  intros x r R E. destruct (square_root_cases x) as [[P S] | [_ N]]; [|exfalso; exact (N r E)].
  apply square_unique; try assumption. rewrite S, E. reflexivity.
Qed.
Lemma square_root_good : good_root square_root.
Proof.
  split; [|split].
  - intros x y E. destruct (square_root_cases y) as [[P S] | [Z N]].
    + apply square_root_is; [exact P|]. rewrite S, E. reflexivity.
    + destruct (square_root_cases x) as [[P S] | [Z' _]]; [|rewrite Z, Z'; reflexivity]. exfalso. apply (N (square_root x)). rewrite S, E. reflexivity.
  - intros x P. apply square_root_is; [exact P | reflexivity].
  - intros k x K X. destruct (square_root_cases x) as [[P S] | [Z N]].
    + apply square_root_is; [nra|]. setoid_replace (k * square_root x * (k * square_root x)) with (k * k * (square_root x * square_root x)) by ring. rewrite S. reflexivity.
    + rewrite Z. destruct (Qeq_dec k 0) as [K0 | K0].
      * setoid_replace (k * 0) with 0 by ring. apply square_root_is; [lra|]. rewrite K0. ring.
      * destruct (square_root_cases (k * k * x)) as [[P S] | [Z' _]]; [|rewrite Z'; ring]. exfalso. apply (N (square_root (k * k * x) / k)).
        setoid_replace (square_root (k * k * x) / k * (square_root (k * k * x) / k)) with (square_root (k * k * x) * square_root (k * k * x) / (k * k)) by (field; exact K0).
        rewrite S. field. exact K0.
Qed.

(** ** Values *)
Definition desktop : sizes :=
  Sizes (fun u => if String.eqb u "em" then 16 else if String.eqb u "vw" then 12 else if String.eqb u "vh" then 8 else 1) 640.
Lemma desktop_sizes : no_negative_size desktop.
Proof. split; [|discriminate]. intros u. cbn. destruct (String.eqb u "em"), (String.eqb u "vw"), (String.eqb u "vh"); discriminate. Qed.
Definition px (q : Q) : expr length_percentage := EVal (LPLength (LV Px q)).
Definition inch (q : Q) : expr length_percentage := EVal (LPLength (LV In q)).
Definition pc (q : Q) : expr length_percentage := EVal (LPLength (LV Pc q)).
Definition em (q : Q) : expr length_percentage := EVal (LPLength (LV (Rel "em") q)).
Definition vw (q : Q) : expr length_percentage := EVal (LPLength (LV (Rel "vw") q)).
Definition vh (q : Q) : expr length_percentage := EVal (LPLength (LV (Rel "vh") q)).
Definition pct (q : Q) : expr length_percentage := EVal (LPPercent (q / 100)).
Definition lpx (q : Q) : expr length_value := EVal (LV Px q).
Definition lem (q : Q) : expr length_value := EVal (LV (Rel "em") q).

(** calc(2 * (10px + 5%) - max(1em, 3vw) * 2 + 1in) *)
Definition mixed : expr length_percentage :=
  ECalc (EAdd (ESub (EMul (ENum 2) (EAdd (px 10) (pct 5))) (EMul (EMax [em 1; vw 3]) (ENum 2))) (inch 1)).
(** clamp(1em, round(up, 10px + 3px, 5px), 50%) *)
Definition clamped : expr length_percentage :=
  EClamp (em 1) (ERound SUp (EAdd (px 10) (px 3)) (px 5)) (pct 50).
(** hypot(30px, 40px) *)
Definition hypotenuse : expr length_percentage := EHypot [px 30; px 40].

Ltac evaluates := cbn; discriminate.
Ltac side_conditions :=
  cbn; repeat split; intros; repeat match goal with H : Some _ = Some _ |- _ => injection H; clear H; intros; subst end; try discriminate; try lra.

Lemma mixed_plain : plain (lp_px desktop) square_root mixed.
Proof. cbn. tauto. Qed.
Lemma mixed_factors : no_zero_factor (lp_px desktop) square_root mixed.
Proof. cbn. repeat split; intros x H; try discriminate; injection H as <-; discriminate. Qed.
Lemma clamped_plain : plain (lp_px desktop) square_root clamped.
Proof.
  split; [exact I|]. split; [|exact I]. split; [split; exact I|]. split; [exact I|].
  intros k x k' y H H'. vm_compute in H'. injection H' as <- <-. split; [reflexivity | discriminate].
Qed.
Lemma hypotenuse_plain : plain (lp_px desktop) square_root hypotenuse.
Proof. cbn. tauto. Qed.

(** ** Reading that never ends: calc((1px + 1em) + (1vw + 1vh)) *)
Definition endless : expr length_percentage := ECalc (EAdd (EAdd (px 1) (em 1)) (EAdd (vw 1) (vh 1))).
Definition sum_a : calc length_percentage := CSum (CVal (LPLength (LV Px 1))) (CVal (LPLength (LV (Rel "em") 1))).
Definition sum_b : calc length_percentage := CSum (CVal (LPLength (LV (Rel "vw") 1))) (CVal (LPLength (LV (Rel "vh") 1))).
Lemma merge_none : forall n, merge lp_type n (DCalc sum_a) (DCalc sum_b) = Loop \/ merge lp_type n (DCalc sum_a) (DCalc sum_b) = Ok None.
Proof. intros n. do 6 (destruct n as [|n]; [first [left; reflexivity | right; reflexivity]|]). right. reflexivity. Qed.
Lemma cadd_endless : forall n, cadd lp_type n sum_a sum_b = Loop.
Proof.
  intros n. induction n as [n IH] using lt_wf_ind. destruct n as [|[|[|n]]]; try reflexivity.
  change (bind (dadd lp_type (S (S n)) (DCalc sum_a) (DCalc sum_b)) (fun d => Ok (into d)) = Loop).
  change (dadd lp_type (S (S n)) (DCalc sum_a) (DCalc sum_b)) with
    (bind (merge lp_type (S n) (DCalc sum_a) (DCalc sum_b))
       (fun r => match r with Some r => Ok r | None => plus lp_type (S n) (DCalc sum_a) (DCalc sum_b) end)).
  destruct (merge_none (S n)) as [-> | ->]; [reflexivity|]. cbn [bind].
  change (plus lp_type (S n) (DCalc sum_a) (DCalc sum_b)) with (bind (cadd lp_type n sum_a sum_b) (fun c => Ok (@DCalc length_percentage c))).
  rewrite IH by lia. reflexivity.
Qed.
Lemma simp_endless : forall root n, parse_dp lp_type root n endless = Loop.
Proof.
  intros root n.
  assert (forall m, simp lp_type root (6 + m) (EAdd (px 1) (em 1)) = Ok sum_a) as A.
  { intros m. rewrite (simp_mono lp_type root 6 (6 + m)); [reflexivity | lia | discriminate]. }
  assert (forall m, simp lp_type root (6 + m) (EAdd (vw 1) (vh 1)) = Ok sum_b) as B.
  { intros m. rewrite (simp_mono lp_type root 6 (6 + m)); [reflexivity | lia | discriminate]. }
  assert (forall m, parse_dp lp_type root (6 + m) endless = Loop) as C.
  { intros m. unfold endless. cbn [parse_dp parse_function].
    change (simp lp_type root (6 + m) (EAdd (EAdd (px 1) (em 1)) (EAdd (vw 1) (vh 1)))) with
      (bind (simp lp_type root (6 + m) (EAdd (px 1) (em 1))) (fun a => bind (simp lp_type root (6 + m) (EAdd (vw 1) (vh 1))) (fun b => cadd lp_type (6 + m) a b))).
    rewrite A. cbn [bind]. rewrite B. cbn [bind]. rewrite cadd_endless. reflexivity. }
  do 6 (destruct n as [|n]; [vm_compute; reflexivity|]). apply (C n).
Qed.

(** ** hypot(1pc, 0pc, 0px) *)
Lemma hypot_units : forall root, good_root root -> misread lp_type (lp_px desktop) root (EHypot [pc 1; pc 0; px 0]).
Proof.
  intros root (C & S & _). exists 9%nat, (DLeaf (LPLength (LV Px (root ((1 * 1 + 0 * 0) * (96 / 6) + 0 * 0))))).
  split; [reflexivity|]. split; [discriminate|].
  change (~ (KVal = KVal /\ root (squares [lp_px desktop (LPLength (LV Pc 1)); lp_px desktop (LPLength (LV Pc 0)); lp_px desktop (LPLength (LV Px 0))]) ==
    root ((1 * 1 + 0 * 0) * (96 / 6) + 0 * 0) * 1)).
  intros [_ E]. rewrite (C (squares _) (16 * 16)) in E by reflexivity. rewrite (S 16) in E by discriminate.
  rewrite (C ((1 * 1 + 0 * 0) * (96 / 6) + 0 * 0) (4 * 4)) in E by reflexivity. rewrite (S 4) in E by discriminate. discriminate.
Qed.

(** ** calc(1px * sign(1em - 10px)) *)
Definition sign_of_sum : expr length_percentage := ECalc (EMul (px 1) (ESign (ESub (em 1) (px 10)))).
Lemma sign_of_sum_rejected : plain (lp_px desktop) square_root sign_of_sum /\ flat sign_of_sum /\ closed sign_of_sum = true /\
  eval (lp_px desktop) square_root sign_of_sum <> None /\ forall n, (9 <= n)%nat -> parse_dp lp_type square_root n sign_of_sum = Err.
Proof.
  split; [|split; [cbn; tauto|split; [reflexivity|split; [discriminate|]]]].
  - split; [exact I|]. split; [split; exact I|]. intros x H. vm_compute in H. injection H as <-. discriminate.
  - intros n L. unfold sign_of_sum. cbn [parse_dp parse_function].
    rewrite (simp_mono lp_type square_root 9 n); [reflexivity | exact L | discriminate].
Qed.
