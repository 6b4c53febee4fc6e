(** * The types of values do what the math functions ask of them *)
From Coq Require Import List Bool ZArith QArith Qround Qabs Qminmax Lqa Lia Setoid String.
From Verif Require Import CalcModel CalcSpec CalcArithProofs CalcProofs.
Import ListNotations.
Local Open Scope Q_scope.

Lemma unit_eqb_eq : forall u v, unit_eqb u v = true -> u = v.
Proof. intros [] []; cbn; intros H; try discriminate; try reflexivity. f_equal. apply String.eqb_eq. exact H. Qed.
Lemma unit_eqb_refl : forall u, unit_eqb u u = true.
Proof. intros []; cbn; try reflexivity. apply String.eqb_refl. Qed.
Lemma to_px_size : forall s u q p, to_px u q = Some p -> p == q * unit_size s u.
Proof.
  intros s [] q p H; cbn [to_px] in H; try discriminate; injection H as <-; cbn [unit_size]; unfold px_per_cm, px_per_in; try ring; field.
Qed.
Lemma unit_size_nonneg : forall s u, no_negative_size s -> 0 <= unit_size s u.
Proof. intros s [] [H _]; cbn [unit_size]; try (apply H); vm_compute; discriminate. Qed.
Lemma len_both_spec : forall {A : Type} s a b (f : unit_name -> Q -> Q -> A) r, len_both a b f = Some r ->
  exists u x y, r = f u x y /\ length_px s a == x * unit_size s u /\ length_px s b == y * unit_size s u.
Proof.
  intros A s [u x] [v y] f r H. cbn [len_both] in H. destruct (unit_eqb u v) eqn:E.
  - apply unit_eqb_eq in E. subst v. injection H as <-. exists u, x, y. split; [reflexivity|]. split; reflexivity.
  - destruct (to_px u x) as [p|] eqn:P; [|discriminate]. destruct (to_px v y) as [q|] eqn:Q; [|discriminate]. injection H as <-.
    exists Px, p, q. split; [reflexivity|]. apply (to_px_size s) in P. apply (to_px_size s) in Q. cbn [length_px unit_size].
    rewrite P, Q. split; ring.
Qed.
Lemma compare_scaled : forall a b k, 0 <= k ->
  match a ?= b with Lt => a * k <= b * k | Eq => a * k == b * k | Gt => b * k <= a * k end.
Proof.
  intros a b k K. destruct (a ?= b) eqn:E.
  - apply Qeq_alt in E. rewrite E. reflexivity.
  - apply Qlt_alt in E. nra.
  - apply Qgt_alt in E. nra.
Qed.

Lemma length_mul : forall s l k, length_px s (len_mul l k) == k * length_px s l.
Proof. intros s [u x] k. cbn. ring. Qed.
Lemma length_add : forall s a b c, len_add a b = Some c -> length_px s c == length_px s a + length_px s b.
Proof.
  intros s a b c H. destruct (len_both_spec s _ _ _ _ H) as (u & x & y & -> & E & F). cbn [length_px]. rewrite E, F. ring.
Qed.
Lemma length_cmp : forall s a b o, no_negative_size s -> len_cmp a b = Some o ->
  match o with
  | Lt => length_px s a <= length_px s b
  | Eq => length_px s a == length_px s b
  | Gt => length_px s b <= length_px s a
  end.
Proof.
  intros s a b o N H. destruct (len_both_spec s _ _ _ _ H) as (u & x & y & -> & E & F).
  pose proof (compare_scaled x y _ (unit_size_nonneg s u N)) as C. destruct (x ?= y); rewrite E, F; exact C.
Qed.
Lemma length_op : forall s a b f c, no_negative_size s -> len_op a b f = Some c ->
  exists k x y, 0 <= k /\ length_px s a == k * x /\ length_px s b == k * y /\ length_px s c == k * f x y.
Proof.
  intros s a b f c N H. destruct (len_both_spec s _ _ _ _ H) as (u & x & y & -> & E & F).
  exists (unit_size s u), x, y. split; [apply unit_size_nonneg; exact N|]. rewrite E, F. cbn [length_px].
  split; [ring|]. split; ring.
Qed.
Lemma length_map : forall s a f c, no_negative_size s -> len_map a f = Some c ->
  exists k x, 0 <= k /\ length_px s a == k * x /\ length_px s c == k * f x /\ len_num a == x /\ len_num c == f x.
Proof.
  intros s [u x] f c N H. injection H as <-. exists (unit_size s u), x. split; [apply unit_size_nonneg; exact N|].
  cbn. split; [ring|]. split; [ring|]. split; reflexivity.
Qed.
Lemma length_zero : forall s l, len_num l == 0 -> length_px s l == 0.
Proof. intros s [u x] H. cbn in *. rewrite H. ring. Qed.

Lemma length_lawful : forall s, no_negative_size s -> lawful length_type (length_px s).
Proof.
  intros s N. constructor; cbn [length_type leaf lmul ladd lcmp lop lmap lnum].
  - apply length_mul.
  - apply length_add.
  - intros a b o. apply length_cmp. exact N.
  - intros a b f c _. apply length_op. exact N.
  - intros a f c _. apply length_map. exact N.
  - apply length_zero.
Qed.

Lemma lp_lawful : forall s, no_negative_size s -> lawful lp_type (lp_px s).
Proof.
  intros s N. pose proof N as [_ B]. constructor; cbn [lp_type leaf lmul ladd lcmp lop lmap lnum].
  - intros [l | p] k; cbn [lp_mul lp_px]; [apply length_mul | ring].
  - intros [a | a] [b | b] c H; try discriminate; cbn [lp_add] in H.
    + destruct (len_add a b) as [l|] eqn:E; [|discriminate]. injection H as <-. apply length_add. exact E.
    + injection H as <-. cbn [lp_px]. ring.
  - intros [a | a] [b | b] o H; try discriminate; cbn [lp_cmp] in H.
    + apply length_cmp; assumption.
    + injection H as <-. apply (compare_scaled a b _ B).
  - intros [a | a] [b | b] f c _ H; try discriminate; cbn [lp_op] in H.
    + destruct (len_op a b f) as [l|] eqn:E; [|discriminate]. injection H as <-. apply (length_op s _ _ _ _ N E).
    + injection H as <-. exists (percent_base s), a, b. cbn [lp_px]. split; [exact B|]. split; [ring|]. split; ring.
  - intros [a | a] f c _ H; try discriminate; cbn [lp_map] in H.
    destruct (len_map a f) as [l|] eqn:E; [|discriminate]. injection H as <-. apply (length_map s _ _ _ N E).
  - intros [l | p] H; cbn [lp_num lp_px] in *; [apply length_zero; exact H | rewrite H; ring].
Qed.

Lemma percentage_lawful : forall base, 0 <= base -> lawful percentage_type (percentage_size base).
Proof.
  intros base B. unfold percentage_size. constructor; cbn [percentage_type leaf lmul ladd lcmp lop lmap lnum].
  - intros. ring.
  - intros a b c H. injection H as <-. ring.
  - intros a b o H. injection H as <-. apply (compare_scaled a b _ B).
  - intros a b f c _ H. injection H as <-. exists base, a, b. split; [exact B|]. split; [ring|]. split; ring.
  - discriminate.
  - intros l H. rewrite H. ring.
Qed.

Lemma time_lawful : lawful time_type time_seconds.
Proof.
  constructor; cbn [time_type leaf lmul ladd lcmp lop lmap lnum].
  - intros [q | q] k; cbn; [ring | field].
  - intros a b c H. injection H as <-. destruct a, b; cbn [time_op time_seconds]; field.
  - intros a b o H. injection H as <-.
    assert (forall t, time_seconds t == to_ms t * (1 # 1000)) as E by (intros [q | q]; cbn; field).
    pose proof (compare_scaled (to_ms a) (to_ms b) (1 # 1000) ltac:(discriminate)) as C.
    destruct (to_ms a ?= to_ms b); rewrite (E a), (E b); exact C.
  - intros a b f c P H. injection H as <-. destruct a as [a | a], b as [b | b]; cbn [time_op time_seconds].
    + exists 1, a, b. split; [discriminate|]. split; [ring|]. split; ring.
    + exists 1, a, (b / 1000). split; [discriminate|]. split; [ring|]. split; ring.
    + exists (1 # 1000), a, (b * 1000). split; [discriminate|]. split; [field|]. split; [field|]. field.
    + exists (1 # 1000), a, b. split; [discriminate|]. split; [field|]. split; field.
  - intros a f c P H. injection H as <-. destruct a as [a | a]; cbn [time_map time_seconds time_num].
    + exists 1, a. split; [discriminate|]. split; [ring|]. split; [ring|]. split; reflexivity.
    + exists (1 # 1000), a. split; [discriminate|]. split; [field|]. split; [field|]. split; reflexivity.
  - intros [q | q] H; cbn in *; rewrite H; reflexivity.
Qed.

Lemma angle_lawful : forall rad, 0 <= rad -> lawful (angle_type rad) (angle_degrees rad).
Proof.
  intros rad P0. assert (forall a, to_degrees rad a == angle_degrees rad a) as E by (intros [q | q | q | q]; cbn; try reflexivity; field).
  constructor; cbn [angle_type leaf lmul ladd lcmp lop lmap lnum].
  - intros [q | q | q | q] k; cbn; ring.
  - intros a b c H. injection H as <-. destruct a, b; cbn [angle_op angle_degrees to_degrees]; field.
  - intros a b o H. injection H as <-. pose proof (compare_scaled (to_degrees rad a) (to_degrees rad b) 1 ltac:(discriminate)) as C.
    destruct (to_degrees rad a ?= to_degrees rad b); rewrite <- (E a), <- (E b); rewrite !Qmult_1_r in C; exact C.
  - intros a b f c P H. injection H as <-.
    assert (exists k x y, 0 <= k /\ angle_degrees rad a == k * x /\ angle_degrees rad b == k * y /\
      angle_degrees rad (Deg (f (to_degrees rad a) (to_degrees rad b))) == k * f x y) as D.
    { exists 1, (to_degrees rad a), (to_degrees rad b). split; [discriminate|]. rewrite <- (E a), <- (E b). cbn [angle_degrees].
      split; [ring|]. split; ring. }
    destruct a as [a | a | a | a], b as [b | b | b | b]; try exact D; clear D; cbn [angle_op angle_degrees].
    + exists rad, a, b. split; [exact P0|]. split; [ring|]. split; ring.
    + exists (9 / 10), a, b. split; [vm_compute; discriminate|]. split; [ring|]. split; ring.
    + exists 360, a, b. split; [discriminate|]. split; [ring|]. split; ring.
  - intros a f c P H. injection H as <-. destruct a as [a | a | a | a]; cbn [angle_map angle_degrees angle_num].
    + exists 1, a. split; [discriminate|]. split; [ring|]. split; [ring|]. split; reflexivity.
    + exists rad, a. split; [exact P0|]. split; [ring|]. split; [ring|]. split; reflexivity.
    + exists (9 / 10), a. split; [vm_compute; discriminate|]. split; [ring|]. split; [ring|]. split; reflexivity.
    + exists 360, a. split; [discriminate|]. split; [ring|]. split; [ring|]. split; reflexivity.
  - intros [q | q | q | q] H; cbn in *; rewrite H; reflexivity.
Qed.
