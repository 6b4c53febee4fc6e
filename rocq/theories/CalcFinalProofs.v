(** * Reading math functions comes to an end and accepts what is well formed *)
From Coq Require Import List Bool ZArith QArith Lia.
From Verif Require Import CalcModel CalcSpec CalcArithProofs CalcProofs CalcTypeProofs CalcFuelProofs CalcAcceptProofs.
Import ListNotations.
Local Open Scope Q_scope.

Section Final.
Context (T : vtype) (lval : leaf T -> Q) (root : Q -> Q) (W : lawful T lval) (R : good_root root).
Local Notation ee := (eval lval root).

Lemma simp_total : flexible T = true -> forall e, plain lval root e -> no_sign e -> flat e -> ee e <> None ->
  exists N c, forall n, (N <= n)%nat -> simp T root n e = Ok c.
Proof.
  intros FX e P NS F E. destruct (ee e) as [[k x]|] eqn:EE; [|contradiction].
  assert (is (ee e) k x) as V by (rewrite EE; apply is_intro; reflexivity).
  destruct (simp_returns T root e F) as (n0 & NL & _).
  pose proof (simp_mono T root n0 (3 + n0) e ltac:(lia) NL) as M.
  pose proof (simp_accepts T lval root W R FX (3 + n0) e ltac:(lia) P NS k x V) as NE.
  destruct (simp T root (3 + n0) e) as [c| |] eqn:S; [|contradiction|congruence].
  exists (3 + n0)%nat, c. intros n L. rewrite (simp_mono T root (3 + n0) n e L); [exact S | rewrite S; discriminate].
Qed.
Theorem parse_dp_total : flexible T = true -> forall e, plain lval root e -> no_sign e -> flat e -> closed e = true -> ee e <> None ->
  exists N d, forall n, (N <= n)%nat -> parse_dp T root n e = Ok d.
Proof.
  intros FX e P NS F C E. destruct (simp_total FX e P NS F E) as (N & c & S).
  destruct e; try discriminate; cbn [parse_dp parse_function];
    try (exists N; eexists; intros n L; rewrite (S n L); reflexivity).
  - exists N, (DLeaf l). reflexivity.
  - cbn [simp] in S. exists N. eexists. intros n L. rewrite (S n L). reflexivity.
Qed.
Lemma simp_flat : forall e x, plain lval root e -> fit T e KVal -> ee e = Some (KVal, x) ->
  exists l, forall n, (3 <= n)%nat -> simp T root n e = Ok (CVal l).
Proof.
  intros e x P F E. assert (is (ee e) KVal x) as V by (rewrite E; apply is_intro; reflexivity).
  destruct (simp_lit T lval root W R 3 e (le_n _) P KVal x V F) as (c & S & K). destruct c; try contradiction.
  exists l. intros n L. rewrite (simp_mono T root 3 n e L); [exact S | rewrite S; discriminate].
Qed.
Theorem parse_flat_total : total T -> forall e x, plain lval root e -> closed e = true -> ee e = Some (KVal, x) ->
  exists l, forall n, (3 <= n)%nat -> parse_flat T root n e = Ok l.
Proof.
  intros TT e x P C E. destruct (simp_flat e x P (or_introl TT) E) as (l & S).
  destruct e; try discriminate; cbn [parse_flat parse_function];
    try (exists l; intros n L; rewrite (S n L); reflexivity).
  - exists l0. reflexivity.
  - cbn [simp] in S. exists l. intros n L. rewrite (S n L). reflexivity.
Qed.
Theorem parse_percentage_total : total2 T -> forall e x, plain lval root e -> no_map e -> closed e = true -> ee e = Some (KVal, x) ->
  exists l, forall n, (3 <= n)%nat -> parse_percentage T root n e = Ok (Some l).
Proof.
  intros TT e x P M C E. destruct (simp_flat e x P (or_intror (or_introl (conj TT M))) E) as (l & S).
  destruct e; try discriminate; cbn [parse_percentage parse_function];
    try (exists l; intros n L; rewrite (S n L); reflexivity).
  - exists l0. reflexivity.
  - cbn [simp] in S. exists l. intros n L. rewrite (S n L). reflexivity.
Qed.
End Final.

Lemma time_total : total time_type.
Proof. repeat split; intros; cbn; try discriminate; destruct a; try destruct b; discriminate. Qed.
Lemma angle_total : forall rad, total (angle_type rad).
Proof. intros rad. repeat split; intros; cbn; try discriminate; destruct a; try destruct b; discriminate. Qed.

Lemma percentage_total2 : total2 percentage_type.
Proof. repeat split; intros; cbn; discriminate. Qed.
