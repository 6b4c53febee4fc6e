(** * Indices in a list and in the part of it that is kept *)
From Coq Require Import List Bool PeanoNat Lia.
From Verif Require Import BlockModel BlockSpec BlockProofs.
Import ListNotations.

Section Lists.
Context {A R : Type}.
Implicit Types (K : decl A R -> bool) (l m : list (decl A R)).

Definition at_ K l (i : nat) : nat := length (filter K (firstn i l)).
Lemma at_nth K l i d : nth_error l i = Some d -> K d = true -> nth_error (filter K l) (at_ K l i) = Some d.
Proof.
  unfold at_. revert i. induction l as [|x l IH]; intros [|i] N Kd; try discriminate.
  - cbn in N. injection N as ->. cbn. rewrite Kd. reflexivity.
  - cbn [firstn filter]. destruct (K x); cbn [length nth_error]; apply (IH i N Kd).
Qed.
Lemma at_apart K l m i : apart K l m -> i <= length l -> at_ K m i = at_ K l i.
Proof.
  unfold at_. intros H. revert i. induction H as [l F|d l m H IH|d e l m D E H IH]; intros i L.
  - cbn in L. destruct i; [reflexivity|lia].
  - destruct i as [|i]; [reflexivity|]. cbn [firstn filter length] in *. destruct (K d); cbn [length]; rewrite IH by lia; reflexivity.
  - destruct i as [|i]; [reflexivity|]. cbn [firstn filter length] in *. rewrite D, E. apply IH. lia.
Qed.
Lemma at_app K l m i : i <= length l -> at_ K (l ++ m) i = at_ K l i.
Proof. intros L. unfold at_. rewrite firstn_app. replace (i - length l) with 0 by lia. cbn. rewrite app_nil_r. reflexivity. Qed.
Lemma at_end K l m : at_ K (l ++ m) (length l) = length (filter K l).
Proof. unfold at_. rewrite firstn_app, Nat.sub_diag, firstn_all. cbn. rewrite app_nil_r. reflexivity. Qed.
Lemma filter_replace K l i d e : nth_error l i = Some d -> K d = true -> K e = true ->
  filter K (replace l i e) = replace (filter K l) (at_ K l i) e.
Proof.
  unfold at_. revert i. induction l as [|x l IH]; intros [|i] N D E; try discriminate; unfold replace in *.
  - cbn in N. injection N as ->. cbn. rewrite D, E. reflexivity.
  - cbn [firstn skipn app filter]. destruct (K x); cbn [length firstn skipn app]; [f_equal|]; apply (IH i N D E).
Qed.
Lemma at_replace K l i d e j : nth_error l i = Some d -> K d = true -> K e = true -> at_ K (replace l i e) j = at_ K l j.
Proof.
  unfold at_. revert i j. induction l as [|x l IH]; intros [|i] [|j] N D E; try discriminate; unfold replace in *; try reflexivity.
  - cbn in N. injection N as ->. cbn. rewrite D, E. reflexivity.
  - change (firstn (S i) (x :: l) ++ e :: skipn (S (S i)) (x :: l)) with (x :: firstn i l ++ e :: skipn (S i) l). rewrite !firstn_cons.
    cbn [filter]. destruct (K x); cbn [length]; rewrite (IH i j N D E); reflexivity.
Qed.
Lemma at_all K l i : Forall (fun d => K d = true) l -> i <= length l -> at_ K l i = i.
Proof.
  intros F. unfold at_. revert i. induction F as [|d l D F IH]; intros i L; cbn in L; [destruct i; [reflexivity|lia]|].
  destruct i as [|i]; [reflexivity|]. cbn. rewrite D. cbn. rewrite IH by lia. reflexivity.
Qed.
Lemma at_lt K l i d : nth_error l i = Some d -> K d = true -> at_ K l i < length (filter K l).
Proof. intros N D. apply nth_error_Some. rewrite (at_nth K l i d N D). discriminate. Qed.
Lemma at_inj K l i j d e : nth_error l i = Some d -> K d = true -> nth_error l j = Some e -> K e = true -> at_ K l i = at_ K l j -> i = j.
Proof.
  unfold at_. revert i j. induction l as [|x l IH]; intros [|i] [|j] N D M E H; try discriminate; try reflexivity.
  - cbn in N. injection N as ->. cbn in H. rewrite D in H. discriminate.
  - cbn in M. injection M as ->. cbn in H. rewrite E in H. discriminate.
  - cbn in H. f_equal. apply (IH i j N D M E). destruct (K x); cbn in H; [injection H as H|]; exact H.
Qed.
End Lists.
