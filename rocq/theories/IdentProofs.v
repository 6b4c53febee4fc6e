(** What is serialized is read back. *)
From Coq Require Import List Bool String Ascii PeanoNat NArith.
From Verif Require Import IdentModel IdentSpec.
Import ListNotations.
Local Open Scope bool_scope.
Local Open Scope string_scope.

Lemma app_nil_r_s : forall s, s ++ "" = s.
Proof. induction s; cbn; [reflexivity|]. now f_equal. Qed.
Lemma app_assoc_s : forall a b c, (a ++ b) ++ c = a ++ (b ++ c).
Proof. induction a; intros; cbn; [reflexivity|]. now f_equal. Qed.

Lemma cons_cons : forall a b p, cons_name a (cons_name b p) = cons_name (a ++ b) p.
Proof. intros. unfold cons_name. cbn. rewrite app_assoc_s. reflexivity. Qed.
Lemma cons_nil : forall p, cons_name "" p = p.
Proof. intros [a b]. reflexivity. Qed.

(** One escaped byte. *)
Lemma read_byte : forall c t, negb (Nat.eqb (code c) 0) = true ->
  read_name RNext (escape_byte c ++ t) = cons_name (String c "") (read_name RNext t).
Proof.
  intros c t. destruct c as [[] [] [] [] [] [] [] []]; vm_compute (negb _);
    intros H; try discriminate; reflexivity.
Qed.

Lemma read_hex : forall c t, is_digit c = true ->
  read_name RNext (hex_escape c ++ t) = cons_name (String c "") (read_name RNext t).
Proof.
  intros c t. destruct c as [[] [] [] [] [] [] [] []]; vm_compute (is_digit _);
    intros H; try discriminate; reflexivity.
Qed.

Theorem read_ser_name : forall s t, no_nul s = true ->
  read_name RNext (ser_name s ++ t) = cons_name s (read_name RNext t).
Proof.
  induction s as [|c s IH]; intros t H; cbn [ser_name].
  - symmetry. apply cons_nil.
  - cbn [no_nul] in H. apply andb_true_iff in H. destruct H as [Hc Hs].
    rewrite app_assoc_s, read_byte by exact Hc. rewrite IH by exact Hs.
    rewrite cons_cons. reflexivity.
Qed.

Lemma read_ser_start : forall s t, no_nul s = true ->
  read_name RNext (ser_start s ++ t) = cons_name s (read_name RNext t).
Proof.
  intros [|c s] t H; [symmetry; apply cons_nil|]. cbn [ser_start].
  destruct (is_digit c) eqn:D; [|apply read_ser_name; exact H].
  cbn [no_nul] in H. apply andb_true_iff in H. destruct H as [Hc Hs].
  rewrite app_assoc_s, read_hex by exact D. rewrite read_ser_name by exact Hs.
  rewrite cons_cons. reflexivity.
Qed.

Lemma read_dash : forall t, read_name RNext (String dash t) = cons_name (String dash "") (read_name RNext t).
Proof. reflexivity. Qed.

Lemma dash_eq : forall c, Ascii.eqb c dash = true -> c = dash.
Proof. intros c H. now apply Ascii.eqb_eq. Qed.

Theorem read_ser_ident : forall s t, no_nul s = true ->
  read_name RNext (ser_ident s ++ t) = cons_name s (read_name RNext t).
Proof.
  intros [|c [|d s]] t H; unfold ser_ident.
  - symmetry. apply cons_nil.
  - destruct (Ascii.eqb c dash) eqn:E.
    + apply dash_eq in E. subst. reflexivity.
    + apply read_ser_start. exact H.
  - destruct (Ascii.eqb c dash) eqn:E.
    + apply dash_eq in E. subst. cbn [no_nul] in H.
      apply andb_true_iff in H. destruct H as [_ H].
      destruct (Ascii.eqb d dash) eqn:E2.
      * apply dash_eq in E2. subst. apply andb_true_iff in H. destruct H as [_ H].
        change (String dash (String dash (ser_name s)) ++ t) with (String dash (String dash (ser_name s ++ t))).
        rewrite !read_dash, read_ser_name, !cons_cons by exact H. reflexivity.
      * change (String dash (ser_start (String d s)) ++ t) with (String dash (ser_start (String d s) ++ t)).
        rewrite read_dash, read_ser_start, cons_cons by exact H. reflexivity.
    + apply read_ser_start. exact H.
Qed.

(** ** It starts an identifier *)

Definition starts_name (s : string) : bool :=
  match s with
  | "" => false
  | String d r => name_start d || (is_backslash d && escapes r)
  end.

Lemma start_byte : forall c t, negb (Nat.eqb (code c) 0) = true -> is_digit c = false -> Ascii.eqb c dash = false ->
  starts_name (escape_byte c ++ t) = true.
Proof.
  intros c t. destruct c as [[] [] [] [] [] [] [] []]; vm_compute (negb _); vm_compute (is_digit _);
    vm_compute (Ascii.eqb _ _); intros H1 H2 H3; try discriminate; reflexivity.
Qed.

Lemma start_hex : forall c t, is_digit c = true -> starts_name (hex_escape c ++ t) = true.
Proof.
  intros c t. destruct c as [[] [] [] [] [] [] [] []]; vm_compute (is_digit _);
    intros H; try discriminate; reflexivity.
Qed.

Lemma start_ser : forall c s t, no_nul (String c s) = true -> Ascii.eqb c dash = false ->
  starts_name (ser_start (String c s) ++ t) = true.
Proof.
  intros c s t H E. cbn [ser_start]. destruct (is_digit c) eqn:D.
  - rewrite app_assoc_s. apply start_hex. exact D.
  - cbn [ser_name]. rewrite app_assoc_s. apply start_byte; try assumption.
    cbn [no_nul] in H. apply andb_true_iff in H. apply H.
Qed.

Lemma starts_name_ident : forall s, starts_name s = true -> starts_ident s = true.
Proof.
  intros [|c r]; [discriminate|]. cbn [starts_name starts_ident]. intros H.
  destruct (is_dash c) eqn:D; [|exact H]. exfalso.
  revert D H. destruct c as [[] [] [] [] [] [] [] []]; cbn; discriminate.
Qed.

Lemma starts_dash : forall s, starts_name s = true -> starts_ident (String dash s) = true.
Proof.
  intros [|c r]; [discriminate|]. cbn [starts_name starts_ident]. intros H.
  change (is_dash dash) with true. cbv iota. rewrite <- orb_assoc, (orb_comm (is_dash c)), orb_assoc, H.
  reflexivity.
Qed.

Theorem ser_ident_starts : forall s t, s <> "" -> no_nul s = true ->
  starts_ident (ser_ident s ++ t) = true.
Proof.
  intros [|c [|d s]] t NE H; unfold ser_ident; [congruence| |].
  - destruct (Ascii.eqb c dash) eqn:E; [reflexivity|].
    apply starts_name_ident, start_ser; assumption.
  - destruct (Ascii.eqb c dash) eqn:E.
    + apply dash_eq in E. subst. cbn [no_nul] in H.
      apply andb_true_iff in H. destruct H as [_ H].
      destruct (Ascii.eqb d dash) eqn:E2; [reflexivity|].
      apply (starts_dash (ser_start (String d s) ++ t)). apply start_ser; [exact H|exact E2].
    + apply starts_name_ident, start_ser; assumption.
Qed.

(** ** Ends *)

Lemma read_end : forall t, ends_name t = true -> read_name RNext t = ("", t).
Proof.
  intros [|c t] H; [reflexivity|]. cbn [ends_name] in H. apply andb_true_iff in H.
  destruct H as [H1 H2]. apply negb_true_iff in H1, H2. cbn [read_name]. rewrite H1, H2. reflexivity.
Qed.

Theorem ident_round_trip : forall s t, s <> "" -> no_nul s = true -> ends_name t = true ->
  read_ident (ser_ident s ++ t) = Some (s, t).
Proof.
  intros s t NE H E. unfold read_ident. rewrite ser_ident_starts by assumption.
  rewrite read_ser_ident, read_end by assumption. unfold cons_name. cbn. rewrite app_nil_r_s. reflexivity.
Qed.

Theorem name_round_trip : forall s t, no_nul s = true -> ends_name t = true ->
  read_ident ("--" ++ ser_name s ++ t) = Some ("--" ++ s, t).
Proof.
  intros s t H E. unfold read_ident. cbn [append starts_ident].
  change (is_dash "-") with true. cbv iota. cbn [orb].
  change (starts_ident (String "-" (String "-" (ser_name s ++ t)))) with true. cbv iota.
  rewrite !read_dash, read_ser_name, read_end by assumption.
  unfold cons_name. cbn. rewrite app_nil_r_s. reflexivity.
Qed.
