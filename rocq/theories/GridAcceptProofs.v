(** * Sizes of tracks that are read are sizes of CSS *)
From Coq Require Import List Bool QArith ZArith Ascii String Lia.
From Verif Require Import AnimModel GridModel GridSpec.
Import ListNotations.
Local Open Scope nat_scope.
Local Open Scope string_scope.
Local Open Scope list_scope.

Local Arguments is_kw kw s : simpl never.

Lemma kw_is kw s : is_kw kw s = true -> Is kw s.
Proof. unfold Is, is_kw. apply String.eqb_eq. Qed.
Lemma accept_length t l : parse_length t = Some l -> GLength t l.
Proof.
  intros H. destruct t; cbn in H; try discriminate H; try (injection H as <-; constructor).
  match type of H with match ?z with _ => _ end = _ => destruct z end; try discriminate H.
  injection H as <-. constructor.
Qed.
Lemma accept_breadth fl t b : parse_breadth fl t = Some b -> GBreadth fl t b.
Proof.
  unfold parse_breadth. destruct (parse_length t) as [l|] eqn:E.
  - intros [= <-]. constructor. apply accept_length, E.
  - destruct t; try discriminate.
    + destruct (is_kw "auto" s) eqn:A; [intros [= <-]; constructor; apply kw_is, A|].
      destruct (is_kw "min-content" s) eqn:B; [intros [= <-]; constructor; apply kw_is, B|].
      destruct (is_kw "max-content" s) eqn:C; [intros [= <-]; constructor; apply kw_is, C|discriminate].
    + destruct fl; [|discriminate]. cbn [andb]. destruct (Qle_bool 0 q) eqn:Q; [|discriminate].
      intros [= <-]. constructor; [reflexivity|apply Qle_bool_iff, Q].
Qed.
Lemma accept_size t s : parse_size t = Some s -> GSize t s.
Proof.
  unfold parse_size. destruct (parse_breadth true t) as [b|] eqn:E.
  - intros [= <-]. constructor. apply accept_breadth, E.
  - destruct t as [| | | | | | | |f l|]; try discriminate.
    destruct (is_kw "minmax" f) eqn:F.
    + destruct l as [|a [|c [|b [|]]]]; try discriminate; destruct c; try discriminate.
      destruct (parse_breadth false a) eqn:A; [|discriminate]. destruct (parse_breadth true b) eqn:B; [|discriminate].
      intros [= <-]. constructor; [apply kw_is, F|apply accept_breadth, A|apply accept_breadth, B].
    + destruct (is_kw "fit-content" f) eqn:G; [|discriminate].
      destruct l as [|a [|]]; try discriminate. destruct (parse_length a) eqn:A; [|discriminate].
      intros [= <-]. constructor; [apply kw_is, G|apply accept_length, A].
Qed.
Lemma accept_loop l ss : size_loop l = (ss, []) -> Forall2 GSize l ss.
Proof.
  revert ss. induction l as [|t l IH]; intros ss H; cbn [size_loop] in H.
  - injection H as <-. constructor.
  - destruct (parse_size t) as [s|] eqn:E; [|discriminate H].
    destruct (size_loop l) as [ss' rest]. injection H as <- ->.
    constructor; [apply accept_size, E|apply IH; reflexivity].
Qed.
Lemma accept_sizes l ss : parse_sizes l = (ss, []) -> l <> [] ->
  GSizes l ss \/ (ss = [] /\ GSizes l [Breadth BAuto]).
Proof.
  unfold parse_sizes. destruct (size_loop l) as [xs rest] eqn:E. intros H N.
  injection H as H ->. apply accept_loop in E.
  assert (NX : xs <> []) by (destruct E; congruence).
  destruct xs as [|x [|y xs]]; [congruence| |left; subst ss; split; assumption].
  destruct (is_auto x) eqn:A; [|left; subst ss; split; assumption].
  right. split; [congruence|]. destruct x as [[]| |]; try discriminate A. split; assumption.
Qed.
Lemma empty_sizes : parse_sizes [] = ([], []) /\ forall ss, ~ GSizes [] ss.
Proof. split; [reflexivity|]. intros ss [H N]. inversion H. congruence. Qed.
