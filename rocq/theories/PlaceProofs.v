(** * Proofs about position values *)
From Coq Require Import List Bool QArith.
From Verif Require Import PlaceModel PlaceSpec.
Import ListNotations.
Local Open Scope Q_scope.

Section Proofs.
Context {L : Type}.
Notation lp := (lp L).
Notation token := (token L).

Lemma parse_complete (u : list token) x y r : means u x y -> stops r ->
  exists p, parse (u ++ r) = Some (p, r) /\ component_axis (px p) = x /\ component_axis (py p) = y.
Proof.
  intros M S.
  assert (r = [] \/ exists n s, r = TOther n :: s) as R.
  { destruct r as [|k s]; [auto|]. destruct k; try contradiction. eauto. }
  clear S. destruct M as [k x H|k f H|k x l y H G|t x v y H G|t x v y H G].
  - destruct H as [k f H| |v]; [inversion H; subst|..]; destruct R as [->|(n & s & ->)]; eexists; repeat split.
  - inversion H; destruct R as [->|(n & s & ->)]; eexists; repeat split.
  - destruct H as [k f H| |v]; [inversion H; subst|..]; (destruct G as [l g G| |w]; [inversion G; subst|..]); destruct R as [->|(n & s & ->)]; eexists; repeat split.
  - destruct H as [|k f H|k f v' H]; [|inversion H; subst..]; (destruct G as [|l g G|l g w G]; [|inversion G; subst..]); destruct R as [->|(n & s & ->)]; eexists; repeat split.
  - destruct H as [|k f H|k f v' H]; [|inversion H; subst..]; (destruct G as [|l g G|l g w G]; [|inversion G; subst..]); destruct R as [->|(n & s & ->)]; eexists; repeat split.
Qed.
Lemma means_unique (u : list token) x y x' y' : means u x y -> means u x' y' -> x = x' /\ y = y'.
Proof.
  intros H1 H2. destruct (parse_complete u x y [] H1 I) as (p & E & <- & <-). destruct (parse_complete u x' y' [] H2 I) as (q & E' & <- & <-).
  rewrite E in E'. injection E' as ->. auto.
Qed.

(** Derivations for printed and parsed tokens *)
Ltac derive3 :=
  match goal with |- means [?a; ?b; ?c] _ _ =>
    first [ solve [ apply (Parts [a] _ [b; c]); repeat constructor ]
          | solve [ apply (Parts [a; b] _ [c]); repeat constructor ]
          | solve [ apply (PartsReversed [c] _ [a; b]); repeat constructor ]
          | solve [ apply (PartsReversed [b; c] _ [a]); repeat constructor ] ] end.
Ltac derive4 :=
  match goal with |- means [?a; ?b; ?c; ?d] _ _ =>
    first [ solve [ apply (Parts [a; b] _ [c; d]); repeat constructor ] | solve [ apply (PartsReversed [c; d] _ [a; b]); repeat constructor ] ] end.
Ltac derive12 :=
  first [ solve [ apply OneX; repeat constructor ] | solve [ apply OneY; repeat constructor ] | solve [ apply Two; repeat constructor ]
        | match goal with |- means [?a; ?b] _ _ => first [ solve [ apply (Parts [a] _ [b]); repeat constructor ] | solve [ apply (PartsReversed [b] _ [a]); repeat constructor ] ] end ].
Ltac derived := first [ derive12 | derive3 | derive4 ].

Lemma parse_sound (t : list token) p r : parse t = Some (p, r) ->
  exists u, t = u ++ r /\ means u (component_axis (px p)) (component_axis (py p)).
Proof.
  intros H.
  destruct t as [|a t]; [discriminate|].
  destruct a; try discriminate;
  (destruct t as [|b t]; [|destruct b]);
  try (injection H as <- <-; cbn [px py component_axis];
       match goal with |- exists u, ?a :: ?b :: ?t = u ++ ?r /\ _ =>
         first [ exists [a]; split; [reflexivity|derived] | exists [a; b]; split; [reflexivity|derived] ]
       | |- exists u, ?a :: [] = u ++ ?r /\ _ => exists [a]; split; [reflexivity|derived] end).
  all: destruct t as [|c t]; [|destruct c];
  try (injection H as <- <-; cbn [px py component_axis];
       match goal with |- exists u, ?a :: ?b :: ?c :: ?t = u ++ ?r /\ _ =>
         first [ exists [a]; split; [reflexivity|derived] | exists [a; b]; split; [reflexivity|derived] | exists [a; b; c]; split; [reflexivity|derived] ]
       | |- exists u, ?a :: ?b :: [] = u ++ ?r /\ _ => first [ exists [a; b]; split; [reflexivity|derived] | exists [a]; split; [reflexivity|derived] ] end).
  all: destruct t as [|d t]; [|destruct d];
  try (injection H as <- <-; cbn [px py component_axis];
       match goal with |- exists u, ?a :: ?b :: ?c :: ?d :: ?t = u ++ ?r /\ _ =>
         first [ exists [a]; split; [reflexivity|derived] | exists [a; b]; split; [reflexivity|derived] | exists [a; b; c]; split; [reflexivity|derived] | exists [a; b; c; d]; split; [reflexivity|derived] ]
       | |- exists u, ?a :: ?b :: ?c :: [] = u ++ ?r /\ _ => first [ exists [a; b; c]; split; [reflexivity|derived] | exists [a; b]; split; [reflexivity|derived] ] end).
Qed.

Section Print.
Variable zero_length : L.
Variable is_zero_length : L -> bool.
Variable value : L -> Q -> Q.
Hypothesis value_zero : forall room, value zero_length room == 0.
Hypothesis value_is_zero : forall l room, is_zero_length l = true -> value l room == 0.
Variable minify : bool.
Notation print := (print zero_length is_zero_length minify).

Lemma resolve_zero v room : lp_zero is_zero_length v = true -> resolve value v room == 0.
Proof. destruct v as [p|l]; cbn; intros H; [apply Qeq_bool_eq in H; rewrite H; ring|now apply value_is_zero]. Qed.

Ltac places :=
  match goal with
  | |- context [lp_zero _ ?v] => let Z := fresh "Z" in destruct (lp_zero is_zero_length v) eqn:Z; places
  | _ => idtac
  end.
Ltac same_place :=
  let room := fresh "room" in
  intros room; unfold place, edge, middle; cbn [far offset];
  repeat match goal with
  | H : Qeq_bool _ _ = true |- _ => apply Qeq_bool_eq in H
  | H : lp_zero is_zero_length ?v = true |- _ => apply (resolve_zero v room) in H
  end;
  cbn [resolve side_lp zero] in *; rewrite ?value_zero;
  repeat match goal with H : _ == _ |- _ => rewrite ?H; clear H end;
  try reflexivity; ring.
Lemma print_means p : exists x y, means (print p) x y /\ same value x (component_axis (px p)) /\ same value y (component_axis (py p)).
Proof.
  destruct p as [x y]. destruct minify;
  (destruct x as [|[p|l]|[] [v|]]; destruct y as [|[q|k]|[] [w|]]);
  unfold PlaceModel.print; cbn [px py first_arm print_component is_center andb as_length side_token app side_lp];
  repeat match goal with |- context [Qeq_bool ?p (1 # 2)] => destruct (Qeq_bool p (1 # 2)) eqn:?; cbn [first_arm andb print_component side_token app] end;
  places;
  (eexists; eexists; split; [derived|split; cbn [component_axis]; same_place]).
Qed.

Theorem kept u x y r : means u x y -> stops r ->
  exists p, parse (u ++ r) = Some (p, r) /\ (exists x' y', means (print p) x' y') /\ forall x' y', means (print p) x' y' -> same value x x' /\ same value y y'.
Proof.
  intros M S. destruct (parse_complete u x y r M S) as (p & E & <- & <-). exists p. split; [exact E|].
  destruct (print_means p) as (a & b & N & Sa & Sb). split; [eauto|]. intros x' y' N'.
  destruct (means_unique _ _ _ _ _ N N') as [<- <-]. split; intros room; symmetry; auto.
Qed.
Theorem printed p x y : means (print p) x y -> same value (component_axis (px p)) x /\ same value (component_axis (py p)) y.
Proof.
  intros N. destruct (print_means p) as (a & b & N' & Sa & Sb). destruct (means_unique _ _ _ _ _ N N') as [-> ->].
  split; intros room; symmetry; auto.
Qed.

Ltac tests :=
  repeat match goal with
  | |- context [lp_zero _ ?v] => destruct (lp_zero is_zero_length v) eqn:?; cbn [first_arm andb print_component side_token app]
  | |- context [Qeq_bool ?p ?q] => destruct (Qeq_bool p q) eqn:?; cbn [first_arm andb print_component side_token app]
  | |- context [is_zero_length ?l] => destruct (is_zero_length l) eqn:?; cbn [first_arm andb print_component side_token app]
  end.
Theorem values_kept u x y p : means u x y -> parse u = Some (p, []) -> (length (print p) <= length u)%nat /\ (length u <> 3%nat -> length (print p) <> 3%nat).
Proof.
  intros M E. destruct M as [k x H|k f H|k x l y H G|t x v y H G|t x v y H G].
  1: destruct H as [k f H| |v]; [inversion H; subst|..].
  5: inversion H; subst.
  7: destruct H as [k f H| |v]; [inversion H; subst|..]; (destruct G as [l g G| |w]; [inversion G; subst|..]).
  23,24: destruct H as [|k f H|k f v' H]; [|inversion H; subst..]; (destruct G as [|l g G|l g w G]; [|inversion G; subst..]).
  all: cbv in E; injection E as <-; unfold PlaceModel.print; cbn [px py first_arm print_component is_center andb as_length side_token app side_lp];
    repeat match goal with |- context [match ?v with Pct _ => _ | Dim _ => _ end] => destruct v as [?q|?l] end;
    tests; destruct minify; cbn; split; repeat constructor; intros; discriminate || contradiction.
Qed.
End Print.
End Proofs.
