(** * Proofs about the texts of [flex] and [flex-flow] *)

From Coq Require Import List String Bool ZArith Lia.
From Verif Require Import FlexModel FlexSpec.
Import ListNotations.

Lemma parse_direction_iff : forall t d,
  parse_direction t = Some d <-> keyword_direction t d.
Proof.
  intros t d; split.
  - destruct t as [w| | | |]; cbn [parse_direction]; try discriminate.
    destruct (String.eqb_spec w "row"); [subst; intros [= <-]; constructor|].
    destruct (String.eqb_spec w "row-reverse"); [subst; intros [= <-]; constructor|].
    destruct (String.eqb_spec w "column"); [subst; intros [= <-]; constructor|].
    destruct (String.eqb_spec w "column-reverse"); [subst; intros [= <-]; constructor|].
    discriminate.
  - intros H; destruct H; reflexivity.
Qed.

Lemma parse_wrap_iff : forall t w,
  parse_wrap t = Some w <-> keyword_wrap t w.
Proof.
  intros t d; split.
  - destruct t as [w| | | |]; cbn [parse_wrap]; try discriminate.
    destruct (String.eqb_spec w "nowrap"); [subst; intros [= <-]; constructor|].
    destruct (String.eqb_spec w "wrap"); [subst; intros [= <-]; constructor|].
    destruct (String.eqb_spec w "wrap-reverse"); [subst; intros [= <-]; constructor|].
    discriminate.
  - intros H; destruct H; reflexivity.
Qed.

Lemma flow_read : forall l d w, flow_value l d w -> parse_flow l = Some (d, w).
Proof.
  intros l d w H; destruct H as [t d H|u w H|t d u w H J|t d u w H J];
    destruct H; try destruct J; reflexivity.
Qed.

Lemma flow_printed : forall d w, flow_value (print_flow d w) d w.
Proof.
  intros d w; destruct d, w; cbn;
    first [apply fv_both; constructor | apply fv_direction; constructor
          | apply fv_wrap; constructor].
Qed.

Lemma flow_accepted : forall l d w,
  parse_flow l = Some (d, w) -> l <> [] -> flow_value l d w.
Proof.
  intros l d w H N; unfold parse_flow in H.
  destruct l as [|t l]; [congruence|]; clear N.
  cbn [flow_loop] in H.
  destruct (parse_direction t) as [v|] eqn:E.
  - apply parse_direction_iff in E.
    destruct l as [|u l]; cbn [flow_loop] in H.
    + injection H as <- <-; apply fv_direction; exact E.
    + destruct (parse_wrap u) as [x|] eqn:F; [|discriminate H].
      apply parse_wrap_iff in F.
      destruct l as [|y l]; cbn [flow_loop] in H; [|discriminate H].
      injection H as <- <-; apply fv_both; assumption.
  - destruct (parse_wrap t) as [x|] eqn:F; [|discriminate H].
    apply parse_wrap_iff in F.
    destruct l as [|u l]; cbn [flow_loop] in H.
    + injection H as <- <-; apply fv_wrap; exact F.
    + destruct (parse_direction u) as [v|] eqn:G; [|discriminate H].
      apply parse_direction_iff in G.
      destruct l as [|y l]; cbn [flow_loop] in H; [|discriminate H].
      injection H as <- <-; apply fv_swapped; assumption.
Qed.

Lemma flex_read : forall l g s b, flex_value l g s b -> parse_flex l = Some (g, s, b).
Proof.
  intros l g s b H.
  destruct H as [|l g s F|t b B|l g s t b F B|l g s t b F B|g s G S'];
    try destruct F; try destruct B; reflexivity.
Qed.

Lemma flex_printed : forall g s b,
  (0 <= g)%Z -> (0 <= s)%Z -> flex_value (print_flex g s b) g s b.
Proof.
  intros g s b G K; unfold print_flex.
  destruct (Z.eqb_spec g 0) as [->|G0]; destruct (Z.eqb_spec s 0) as [->|S0];
    destruct b; cbn [andb basis_eqb kind kind_eqb negb orb print_basis];
    try apply xv_none;
    repeat match goal with
    | |- context [Z.eqb ?a 1] =>
        let E := fresh "E" in destruct (Z.eqb_spec a 1) as [E|E];
        [rewrite ?E in *; try lia | ]
    end; cbn [negb orb app andb];
    first
      [ apply xv_zero; lia
      | apply xv_factors; constructor; lia
      | apply xv_basis; constructor
      | apply (xv_factors_basis [_]); constructor; lia
      | apply (xv_factors_basis [_; _]); constructor; lia ].
Qed.

Lemma parse_basis_cases : forall t b,
  parse_basis t = Some b ->
  clear_basis t b \/ (t = Num 0%Z /\ b = ZeroLength).
Proof.
  intros t b H; destruct t as [w|z| | |n]; cbn [parse_basis] in H.
  - destruct (String.eqb_spec w "auto"); [|discriminate H].
    subst; injection H as <-; left; constructor.
  - destruct (Z.eqb_spec z 0); [|discriminate H].
    subst; injection H as <-; right; split; reflexivity.
  - injection H as <-; left; constructor.
  - injection H as <-; left; constructor.
  - injection H as <-; left; constructor.
Qed.

Lemma parse_number_iff : forall t z, parse_number t = Some z -> t = Num z.
Proof. intros [w|k| | |n] z H; try discriminate H; injection H as ->; reflexivity. Qed.

Lemma flex_accepted : forall l g s b,
  parse_flex l = Some (g, s, b) -> l <> [] -> (0 <= g)%Z -> (0 <= s)%Z ->
  flex_value l g s b.
Proof.
  intros l g s b H N G K; unfold parse_flex in H.
  destruct l as [|t l]; [congruence|]; clear N.
  destruct (match t with Word w => (w =? "none")%string | _ => false end) eqn:E.
  - destruct t as [w| | | |]; try discriminate E.
    apply String.eqb_eq in E; subst w.
    destruct l; [|discriminate H]. injection H as <- <- <-; constructor.
  - cbn [List.length flex_loop] in H.
    destruct (parse_number t) as [v|] eqn:P.
    + apply parse_number_iff in P; subst t.
      destruct l as [|u l].
      * cbn [flex_loop] in H; injection H as <- <- <-; apply xv_factors; constructor; exact G.
      * destruct (parse_number u) as [k|] eqn:Q.
        -- apply parse_number_iff in Q; subst u. cbn [List.length flex_loop] in H.
           destruct l as [|x l].
           ++ injection H as <- <- <-; apply xv_factors; constructor; assumption.
           ++ destruct (parse_basis x) as [y|] eqn:B; [|discriminate H].
              destruct l as [|z l]; cbn [List.length flex_loop] in H; [|discriminate H].
              injection H as <- <- <-.
              destruct (parse_basis_cases _ _ B) as [C|[-> ->]].
              ** apply (xv_factors_basis [_; _]); [constructor; assumption|exact C].
              ** apply xv_zero; assumption.
        -- cbn [List.length flex_loop] in H.
           destruct (parse_basis u) as [y|] eqn:B; [|discriminate H].
           destruct l as [|z l]; cbn [List.length flex_loop] in H; [|discriminate H].
           injection H as <- <- <-.
           destruct (parse_basis_cases _ _ B) as [C|[-> ->]]; [|discriminate Q].
           apply (xv_factors_basis [_]); [constructor; assumption|exact C].
    + destruct (parse_basis t) as [y|] eqn:B; [|discriminate H].
      destruct (parse_basis_cases _ _ B) as [C|[-> ->]]; [|discriminate P].
      destruct l as [|u l].
      * cbn [flex_loop] in H; injection H as <- <- <-; apply xv_basis; exact C.
      * cbn [List.length flex_loop] in H.
        destruct (parse_number u) as [v|] eqn:Q; [|discriminate H].
        apply parse_number_iff in Q; subst u.
        destruct l as [|x l].
        -- cbn [flex_loop] in H; injection H as <- <- <-.
           apply xv_basis_factors; [constructor; assumption|exact C].
        -- destruct (parse_number x) as [k|] eqn:R; cbn [List.length flex_loop] in H.
           ++ apply parse_number_iff in R; subst x.
              destruct l as [|z l]; cbn [List.length flex_loop] in H; [|discriminate H].
              injection H as <- <- <-.
              apply xv_basis_factors; [constructor; assumption|exact C].
           ++ discriminate H.
Qed.
