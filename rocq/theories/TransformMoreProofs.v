(** * Proofs about lists that are read, and about the individual properties as functions *)
From Coq Require Import Reals List Bool Lra.
From Verif Require Import MatrixModel MatrixProofs TransformModel TransformSpec TransformProofs.
Import ListNotations.
Local Open Scope R_scope.

Section More.
Context {LP LN : Type}.
Variable lp_zero : LP. Variable ln_zero : LN.
Variable lp_value : LP -> R -> R.
Variable ln_value : LN -> R.
Hypothesis lp_zero_value : forall b, lp_value lp_zero b = 0.
Hypothesis ln_zero_value : ln_value ln_zero = 0.
Variables width height : R.
Notation css_calls := (css_calls lp_value ln_value width height).
Notation list_effect := (list_effect lp_value ln_value width height).
Lemma calls_sound l : forall ts, parse_calls lp_zero l = (ts, []) -> Forall (valid ln_value) ts -> exists f, css_calls l f /\ same f (list_effect ts) /\ List.length ts = List.length l.
Proof.
  induction l as [|c l IH]; intros ts H V; cbn [parse_calls] in H.
  - injection H as <-. exists (fun p => p). split; [constructor|split; [apply same_refl|reflexivity]].
  - destruct (parse_transform lp_zero c) as [t|] eqn:E; [|discriminate H]. destruct (parse_calls lp_zero l) as [ts' rest] eqn:P. injection H as <- ->.
    apply Forall_cons_iff in V as [Vt V]. destruct (IH ts' eq_refl V) as (g & G & S & L). destruct (read_sound lp_zero lp_value ln_value lp_zero_value width height c t E Vt) as (f & F & S').
    exists (fun p => f (g p)). split; [constructor; assumption|]. split; [|cbn; congruence]. intros p. cbn. unfold TransformSpec.list_effect in S. rewrite S. apply S'.
Qed.
Lemma list_sound t ts : parse_list lp_zero t = Some (ts, []) -> Forall (valid ln_value) ts ->
  exists f, css_text lp_value ln_value width height t f /\ same_option f (match ts with [] => None | _ => Some (list_effect ts) end).
Proof.
  destruct t as [l|]; cbn [parse_list]; intros H V.
  - destruct (parse_calls lp_zero l) as [ts' rest] eqn:P. destruct ts' as [|t ts']; [discriminate H|]. injection H as <- ->.
    destruct (calls_sound l _ P V) as (f & F & S & L). exists (Some f). split; [|exact S]. destruct l as [|c l]; [discriminate L|]. constructor. exact F.
  - injection H as <-. exists None. split; [constructor|exact I].
Qed.
Lemma translate_same v : same (transform_effect lp_value ln_value width height (translate_transform lp_zero ln_zero v)) (or_nothing (translate_effect lp_value ln_value width height v)).
Proof. destruct v; [|apply same_refl]. intros [[[x y] z] w]. cbn. rewrite !lp_zero_value, ln_zero_value. repeat f_equal; ring. Qed.
Lemma rotate_same v : same (transform_effect lp_value ln_value width height (@rotate_transform LP LN v)) (or_nothing (rotate_effect v)).
Proof.
  destruct v; [|apply same_refl]. intros p. cbn [rotate_transform transform_effect]. rewrite turn_1z. destruct p as [[[x y] z] w]. cbn. replace (0 * PI / 180) with 0 by field. rewrite cos_0, sin_0. repeat f_equal; ring.
Qed.
Lemma scale_same v : same (transform_effect lp_value ln_value width height (@scale_transform LP LN v)) (or_nothing (scale_effect v)).
Proof. destruct v; [|apply same_refl]. intros [[[x y] z] w]. cbn. repeat f_equal; ring. Qed.
End More.
