(** * The theorems about blocks, and counterexamples *)

From Coq Require Import List String Bool ZArith Lia.
From Verif Require Import FlexModel FlexSpec FlexBlockProofs FlexExamples.
Import ListNotations.

Lemma block_kept : forall knows l s,
  readable l -> steady knows l s ->
  result_value knows (run no_targets l) s = source_value knows l s.
Proof.
  intros knows l s R S.
  apply (block_value no_targets knows l s); try assumption.
  - reflexivity.
  - intros _ p k H; exact H.
  - intros _ p k H; exact H.
  - right; split; reflexivity.
Qed.

Lemma block_aliases : forall l s,
  readable l ->
  result_value (fun _ => true) (run no_targets l) s
  = source_value (fun _ => true) l s.
Proof. intros l s R; apply block_kept; [exact R|left; reflexivity]. Qed.

Lemma block_targets : forall exclude include answers l s,
  (forall f b k, answers = Some (f, b) -> f k NoPrefix = true) ->
  readable l -> standard s = true -> steady (only NoPrefix) l s ->
  result_value (only NoPrefix) (run (given_targets exclude include answers) l) s
  = source_value (only NoPrefix) l s.
Proof.
  intros exclude include answers l s A R St S.
  apply (block_value (given_targets exclude include answers) (only NoPrefix) l s);
    try assumption.
  - intros p k; unfold known, only, all_prefixes; cbn [existsb prefix_eqb].
    rewrite !andb_false_r, !andb_true_r, !orb_false_r.
    unfold given_targets; cbn [prefixes].
    destruct (p NoPrefix) eqn:P; cbn [andb]; [|exact P].
    destruct exclude; cbn [negb]; [exact P|].
    destruct include; [reflexivity|].
    destruct answers as [[f b]|]; [exact (A f b k eq_refl)|exact P].
  - intros H; discriminate H.
  - intros H; discriminate H.
  - left; exact St.
Qed.

Lemma single_2009 : forall d f,
  f (Long Direction) Moz = true ->
  let out := run (given_targets false false (Some (f, true)))
               [DOne Direction (VDirection d) NoPrefix] in
  forall q, q = WebKit \/ q = Moz ->
  result_value (only q) out BoxOrient = Some (Given (axis d))
  /\ result_value (only q) out BoxDirection = Some (Given (way d)).
Proof.
  intros d f M out q Q; subst out.
  unfold run, given_targets; cbn -[all_prefixes empty]. unfold empty, prefixes_2009. cbn.
  rewrite M.
  destruct d; destruct Q as [-> | ->]; unfold result_value; cbn;
    rewrite ?M; cbn;
    repeat match goal with
    | |- context [if ?b then _ else _] => destruct b; cbn
    end; split; reflexivity.
Qed.

Lemma empty_flex :
  parse_flex [] = Some (1%Z, 1%Z, ZeroPercent) /\ (forall g s b, ~ flex_value [] g s b)
  /\ parse_flow [] = Some (Row, NoWrap) /\ (forall d w, ~ flow_value [] d w).
Proof.
  split; [reflexivity|]. split.
  - intros g s b H; inversion H as [|l g' s' F|t b' B|l g' s' t b' F B E|l g' s' t b' F B|];
      subst.
    + inversion F.
    + destruct l; discriminate E.
  - split; [reflexivity|]. intros d w H; inversion H.
Qed.

Lemma negative_flex :
  parse_flex [Num (-1)%Z] = Some ((-1)%Z, 1%Z, ZeroPercent)
  /\ forall g s b, ~ flex_value [Num (-1)%Z] g s b.
Proof.
  split; [reflexivity|]. intros g s b H.
  inversion H as [|l g' s' F|t b' B|l g' s' t b' F B E|l g' s' t b' F B|]; subst.
  - inversion F; lia.
  - inversion B.
  - destruct F; discriminate E.
  - inversion B.
Qed.

Lemma changed_prefix :
  readable changed
  /\ source_value (only Ms) changed Grow = Some (Given one)
  /\ result_value (only Ms) (run no_targets changed) Grow = Some (Given two).
Proof. split; [repeat constructor|split; reflexivity]. Qed.

Lemma legacy_order :
  readable positive_last
  /\ ie10_grow (fun p => prefix_eqb p Ms) positive_last = Some (Given two)
  /\ ie10_grow (fun ps : pset => ps Ms) (run no_targets positive_last) = Some (Given one).
Proof. split; [repeat constructor|split; reflexivity]. Qed.

Lemma legacy_dropped :
  readable orient
  /\ source_value (only WebKit) orient BoxOrient = Some (Given (Other 1))
  /\ result_value (only WebKit) (run modern orient) BoxOrient = None.
Proof. split; [repeat constructor|split; reflexivity]. Qed.

Lemma ordinal_zero :
  exists l, readable l /\
    result_value (only WebKit) (run old_webkit l) BoxOrdinalGroup = Some (Given (VNumber 0)).
Proof. exists [DOne Order (VNumber 0) NoPrefix]; split; [repeat constructor|reflexivity]. Qed.

Lemma flow_lines :
  result_value (only WebKit) (run old_webkit [DOne Wrap (VWrap WrapOn) NoPrefix]) BoxLines
    = Some (Given (Other 5))
  /\ result_value (only WebKit)
       (run old_webkit [DFlow (VDirection Row) (VWrap WrapOn) NoPrefix]) BoxLines = None.
Proof. split; reflexivity. Qed.
