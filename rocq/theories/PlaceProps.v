(** * C57: position values keep the place that they stand for *)
From Coq Require Import List QArith.
From Verif Require Import PlaceModel PlaceSpec PlaceProofs.
Import ListNotations.
Local Open Scope Q_scope.

(** Every position of the grammar is read, up to a token that does not belong to it.  What is printed for it is a
    position of the grammar, at the same place in every area, in whatever way it is read. *)
Theorem C57_kept : forall (L : Type) (zero_length : L) (is_zero_length : L -> bool) (value : L -> Q -> Q),
  (forall room, value zero_length room == 0) -> (forall l room, is_zero_length l = true -> value l room == 0) ->
  forall minify u x y r, means u x y -> stops r ->
  exists p, parse (u ++ r) = Some (p, r)
    /\ (exists x' y', means (print zero_length is_zero_length minify p) x' y')
    /\ forall x' y', means (print zero_length is_zero_length minify p) x' y' -> same value x x' /\ same value y y'.
Proof. exact (fun L z i v H1 H2 m => kept z i v H1 H2 m). Qed.
Print Assumptions C57_kept.
(** [right 1px bottom 2px], and [center left] before another token *)
Example C57_kept_case : means [TRight; TLp (Dim 1); TBottom; TLp (Dim 2)] (Axis true (Dim 1)) (Axis true (Dim 2))
  /\ parse [TCenter; TLeft; TOther 0] = Some (@Position Q (Side false None) Center, [TOther 0])
  /\ print 0 (fun q => Qeq_bool q 0) true (Position (Side false None) Center) = [TLp (Dim 0)].
Proof. split; [apply (Parts [TRight; TLp (Dim 1)] _ [TBottom; TLp (Dim 2)]); repeat constructor|]. split; reflexivity. Qed.

(** What is read is a position of the grammar, with the meaning of the grammar *)
Theorem C57_read : forall L (t : list (token L)) p r, parse t = Some (p, r) ->
  exists u, t = u ++ r /\ means u (component_axis (px p)) (component_axis (py p)).
Proof. exact (@parse_sound). Qed.
Print Assumptions C57_read.
(** [top 1px] is no position: the offset is left over *)
Example C57_read_case : parse [TTop; TLp (Dim 1)] = Some (@Position Q Center (Side false None), [TLp (Dim 1)]).
Proof. reflexivity. Qed.

(** Positions that were not read from text keep their place as well *)
Theorem C57_printed : forall (L : Type) (zero_length : L) (is_zero_length : L -> bool) (value : L -> Q -> Q),
  (forall room, value zero_length room == 0) -> (forall l room, is_zero_length l = true -> value l room == 0) ->
  forall minify p, (exists x y, means (print zero_length is_zero_length minify p) x y)
    /\ forall x y, means (print zero_length is_zero_length minify p) x y -> same value (component_axis (px p)) x /\ same value (component_axis (py p)) y.
Proof.
  exact (fun L z i v H1 H2 m p => conj (match print_means z i v H1 H2 m p with ex_intro _ x (ex_intro _ y (conj M _)) => ex_intro _ x (ex_intro _ y M) end) (printed z i v H1 H2 m p)).
Qed.
Print Assumptions C57_printed.
Example C57_printed_case : print 0 (fun q => Qeq_bool q 0) true (Position (Length (Dim 1)) (Side true (Some (Pct 1)))) = [TLeft; TLp (Dim 1); TBottom; TLp (Pct 1)].
Proof. reflexivity. Qed.

(** No values are added, and the syntax with three values, which few properties accept, is only printed for itself *)
Theorem C57_values : forall (L : Type) (zero_length : L) (is_zero_length : L -> bool) minify u x y p,
  means u x y -> parse u = Some (p, []) ->
  (length (print zero_length is_zero_length minify p) <= length u)%nat
  /\ (~ three_values u -> ~ three_values (print zero_length is_zero_length minify p)).
Proof. exact (fun L z i m => values_kept z i m). Qed.
Print Assumptions C57_values.
Example C57_values_case : parse [TLeft; TLp (Dim 1); TTop; TLp (Dim 0)] = Some (Position (Side false (Some (Dim 1))) (Side false (Some (Dim 0))), [])
  /\ print 0 (fun q => Qeq_bool q 0) true (Position (Side false (Some (Dim 1))) (Side false (Some (Dim 0)))) = [TLp (Dim 1); TLp (Dim 0)].
Proof. split; reflexivity. Qed.
