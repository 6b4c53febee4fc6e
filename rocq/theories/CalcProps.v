(** * Properties of math functions *)
From Coq Require Import List Bool ZArith QArith String Lia.
From Verif Require Import CalcModel CalcSpec CalcArithProofs CalcProofs CalcTypeProofs CalcFuelProofs CalcAcceptProofs CalcPrintProofs
  CalcFinalProofs CalcExamples.
Import ListNotations.
Local Open Scope Q_scope.

(** ** C35: reading keeps the value *)
Theorem C35_length_percentages_partial : forall s root n e d, no_negative_size s -> good_root root ->
  plain (lp_px s) root e -> eval (lp_px s) root e <> None -> parse_dp lp_type root n e = Ok d ->
  same_value (eval (lp_px s) root e) (dp_eval (lp_px s) root d).
Proof. intros s root n e d S R. exact (parse_dp_sound lp_type (lp_px s) root (lp_lawful s S) R n e d). Qed.
Print Assumptions C35_length_percentages_partial.
Theorem C35_lengths_partial : forall s root n e d, no_negative_size s -> good_root root ->
  plain (length_px s) root e -> eval (length_px s) root e <> None -> parse_dp length_type root n e = Ok d ->
  same_value (eval (length_px s) root e) (dp_eval (length_px s) root d).
Proof. intros s root n e d S R. exact (parse_dp_sound length_type (length_px s) root (length_lawful s S) R n e d). Qed.
Print Assumptions C35_lengths_partial.
Theorem C35_times_partial : forall root n e t, good_root root ->
  plain time_seconds root e -> eval time_seconds root e <> None -> parse_flat time_type root n e = Ok t ->
  same_value (eval time_seconds root e) (Some (KVal, time_seconds t)).
Proof. intros root n e t R. exact (parse_flat_sound time_type time_seconds root time_lawful R n e t). Qed.
Print Assumptions C35_times_partial.
Theorem C35_angles_partial : forall rad root n e a, 0 <= rad -> good_root root ->
  plain (angle_degrees rad) root e -> eval (angle_degrees rad) root e <> None -> parse_flat (angle_type rad) root n e = Ok a ->
  same_value (eval (angle_degrees rad) root e) (Some (KVal, angle_degrees rad a)).
Proof. intros rad root n e a P R. exact (parse_flat_sound (angle_type rad) (angle_degrees rad) root (angle_lawful rad P) R n e a). Qed.
Print Assumptions C35_angles_partial.
Theorem C35_percentages_partial : forall base root n e p, 0 <= base -> good_root root ->
  plain (percentage_size base) root e -> eval (percentage_size base) root e <> None ->
  parse_percentage percentage_type root n e = Ok (Some p) ->
  same_value (eval (percentage_size base) root e) (Some (KVal, percentage_size base p)).
Proof.
  intros base root n e p B R. exact (parse_percentage_sound percentage_type (percentage_size base) root (percentage_lawful base B) R n e p).
Qed.
Print Assumptions C35_percentages_partial.

(** round(-15px, 10px) is -10px and is read as -20px. *)
Theorem C35_rounding_ties_refuted : exists e, misread lp_type (lp_px desktop) square_root e.
Proof.
  exists (ERound SNearest (px (-15)) (px 10)), 9%nat. eexists. split; [reflexivity|]. split; [discriminate|]. vm_compute. intros [_ H]. discriminate.
Qed.
Print Assumptions C35_rounding_ties_refuted.
(** round(up, 5px, -10px) is 10px and is read as 0px. *)
Theorem C35_negative_steps_refuted : exists a b, misread lp_type (lp_px desktop) square_root (ERound SUp a b).
Proof.
  exists (px 5), (px (-10)), 9%nat. eexists. split; [reflexivity|]. split; [discriminate|]. vm_compute. intros [_ H]. discriminate.
Qed.
Print Assumptions C35_negative_steps_refuted.
(** hypot(-1px) is 1px and is read as -1px. *)
Theorem C35_single_hypot_refuted : exists e, misread lp_type (lp_px desktop) square_root (EHypot [e]).
Proof.
  exists (px (-1)), 9%nat. eexists. split; [reflexivity|]. split; [discriminate|]. vm_compute. intros [_ H]. discriminate.
Qed.
Print Assumptions C35_single_hypot_refuted.
(** hypot(1pc, 0pc, 0px) is 16px and is read as 4px, for every square root. *)
Theorem C35_hypot_units_refuted : forall root, good_root root -> exists a b c, misread lp_type (lp_px desktop) root (EHypot [a; b; c]).
Proof.
  intros root R. exists (pc 1), (pc 0), (px 0). exact (hypot_units root R).
Qed.
Print Assumptions C35_hypot_units_refuted.
(** min(10%, 20%) of a negative length is 20% of it and is read as 10%. *)
Theorem C35_negative_percentages_refuted : exists s e, misread lp_type (lp_px s) square_root (EMin e).
Proof.
  exists (Sizes (relative desktop) (-100)), [pct 10; pct 20], 9%nat. eexists. split; [reflexivity|]. split; [discriminate|]. vm_compute. intros [_ H]. discriminate.
Qed.
Print Assumptions C35_negative_percentages_refuted.
(** calc(1px * sign(1vw)) in a window without width is 0px and is read as 1px. *)
Theorem C35_vanishing_sign_refuted : exists s e, no_negative_size s /\ misread lp_type (lp_px s) square_root e.
Proof.
  exists (Sizes (fun _ => 0) 100), (ECalc (EMul (px 1) (ESign (vw 1)))). split; [split; [intros u|]; discriminate|].
  exists 9%nat. eexists. split; [reflexivity|]. split; [discriminate|]. vm_compute. intros [_ H]. discriminate.
Qed.
Print Assumptions C35_vanishing_sign_refuted.

(** calc(2 * (10px + 5%) - max(1em, 3vw) * 2 + 1in) meets the conditions and is 108px wide. *)
Example C35_mixed : plain (lp_px desktop) square_root mixed /\ eval (lp_px desktop) square_root mixed = Some (KVal, 10800 # 100) /\
  exists c, parse_dp lp_type square_root 20 mixed = Ok (DCalc (FCalc c)).
Proof. split; [exact mixed_plain|]. split; [vm_compute; reflexivity|]. eexists. reflexivity. Qed.
Example C35_clamped : plain (lp_px desktop) square_root clamped /\ same_value (eval (lp_px desktop) square_root clamped) (Some (KVal, 16)) /\
  exists a b c, parse_dp lp_type square_root 20 clamped = Ok (DCalc (FClamp a b c)).
Proof. split; [exact clamped_plain|]. split; [vm_compute; split; reflexivity|]. do 3 eexists. reflexivity. Qed.
Example C35_hypotenuse : good_root square_root /\ plain (lp_px desktop) square_root hypotenuse /\
  parse_dp lp_type square_root 20 hypotenuse = Ok (DLeaf (LPLength (LV Px 50))).
Proof. split; [exact square_root_good|]. split; [exact hypotenuse_plain | reflexivity]. Qed.
(** calc(1s + 500ms) *)
Example C35_time : exists t, parse_flat time_type square_root 9 (ECalc (EAdd (EVal (Seconds 1)) (EVal (Milliseconds 500)))) = Ok t /\
  time_seconds t == 3 # 2.
Proof. eexists. split; [reflexivity | reflexivity]. Qed.

(** ** C36: printed math functions have the same value, read with the precedence of CSS in the only way there is *)
Theorem C36_length_percentages_partial : forall s root n e d compile_clamp, no_negative_size s -> good_root root ->
  plain (lp_px s) root e -> no_zero_factor (lp_px s) root e -> proper_root e ->
  eval (lp_px s) root e <> None -> parse_dp lp_type root n e = Ok d ->
  exists e', reads (print_dp lp_type compile_clamp d) e' /\
    (forall e'', reads (print_dp lp_type compile_clamp d) e'' -> e'' = e') /\
    same_value (eval (lp_px s) root e) (eval (lp_px s) root e').
Proof. intros s root n e d cc S R. exact (print_back lp_type (lp_px s) root (lp_lawful s S) R n e d cc). Qed.
Print Assumptions C36_length_percentages_partial.
Theorem C36_lengths_partial : forall s root n e d compile_clamp, no_negative_size s -> good_root root ->
  plain (length_px s) root e -> no_zero_factor (length_px s) root e -> proper_root e ->
  eval (length_px s) root e <> None -> parse_dp length_type root n e = Ok d ->
  exists e', reads (print_dp length_type compile_clamp d) e' /\
    (forall e'', reads (print_dp length_type compile_clamp d) e'' -> e'' = e') /\
    same_value (eval (length_px s) root e) (eval (length_px s) root e').
Proof. intros s root n e d cc S R. exact (print_back length_type (length_px s) root (length_lawful s S) R n e d cc). Qed.
Print Assumptions C36_lengths_partial.
(** min(1px + 1em) is printed as the sum alone. *)
Theorem C36_single_argument_refuted : exists n e d, plain (lp_px desktop) square_root e /\
  no_zero_factor (lp_px desktop) square_root e /\ parse_dp lp_type square_root n e = Ok d /\
  forall e', ~ reads (print_dp lp_type false d) e'.
Proof.
  exists 9%nat, (EMin [EAdd (px 1) (em 1)]). eexists. split; [cbn; tauto|]. split; [cbn; tauto|]. split; [reflexivity|].
  intros e' (m & H). destruct m as [|m]; [discriminate|]. discriminate.
Qed.
Print Assumptions C36_single_argument_refuted.
(** calc(0 * min(1px, 1em)) is printed with a division by one over zero. *)
Theorem C36_zero_factor_refuted : exists n e d e', plain (lp_px desktop) square_root e /\ proper_root e /\
  eval (lp_px desktop) square_root e <> None /\ parse_dp lp_type square_root n e = Ok d /\
  reads (print_dp lp_type false d) e' /\ eval (lp_px desktop) square_root e' = None.
Proof.
  exists 9%nat, (ECalc (EMul (ENum 0) (EMin [px 1; em 1]))). do 2 eexists. split; [cbn; tauto|]. split; [exact I|].
  split; [discriminate|]. split; [reflexivity|]. split; [exists 20%nat; reflexivity | reflexivity].
Qed.
Print Assumptions C36_zero_factor_refuted.
Example C36_mixed : plain (lp_px desktop) square_root mixed /\ no_zero_factor (lp_px desktop) square_root mixed /\ proper_root mixed.
Proof. split; [exact mixed_plain|]. split; [exact mixed_factors | exact I]. Qed.

(** ** C54: well-formed math functions are read *)
Theorem C54_length_percentages_partial : forall s root e, no_negative_size s -> good_root root ->
  plain (lp_px s) root e -> no_sign e -> flat e -> closed e = true -> eval (lp_px s) root e <> None ->
  exists N d, forall n, (N <= n)%nat -> parse_dp lp_type root n e = Ok d.
Proof. intros s root e S R. exact (parse_dp_total lp_type (lp_px s) root (lp_lawful s S) R eq_refl e). Qed.
Print Assumptions C54_length_percentages_partial.
Theorem C54_lengths_partial : forall s root e, no_negative_size s -> good_root root ->
  plain (length_px s) root e -> no_sign e -> flat e -> closed e = true -> eval (length_px s) root e <> None ->
  exists N d, forall n, (N <= n)%nat -> parse_dp length_type root n e = Ok d.
Proof. intros s root e S R. exact (parse_dp_total length_type (length_px s) root (length_lawful s S) R eq_refl e). Qed.
Print Assumptions C54_lengths_partial.
Theorem C54_times_partial : forall root e x, good_root root ->
  plain time_seconds root e -> closed e = true -> eval time_seconds root e = Some (KVal, x) ->
  exists t, forall n, (3 <= n)%nat -> parse_flat time_type root n e = Ok t.
Proof. intros root e x R. exact (parse_flat_total time_type time_seconds root time_lawful R time_total e x). Qed.
Print Assumptions C54_times_partial.
Theorem C54_angles_partial : forall rad root e x, 0 <= rad -> good_root root ->
  plain (angle_degrees rad) root e -> closed e = true -> eval (angle_degrees rad) root e = Some (KVal, x) ->
  exists a, forall n, (3 <= n)%nat -> parse_flat (angle_type rad) root n e = Ok a.
Proof.
  intros rad root e x P R.
  exact (parse_flat_total (angle_type rad) (angle_degrees rad) root (angle_lawful rad P) R (angle_total rad) e x).
Qed.
Print Assumptions C54_angles_partial.
Theorem C54_percentages_partial : forall base root e x, 0 <= base -> good_root root ->
  plain (percentage_size base) root e -> no_map e -> closed e = true -> eval (percentage_size base) root e = Some (KVal, x) ->
  exists p, forall n, (3 <= n)%nat -> parse_percentage percentage_type root n e = Ok (Some p).
Proof.
  intros base root e x B R.
  exact (parse_percentage_total percentage_type (percentage_size base) root (percentage_lawful base B) R percentage_total2 e x).
Qed.
Print Assumptions C54_percentages_partial.
(** calc((1px + 1em) + (1vw + 1vh)) is never read to the end. *)
Theorem C54_nested_sums_refuted : exists e, plain (lp_px desktop) square_root e /\ no_sign e /\ closed e = true /\
  eval (lp_px desktop) square_root e <> None /\ forall n, parse_dp lp_type square_root n e = Loop.
Proof.
  exists endless. split; [cbn; tauto|]. split; [cbn; tauto|]. split; [reflexivity|]. split; [discriminate | exact (simp_endless square_root)].
Qed.
Print Assumptions C54_nested_sums_refuted.
(** calc(1px * sign(1em - 10px)) is not accepted. *)
Theorem C54_signs_refuted : exists e, plain (lp_px desktop) square_root e /\ flat e /\ closed e = true /\
  eval (lp_px desktop) square_root e <> None /\ forall n, (9 <= n)%nat -> parse_dp lp_type square_root n e = Err.
Proof. exists sign_of_sum. exact sign_of_sum_rejected. Qed.
Print Assumptions C54_signs_refuted.
(** abs(10%) makes the reader of percentages panic. *)
Theorem C54_percentage_panics_refuted : exists e, plain (percentage_size 100) square_root e /\ closed e = true /\
  eval (percentage_size 100) square_root e <> None /\ forall n, parse_percentage percentage_type square_root n e = Ok None.
Proof. exists (EAbs (EVal (1 # 10))). split; [exact I|]. split; [reflexivity|]. split; [discriminate | reflexivity]. Qed.
Print Assumptions C54_percentage_panics_refuted.
(** calc(5) is accepted as a length, and as a percentage it makes the reader panic. *)
Theorem C54_numbers_refuted : exists e, (forall s root, eval (lp_px s) root e = Some (KNum, 5)) /\
  forall root n, parse_dp lp_type root n e = Ok (DCalc (CNum 5)).
Proof. exists (ECalc (ENum 5)). split; reflexivity. Qed.
Print Assumptions C54_numbers_refuted.
Example C54_mixed : no_sign mixed /\ flat mixed /\ closed mixed = true.
Proof. split; [cbn; tauto|]. split; [cbn; tauto | reflexivity]. Qed.
Example C54_time : closed (EMin [EVal (Seconds 2); EAbs (EAdd (EVal (Seconds 1)) (EVal (Milliseconds 500)))]) = true /\
  plain time_seconds square_root (EMin [EVal (Seconds 2); EAbs (EAdd (EVal (Seconds 1)) (EVal (Milliseconds 500)))]) /\
  eval time_seconds square_root (EMin [EVal (Seconds 2); EAbs (EAdd (EVal (Seconds 1)) (EVal (Milliseconds 500)))]) = Some (KVal, 1500 # 1000).
Proof. split; [reflexivity|]. split; [cbn; tauto | vm_compute; reflexivity]. Qed.
