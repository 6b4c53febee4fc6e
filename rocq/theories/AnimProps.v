(** * C58: the animation shorthand *)
From Coq Require Import List Bool QArith ZArith Ascii String.
From Verif Require Import AnimModel AnimSpec AnimProofs AnimPrintProofs.
Import ListNotations.
Local Open Scope string_scope.
Local Open Scope Q_scope.

(** A value is read as CSS says: each component goes to the longhand that CSS Animations chooses for it, and the
    longhands that are not given are initial *)
Theorem C58_read : forall t gs, shorthand t gs -> exists a, parse t = (a, []) /\ forall s, value (longhands a) s = value gs s.
Proof. exact (fun t gs H => parse_complete t gs (proj2 H)). Qed.
Print Assumptions C58_read.
(** Only such values are read *)
Theorem C58_accepted : forall t a, t <> [] -> parse t = (a, []) -> exists gs, shorthand t gs.
Proof. exact (fun t a E P => match parse_sound t a P with ex_intro _ gs R => ex_intro _ gs (conj E R) end). Qed.
Print Assumptions C58_accepted.
Theorem C58_unambiguous : forall t gs, shorthand t gs -> forall gs', shorthand t gs' -> forall s, value gs s = value gs' s.
Proof. exact (fun t gs H gs' H' => reads_unique _ _ _ (proj2 H) (proj2 H')). Qed.
Print Assumptions C58_unambiguous.
(** What is printed for it is again such a value, with the same longhands.  Missing: what [fine] excludes, see below,
    and empty strings. *)
Theorem C58_written_partial : forall t gs a, Forall (fun t => t <> TString "") t -> shorthand t gs -> parse t = (a, []) -> fine a ->
  (exists gs', shorthand (print a) gs') /\ forall gs', shorthand (print a) gs' -> same_values gs gs'.
Proof. exact written. Qed.
Print Assumptions C58_written_partial.

Definition example : list token := [TString "reverse"; TTime 2; TEasing (CubicBezier 0.42 0 1 1); TTime 1; TIdent "--scroller"; TIdent "BOTH"].
Definition example_read : animation := Animation (Str "reverse") 2 (CubicBezier 0.42 0 1 1) (Number 1) Normal Running 1 Both (Dashed "--scroller").
Example C58_read_example : parse example = (example_read, []).
Proof. reflexivity. Qed.
Example C58_written_example : print example_read = [TTime 2; TIdent "ease-in"; TTime 1; TIdent "normal"; TIdent "both"; TIdent "reverse"; TIdent "--scroller"].
Proof. reflexivity. Qed.
Example C58_fine_example : exists gs, shorthand example gs /\ fine example_read.
Proof.
  destruct (C58_accepted example example_read ltac:(discriminate) eq_refl) as [gs H]. exists gs. split; [exact H|].
  split; [|split]; [cbn; intuition discriminate|discriminate|discriminate].
Qed.

(** A name that is the keyword of an easing function in another letter case, [ease EASE 1s], is printed without the
    timing function, [1s EASE], and then is one *)
Theorem C58_name_case_refuted : exists t a gs gs', shorthand t gs /\ parse t = (a, []) /\ shorthand (print a) gs' /\ ~ given_eq (value gs SName) (value gs' SName).
Proof. exact name_case. Qed.
Print Assumptions C58_name_case_refuted.
(** The same for the count: ["Infinite" 1s] *)
Theorem C58_count_case_refuted : exists t a gs gs', shorthand t gs /\ parse t = (a, []) /\ shorthand (print a) gs' /\ ~ given_eq (value gs SCount) (value gs' SCount).
Proof. exact count_case. Qed.
Print Assumptions C58_count_case_refuted.
(** The timeline [none] is printed where it is the fill mode: [none foo none] becomes [foo none] *)
Theorem C58_timeline_refuted : exists t a gs gs', shorthand t gs /\ parse t = (a, []) /\ shorthand (print a) gs' /\ ~ given_eq (value gs STimeline) (value gs' STimeline).
Proof. exact timeline_lost. Qed.
Print Assumptions C58_timeline_refuted.
(** Without a name nothing else is printed: [1s] becomes [none] *)
Theorem C58_nameless_refuted : exists t a gs gs', shorthand t gs /\ parse t = (a, []) /\ shorthand (print a) gs' /\ ~ given_eq (value gs SDuration) (value gs' SDuration).
Proof. exact nameless. Qed.
Print Assumptions C58_nameless_refuted.
(** No components at all are accepted as a value *)
Theorem C58_empty_refuted : exists a, parse [] = (a, []) /\ forall gs, ~ shorthand [] gs.
Proof. exact (ex_intro _ _ (conj eq_refl (fun gs H => proj1 H eq_refl))). Qed.
Print Assumptions C58_empty_refuted.
