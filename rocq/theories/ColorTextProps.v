(** * C67: colour functions are read as CSS Color says, and printed so that they are read back *)
From Coq Require Import Reals ZArith Bool List String Lra.
From Verif Require Import ColorSpaceModel ColorSpaceSpec ColorMixModel ColorMixSpec ColorTextModel ColorTextSpec ColorTextProofs.
Import ListNotations.
Local Open Scope R_scope.
Local Open Scope string_scope.

(** The texts that are read, and the colours that they are read as: those of CSS save where [read_dialect] differs *)
Theorem C67_read_partial : forall t c, proper t -> (parse_color t = Ok c <-> color_text read_dialect t c).
Proof. exact parse_iff. Qed.
Print Assumptions C67_read_partial.

(** What CSS allows is read as CSS says.  Missing: relative colours that are not [careful]. *)
Theorem C67_css_partial : forall t c, proper t -> careful t -> color_text css_dialect t c -> parse_color t = Ok c.
Proof. exact parse_css. Qed.
Print Assumptions C67_css_partial.

(** A colour that was read is printed as a text of CSS that is read as the same colour.  Missing: results of color-mix(). *)
Theorem C67_print_partial : forall t c, proper t -> no_mix t -> parse_color t = Ok c ->
  exists c', parse_color (print c) = Ok c' /\ color_text css_dialect (print c) c' /\ reads_as c c'.
Proof. exact print_round_trip. Qed.
Print Assumptions C67_print_partial.

(** A relative colour without an alpha does not have the alpha of its origin *)
Theorem C67_alpha_refuted : exists t c c', proper t /\ color_text css_dialect t c /\ parse_color t = Ok c' /\ c' <> c.
Proof. exact alpha_refuted. Qed.
Print Assumptions C67_alpha_refuted.
(** calc(h + 60) is not read *)
Theorem C67_hue_refuted : exists t c, proper t /\ color_text css_dialect t c /\ parse_color t = Fail.
Proof. exact hue_refuted. Qed.
Print Assumptions C67_hue_refuted.
(** calc(calc(l)) is not read *)
Theorem C67_nested_refuted : exists t c, proper t /\ color_text css_dialect t c /\ parse_color t = Fail.
Proof. exact nested_refuted. Qed.
Print Assumptions C67_nested_refuted.
(** hsl(120, 50, 50) is read *)
Theorem C67_old_refuted : exists t c, proper t /\ parse_color t = Ok c /\ forall c', ~ color_text css_dialect t c'.
Proof. exact old_refuted. Qed.
Print Assumptions C67_old_refuted.
(** lab(calc(1% + 1) 0 0) crashes *)
Theorem C67_crash_refuted : exists t, proper t /\ parse_color t = Crash.
Proof. exact crash_refuted. Qed.
Print Assumptions C67_crash_refuted.

(** Not vacuous: light-dark(oklab(40% calc(2 * 0.1) none / 30%), lab(from lab(50 10 20 / 0.5) l b a / alpha)), read and printed *)
Definition example : token :=
  Fn "light-dark" [Fn "oklab" [Percentage 0.4; Calc (XMul (XNumber 2) (XNumber 0.1)); Ident "none"; Slash; Percentage 0.3]; CommaToken;
                   Fn "lab" [Ident "from"; Fn "lab" [Number 50; Number 10; Number 20; Slash; Number 0.5]; Ident "l"; Ident "b"; Ident "a"; Slash; Ident "alpha"]].
Definition read_example : css :=
  LightDark (Plain OKLAB (Comps (Some (0.4 * 1)) (Some (2 * 0.1)) None (Some (0.3 * 1)))) (Plain LAB (Comps (Some 50) (Some 20) (Some 10) (Some 0.5))).
Example example_allowed : proper example /\ careful example /\ no_mix example.
Proof.
  split; [cbn; tauto|]. split.
  - cbn [careful fold_right example].
    assert (B : careful_body "lab" [Ident "l"; Ident "b"; Ident "a"; Slash; Ident "alpha"]).
    { split; [cbn; tauto|]. split.
      - intros e H. cbn in H. repeat (destruct H as [H|H]; [discriminate|]). contradiction.
      - intros n. do 5 (destruct n as [|n]; [cbn; discriminate|]). destruct n; cbn; discriminate. }
    repeat match goal with
    | |- True => exact I
    | |- _ /\ _ => split
    | |- forall o l, _ = _ -> _ => let E := fresh "E" in intros ? ? E; first [discriminate E | injection E as <- <-; exact B]
    end.
  - cbn. repeat split; discriminate.
Qed.
Example example_text : color_text css_dialect example read_example.
Proof.
  apply (TextLightDark css_dialect _ _ (Plain OKLAB (Comps (Some (0.4 * 1)) (Some (2 * 0.1)) None (Some (0.3 * 1)))) (Plain LAB (Comps (Some 50) (Some 20) (Some 10) (Some 0.5)))).
  - eapply TextAbsolute; [right; left; reflexivity|]. eapply (LabText css_dialect no_source OKLAB 1 0.4).
    + right; left; reflexivity.
    + apply (CPercentage css_dialect no_keywords 1 (Percentage 0.4) (Some 0.4)). constructor.
    + cbn. lra.
    + apply CNumber. constructor. apply (MMul css_dialect no_keywords _ _ TNumber (Some 2) (Some 0.1)); constructor.
    + apply CNone.
    + eapply AlphaGiven; [apply (CPercentage css_dialect no_keywords 1 (Percentage 0.3) (Some 0.3)); constructor|].
      cbn. unfold Rmax, Rmin. destruct (Rle_dec (0.3 * 1) 1); destruct (Rle_dec 0 _); lra.
  - eapply TextRelative; [left; reflexivity|apply half_lab_text|]. apply HalvesOne; [reflexivity|]. eexists. split; [apply lab_self|].
    eapply (LabText css_dialect _ LAB 100 125).
    + left; reflexivity.
    + apply CNumber; constructor; cbn; left; reflexivity.
    + cbn; lra.
    + apply CNumber; constructor; cbn; right; right; left; reflexivity.
    + apply CNumber; constructor; cbn; right; left; reflexivity.
    + eapply AlphaGiven; [apply CNumber; constructor; cbn; do 3 right; left; reflexivity|].
      cbn. unfold Rmax, Rmin. destruct (Rle_dec 0.5 1); destruct (Rle_dec 0 _); lra.
Qed.
Example example_read : parse_color example = Ok read_example.
Proof. destruct example_allowed as [P [C _]]. exact (C67_css_partial _ _ P C example_text). Qed.
Example example_printed : exists c', parse_color (print read_example) = Ok c' /\ reads_as read_example c'.
Proof.
  destruct example_allowed as [P [_ N]]. destruct (C67_print_partial _ _ P N example_read) as [c' [A [_ B]]]. exists c'. auto.
Qed.
