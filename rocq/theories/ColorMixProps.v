(** * C65: [color-mix()] *)
From Coq Require Import Reals ZArith Bool List String Lra Lia.
From Verif Require Import MatrixModel ColorSpaceModel ColorMixModel ColorMixSpec ColorMixProofs.
Import ListNotations.
Local Open Scope R_scope.

(** Two colours that are known and, if they are converted, without missing components are mixed as CSS Color 5 says,
    in every space and with every method, and also inside light-dark().  Missing: see C65_missing_refuted, C65_transparent_refuted. *)
Theorem C65_mix_partial s m p q a b :
  mixing s -> 0 < p + q -> covered s a -> covered s b ->
  exists out, interpolate s m p q a b = Some out /\ forall is_dark, correct_mix s m p q (used is_dark a) (used is_dark b) (used is_dark out).
Proof. exact (interpolate_correct s m p q a b). Qed.
Print Assumptions C65_mix_partial.

(** Colours whose value is not known are left alone *)
Theorem C65_unknown s m p q a b : mentions_unknown a \/ mentions_unknown b -> interpolate s m p q a b = None.
Proof. exact (interpolate_unknown s m p q a b). Qed.
Print Assumptions C65_unknown.

(** What the grammar describes is read with its meaning, and nothing else is read *)
Theorem C65_read s m p1 a p2 b l q1 q2 :
  mix_text s m p1 a p2 b l -> percentages p1 p2 q1 q2 ->
  parse_color_mix l = if Req_EM_T (q1 + q2) 0 then None else interpolate s m q1 q2 a b.
Proof. exact (parse_complete s m p1 a p2 b l q1 q2). Qed.
Print Assumptions C65_read.
Theorem C65_read_only l c :
  parse_color_mix l = Some c ->
  exists s m p1 a p2 b q1 q2, mix_text s m p1 a p2 b l /\ percentages p1 p2 q1 q2 /\ q1 + q2 <> 0 /\ interpolate s m q1 q2 a b = Some c.
Proof. exact (parse_sound l c). Qed.
Print Assumptions C65_read_only.

(** CSS Color 5, 3.1: percentages below 0% or above 100% are invalid.  They are accepted. *)
Theorem C65_percentage_range_refuted :
  exists s m p1 a p2 b l c, mix_text s m p1 a p2 b l /\ p1 = Some (3 / 2) /\ parse_color_mix l = Some c.
Proof. exact (ex_intro _ XYZd65 (ex_intro _ Shorter (ex_intro _ _ (ex_intro _ _ (ex_intro _ None (ex_intro _ _
  (let 'ex_intro _ l (ex_intro _ c (conj T P)) := percentage_range_wrong in ex_intro _ l (ex_intro _ c (conj T (conj eq_refl P)))))))))). Qed.
Print Assumptions C65_percentage_range_refuted.
(** CSS Color 4, 12.3: a fully transparent colour keeps its premultiplied components, which are zero.  In polar spaces they become missing. *)
Theorem C65_transparent_refuted :
  exists a b r, a = Plain LCH (Comps (Some 50) (Some 10) (Some 0) (Some 0)) /\ b = a /\
    interpolate LCH Shorter (1 / 2) (1 / 2) a b = Some (Plain LCH r) /\ alpha r = Some 0 /\ c1 r = None /\ c2 r = None.
Proof. exact (let 'ex_intro _ r P := transparent_wrong in ex_intro _ _ (ex_intro _ _ (ex_intro _ r (conj eq_refl (conj eq_refl P))))). Qed.
Print Assumptions C65_transparent_refuted.
(** CSS Color 4, 12.2: a missing lightness stays missing when a colour is converted from Lab to LCH, so that the lightness
    of the other colour, 50, is taken.  The code takes it for zero and finds 25. *)
Theorem C65_missing_refuted :
  exists a b r, a = Plain LAB (Comps None (Some 40) (Some 0) (Some 1)) /\ b = Plain LCH (Comps (Some 50) (Some 10) (Some 0) (Some 1)) /\
    interpolate LCH Shorter (1 / 2) (1 / 2) a b = Some (Plain LCH r) /\ c1 r = Some 25.
Proof. exact (let 'ex_intro _ r P := missing_wrong in ex_intro _ _ (ex_intro _ _ (ex_intro _ r (conj eq_refl (conj eq_refl P))))). Qed.
Print Assumptions C65_missing_refuted.

(** ** The hypotheses can be met *)
Definition red : css := Bytes 255 0 0 255.
Definition blue : css := Bytes 0 0 255 255.
Lemma byte_covered s r g b a : (0 <= r <= 255 -> 0 <= g <= 255 -> 0 <= b <= 255 -> 0 <= a <= 255 -> covered s (Bytes r g b a))%Z.
Proof. cbn. auto. Qed.
Example mix_covered : mixing HSL /\ 0 < 1 / 4 + 3 / 4 /\ covered HSL (LightDark red (Plain HSL (Comps (Some 120) (Some 50) None (Some 1)))) /\ covered HSL blue.
Proof. cbn. repeat split; try lra; try lia; congruence. Qed.
Example mix_srgb : interpolate SRGB Shorter (1 / 4) (3 / 4) red blue = Some (Bytes 64 0 191 255).
Proof.
  destruct (plain_correct SRGB Shorter (1 / 4) (3 / 4) red blue) as [out [E [_ C]]];
    [exact I | lra | reflexivity | reflexivity | apply byte_covered; lia | apply byte_covered; lia |].
  change (interpolate_plain SRGB Shorter (1 / 4) (3 / 4) red blue = Some (Bytes 64 0 191 255)). rewrite E. f_equal. clear E. unfold red, blue in C.
  destruct C as [x [y [r [X [Y [M G]]]]]].
  inversion X as [? ? ? ? _ E1 E2| | |? ? ? ? ? N|]; subst; [|congruence]. inversion Y as [? ? ? ? _ E1 E2| | |? ? ? ? ? N|]; subst; [|congruence].
  clear X Y. destruct M as [s1 [s2 [a1 [a2 [S1 [S2 [A [P1 [P2 P3]]]]]]]]]. cbn in *. unfold share in *.
  assert (s1 = 1 / 4) by lra. assert (s2 = 3 / 4) by lra. subst. clear S1 S2.
  destruct A as [[T A]|[T _]]; inversion T; subst. clear T. rewrite Rmin_left in A by lra.
  Ltac part P := inversion P; subst; clear P; [match goal with T : taken _ _ _ |- _ => inversion T; subst; clear T end | lra].
  part P1. part P2. part P3.
  destruct G as [c0 [c' [r0 [g0 [b0 [a0 [vx [vy [vz [vw [K [B [V1 [V2 [V3 [V4 [-> [N1 [N2 [N3 N4]]]]]]]]]]]]]]]]]]]].
  destruct K as [u1 [u2 [u3 [u4 [U1 [U2 [U3 [U4 ->]]]]]]]]. unfold value in U1, U2, U3, U4. rewrite A in U4.
  repeat match goal with H : Some _ = _ _ |- _ => rewrite <- H in *; clear H end.
  assert (W : in_gamut SRGB (full (u1, u2, u3) u4) = true) by (apply full_in_gamut; cbn; lra).
  inversion B as [_ E|? ? ? ? W' _ _]; [|congruence]. subst c'. clear B W. cbn in V1, V2, V3, V4.
  - subst vx vy vz vw.
    unfold nearest in *.
    assert (F : forall (n k : Z) u, Rabs (IZR n - 255 * u) <= 1 / 2 -> IZR k - 1 / 2 < 255 * u < IZR k + 1 / 2 -> n = k).
    { intros n k u B1 B2. assert (IZR n < IZR (k + 1)) by (rewrite plus_IZR; revert B1; unfold Rabs; destruct (Rcase_abs _); lra).
      assert (IZR (k - 1) < IZR n) by (rewrite minus_IZR; revert B1; unfold Rabs; destruct (Rcase_abs _); lra).
      repeat match goal with L : IZR _ < IZR _ |- _ => apply lt_IZR in L end. lia. }
    f_equal; eapply F; [apply N1; lra | lra | apply N2; lra | lra | apply N3; lra | lra | apply N4; lra | lra].
Qed.
Example mix_read :
  mix_text HSL Longer (Some (1 / 4)) red None blue
    [Word "in"; Word "hsl"; Word "longer"; Word "hue"; Comma; Percent (1 / 4); Color red; Comma; Color blue]
  /\ percentages (Some (1 / 4)) None (1 / 4) (1 - 1 / 4).
Proof.
  split; [|constructor]. apply (MixText HSL "hsl" Longer [Word "longer"; Word "hue"] (Some (1 / 4)) red [Percent (1 / 4); Color red] None blue [Color blue]).
  - cbn. tauto.
  - constructor; [discriminate | cbn; tauto].
  - constructor.
  - constructor.
Qed.
Example mix_unknown : mentions_unknown (LightDark red CurrentColor) \/ mentions_unknown blue.
Proof. cbn. tauto. Qed.
