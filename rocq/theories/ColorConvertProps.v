(** * C66: conversions between colour spaces *)
From Coq Require Import Reals ZArith Bool List Lra.
From Verif Require Import ColorSpaceModel ColorSpaceSpec ColorSpaceProofs ColorConvertProofs.
Import ListNotations.
Local Open Scope R_scope.

(** A colour that is converted from any of the fifteen spaces to any other stands for the same point.
    Left out: negative components of prophoto-rgb (see below) and colours that have to be mapped into sRGB on the way to HSL and HWB. *)
Theorem C66_convert_partial s t v a : convertible s t v a -> agrees s t v a (convert s t (full v a)).
Proof. exact (convert_agrees s t v a). Qed.
Print Assumptions C66_convert_partial.

(** Conversions that do not lose anything *)
Theorem C66_round_trip s t v a :
  In (s, t) [(LAB, XYZd50); (XYZd50, LAB); (LAB, LCH); (OKLAB, OKLCH); (RGB, SRGB); (SRGB, RGB)] -> convert t s (convert s t (full v a)) = full v a.
Proof. exact (round_trip_exact s t v a). Qed.
Print Assumptions C66_round_trip.
Theorem C66_round_trip_hsl v a : in_cube v -> convert HSL SRGB (convert SRGB HSL (full v a)) = full v a.
Proof. exact (round_trip_hsl v a). Qed.
Print Assumptions C66_round_trip_hsl.
Theorem C66_round_trip_hwb v a : in_cube v -> convert HWB SRGB (convert SRGB HWB (full v a)) = full v a.
Proof. exact (round_trip_hwb v a). Qed.
Print Assumptions C66_round_trip_hwb.
Theorem C66_round_trip_linear v a :
  let '(r, g, b) := v in smooth SrgbCurve r -> smooth SrgbCurve g -> smooth SrgbCurve b ->
  convert SRGBLinear SRGB (convert SRGB SRGBLinear (full v a)) = full v a.
Proof. exact (round_trip_linear v a). Qed.
Print Assumptions C66_round_trip_linear.
(** The curves of all spaces are undone, except next to the points where their pieces meet *)
Theorem C66_curves c v l : (smooth c v -> decoded c v l -> encoded c l v) /\ (smooth_light c l -> encoded c l v -> decoded c v l).
Proof. exact (conj (curves_agree c v l) (curves_agree_back c v l)). Qed.
Print Assumptions C66_curves.

(** Gamut mapping keeps lightness and hue and lowers the chroma, or clips where that cannot be seen *)
Theorem C66_gamut s c :
  s <> OKLCH -> exists l k h, resolved (convert s OKLCH c) = (l, k, h) /\ mapped s l k h (resolve_num (alpha (convert s OKLCH c))) (map_gamut s c).
Proof. exact (map_gamut_mapped s c). Qed.
Print Assumptions C66_gamut.
Theorem C66_clip s c : c1 c <> None -> c2 c <> None -> c3 c <> None -> in_gamut s (clip s c) = true.
Proof. exact (clip_in_gamut s c). Qed.
Print Assumptions C66_clip.
Theorem C66_clip_same s c : in_gamut s c = true -> (exists a, alpha c = Some a /\ 0 <= a <= 1) -> s <> HSL -> s <> HWB -> clip s c = c.
Proof. exact (clip_same s c). Qed.
Print Assumptions C66_clip_same.

(** A component of prophoto-rgb below -1/32 becomes missing, although the curve goes on below zero *)
Theorem C66_prophoto_refuted :
  exists v a l, v = (- (1 / 2), 0, 0) /\ decoded ProphotoCurve (- (1 / 2)) l /\ c1 (convert ProPhoto XYZd50 (full v a)) = None.
Proof. exact prophoto_wrong. Qed.
Print Assumptions C66_prophoto_refuted.

(** ** The hypotheses can be met *)
Example convertible_hsl : convertible SRGB HSL (1, 1 / 2, 0) 1.
Proof. split; [exact I|]. intros _. unfold in_srgb. cbn. lra. Qed.
Example convertible_lch : convertible P3 OKLCH (1, 1 / 2, - (1 / 5)) 1.
Proof. split; [exact I|]. intros [H|H]; discriminate. Qed.
Example convertible_prophoto : convertible ProPhoto LAB (1, 1 / 2, 0) 1.
Proof. split; [cbn; lra|]. intros [H|H]; discriminate. Qed.
(** rgb(255 128 0), nearly, is hsl(30 100% 50%) *)
Example hsl_orange : resolved (convert SRGB HSL (full (1, 1 / 2, 0) 1)) = (30, 100, 50) .
Proof.
  rewrite (convert_direct SRGB HSL _ _ ltac:(discriminate) eq_refl). unfold hsl_of_srgb. rewrite resolve_cube by (cbn; lra).
  cbn [resolved full c1 c2 c3 alpha resolve_num srgb_hsl srgb_hue].
  unfold srgb_hue. replace (Rmax (Rmax 1 (1 / 2)) 0) with 1 by (unfold Rmax; rle_cases; lra).
  replace (Rmin (Rmin 1 (1 / 2)) 0) with 0 by (unfold Rmin; rle_cases; lra).
  rewrite (proj2 (MatrixProofs.eqb_false (1 - 0) 0)) by lra. rewrite (proj2 (MatrixProofs.eqb_iff 1 1)) by lra.
  rewrite ltb_no by lra. rewrite (proj2 (MatrixProofs.eqb_false ((0 + 1) / 2) 0)) by lra. rewrite (proj2 (MatrixProofs.eqb_false ((0 + 1) / 2) 1)) by lra.
  cbn [orb resolve_num]. rewrite Rmin_left by lra. unfold resolved. cbn [c1 c2 c3 resolve_num]. apply f_equal2; [apply f_equal2; field|field].
Qed.
Example smooth_half : smooth SrgbCurve (1 / 2) /\ smooth_light SrgbCurve (1 / 2).
Proof. cbn. unfold srgb_smooth, srgb_smooth_light. rewrite Rabs_pos_eq by lra. lra. Qed.
