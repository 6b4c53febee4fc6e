(** * What the colour spaces of CSS Color 4 mean: every colour stands for a point of CIE XYZ with the white point D65.
    Matrices are not compared digit by digit but by what they do: the chromaticities of the primaries and of the white. *)
From Coq Require Import Reals ZArith List.
From Verif Require Import ColorSpaceModel.
Import ListNotations.
Local Open Scope R_scope.

(** ** Vectors *)
Definition size (v : triple) : R := let '(x, y, z) := v in Rabs x + Rabs y + Rabs z.
(** Each coordinate of [w] is that of [v], up to the fraction [e] of the size of [v] *)
Definition close (e : R) (v w : triple) : Prop :=
  let '(x, y, z) := v in let '(x', y', z') := w in
  Rabs (x - x') <= e * size v /\ Rabs (y - y') <= e * size v /\ Rabs (z - z') <= e * size v.
Definition combine (r g b : R) (u v w : triple) : triple :=
  let '(u1, u2, u3) := u in let '(v1, v2, v3) := v in let '(w1, w2, w3) := w in
  (r * u1 + g * v1 + b * w1, r * u2 + g * v2 + b * w2, r * u3 + g * v3 + b * w3).
(** The chromaticity of a point of XYZ is (x, y) *)
Definition chromaticity (e : R) (v : triple) (x y : R) : Prop :=
  let '(X, Y, Z) := v in Rabs (X - x * (X + Y + Z)) <= e /\ Rabs (Y - y * (X + Y + Z)) <= e.
(** The point with the chromaticity (x, y) and luminance 1 *)
Definition white (x y : R) : triple := (x / y, 1, (1 - x - y) / y).
Definition D65 : triple := white 0.3127 0.3290.
Definition D50 : triple := white 0.3457 0.3585.

(** ** Spaces with three primaries: CSS Color 4, 10 *)
Record primaries := Primaries { red_x : R; red_y : R; green_x : R; green_y : R; blue_x : R; blue_y : R }.
Definition srgb_primaries := Primaries 0.64 0.33 0.30 0.60 0.15 0.06.
Definition p3_primaries := Primaries 0.68 0.32 0.265 0.69 0.15 0.06.
Definition a98_primaries := Primaries 0.64 0.33 0.21 0.71 0.15 0.06.
Definition rec2020_primaries := Primaries 0.708 0.292 0.170 0.797 0.131 0.046.
Definition prophoto_primaries := Primaries 0.734699 0.265301 0.159597 0.840403 0.036598 0.000105.
Definition basis (e : R) (p : primaries) (w : triple) (vr vg vb : triple) : Prop :=
  chromaticity e vr (red_x p) (red_y p) /\ chromaticity e vg (green_x p) (green_y p) /\ chromaticity e vb (blue_x p) (blue_y p) /\
  close e w (combine 1 1 1 vr vg vb).

(** A function of numbers that are not negative, continued to the negative ones *)
Definition odd (f : R -> R -> Prop) (v l : R) : Prop := (0 <= v /\ f v l) \/ (v < 0 /\ f (- v) (- l)).
(** A power whose base may be zero *)
Definition power (e x y : R) : Prop := (x = 0 /\ y = 0) \/ (0 < x /\ y = Rpower x e).
(** From a component to the linear light, and the other way: the sample code of CSS Color 4 *)
Definition srgb_decoded (v l : R) : Prop := (v < 0.04045 /\ l = v / 12.92) \/ (0.04045 <= v /\ power 2.4 ((v + 0.055) / 1.055) l).
Definition srgb_encoded (l v : R) : Prop := (l <= 0.0031308 /\ v = 12.92 * l) \/ (0.0031308 < l /\ power (1 / 2.4) l ((v + 0.055) / 1.055)).
Definition a98_decoded (v l : R) : Prop := power (563 / 256) v l.
Definition a98_encoded (l v : R) : Prop := power (256 / 563) l v.
Definition prophoto_decoded (v l : R) : Prop := (v <= 16 / 512 /\ l = v / 16) \/ (16 / 512 < v /\ power 1.8 v l).
Definition prophoto_encoded (l v : R) : Prop := (l < 1 / 512 /\ v = 16 * l) \/ (1 / 512 <= l /\ power (1 / 1.8) l v).
Definition rec2020_alpha : R := 1.09929682680944.
Definition rec2020_beta : R := 0.018053968510807.
Definition rec2020_decoded (v l : R) : Prop :=
  (v < rec2020_beta * 4.5 /\ l = v / 4.5) \/ (rec2020_beta * 4.5 <= v /\ power (1 / 0.45) ((v + rec2020_alpha - 1) / rec2020_alpha) l).
Definition rec2020_encoded (l v : R) : Prop :=
  (l <= rec2020_beta /\ v = 4.5 * l) \/ (rec2020_beta < l /\ power 0.45 l ((v + rec2020_alpha - 1) / rec2020_alpha)).
Inductive curve := Straight | SrgbCurve | A98Curve | ProphotoCurve | Rec2020Curve.
Definition decoded (c : curve) (v l : R) : Prop :=
  match c with
  | Straight => l = v
  | SrgbCurve => odd srgb_decoded v l
  | A98Curve => odd a98_decoded v l
  | ProphotoCurve => odd prophoto_decoded v l
  | Rec2020Curve => odd rec2020_decoded v l
  end.
Definition encoded (c : curve) (l v : R) : Prop :=
  match c with
  | Straight => v = l
  | SrgbCurve => odd srgb_encoded l v
  | A98Curve => odd a98_encoded l v
  | ProphotoCurve => odd prophoto_encoded l v
  | Rec2020Curve => odd rec2020_encoded l v
  end.
(** The constants of the two directions do not quite fit, so that both are allowed *)
Definition transfer (c : curve) (v l : R) : Prop := decoded c v l \/ encoded c l v.
(** Where the two directions fit *)
Definition srgb_smooth (v : R) : Prop := v <= 0.0404499 \/ 0.04045 <= v.
Definition srgb_smooth_light (l : R) : Prop := l <= 0.0031308 \/ 0.0031309 <= l.
Definition rec2020_smooth (v : R) : Prop := v < rec2020_beta * 4.5 \/ rec2020_beta * 4.5 + 0.000000001 <= v.
Definition rec2020_smooth_light (l : R) : Prop := l < rec2020_beta \/ rec2020_beta + 0.000000001 <= l.
Definition smooth (c : curve) (v : R) : Prop :=
  match c with SrgbCurve => srgb_smooth (Rabs v) | Rec2020Curve => rec2020_smooth (Rabs v) | _ => True end.
Definition smooth_light (c : curve) (l : R) : Prop :=
  match c with SrgbCurve => srgb_smooth_light (Rabs l) | Rec2020Curve => rec2020_smooth_light (Rabs l) | _ => True end.
Definition of_primaries (e : R) (p : primaries) (w : triple) (c : curve) (v x : triple) : Prop :=
  let '(r, g, b) := v in
  exists vr vg vb lr lg lb, basis e p w vr vg vb /\ transfer c r lr /\ transfer c g lg /\ transfer c b lb /\ close e x (combine lr lg lb vr vg vb).

(** ** From the white point D50 to D65: the Bradford method *)
Definition bradford (x : triple) : triple :=
  let '(X, Y, Z) := x in
  (0.8951 * X + 0.2664 * Y - 0.1614 * Z, - 0.7502 * X + 1.7135 * Y + 0.0367 * Z, 0.0389 * X - 0.0685 * Y + 1.0296 * Z).
Definition adapted (x50 x65 : triple) : Prop :=
  let '(a, b, c) := bradford x50 in let '(a', b', c') := bradford x65 in
  let '(wa, wb, wc) := bradford D50 in let '(wa', wb', wc') := bradford D65 in
  let e := 0.000001 * (size x50 + size x65) in
  Rabs (a * wa' - a' * wa) <= e /\ Rabs (b * wb' - b' * wb) <= e /\ Rabs (c * wc' - c' * wc) <= e.

(** ** Lab: CSS Color 4, 9.3; the curve is that of CIE 15 *)
Definition lab_curve (f t : R) : Prop := (6 / 29 < f /\ t = f ^ 3) \/ (f <= 6 / 29 /\ t = 3 * (6 / 29) ^ 2 * (f - 4 / 29)).
Definition lab_point (v x : triple) : Prop :=
  let '(L, a, b) := v in let '(X, Y, Z) := x in let '(wx, wy, wz) := D50 in
  exists fx fy fz,
    L = 116 * fy - 16 /\ a = 500 * (fx - fy) /\ b = 200 * (fy - fz) /\ lab_curve fx (X / wx) /\ lab_curve fy (Y / wy) /\ lab_curve fz (Z / wz).
(** ** Oklab: CSS Color 4, 9.2: cube roots between two matrices of the standard *)
Definition cones (x : triple) : triple :=
  let '(X, Y, Z) := x in
  (0.8190224432164319 * X + 0.3619062562801221 * Y - 0.12887378261216414 * Z,
   0.0329836671980271 * X + 0.9292868468965546 * Y + 0.03614466816999844 * Z,
   0.048177199566046255 * X + 0.26423952494422764 * Y + 0.6335478258136937 * Z).
Definition opponents (x : triple) : triple :=
  let '(l, m, s) := x in
  (0.2104542553 * l + 0.7936177850 * m - 0.0040720468 * s,
   1.9779984951 * l - 2.4285922050 * m + 0.4505937099 * s,
   0.0259040371 * l + 0.7827717662 * m - 0.8086757660 * s).
Definition fine : R := 0.000000000000001.
Definition oklab_point (v x : triple) : Prop :=
  exists l m s, close fine v (opponents (l, m, s)) /\ close fine (l ^ 3, m ^ 3, s ^ 3) (cones x).
(** ** The polar forms *)
Definition degrees (h : R) : R := h * PI / 180.
Definition polar (v w : triple) : Prop :=
  let '(L, c, h) := v in let '(L', a, b) := w in L' = L /\ a = c * cos (degrees h) /\ b = c * sin (degrees h).

(** ** HSL and HWB: CSS Color 4, 7.1 and 8.1 *)
Definition hsl_channel (h s l n v : R) : Prop :=
  exists k j, k = n + h / 30 - 12 * IZR j /\ 0 <= k < 12 /\ v = l - s * Rmin l (1 - l) * Rmax (-1) (Rmin (Rmin (k - 3) (9 - k)) 1).
Definition hsl_rgb (v w : triple) : Prop :=
  let '(h, s, l) := v in let '(r, g, b) := w in
  hsl_channel h (s / 100) (l / 100) 0 r /\ hsl_channel h (s / 100) (l / 100) 8 g /\ hsl_channel h (s / 100) (l / 100) 4 b.
Definition hwb_rgb (v w : triple) : Prop :=
  let '(h, w', b') := v in let '(r, g, b) := w in
  (100 <= w' + b' /\ r = w' / (w' + b') /\ g = r /\ b = r) \/
  (w' + b' < 100 /\ exists x y z, hsl_rgb (h, 100, 50) (x, y, z) /\
    let f c := c * (1 - w' / 100 - b' / 100) + w' / 100 in r = f x /\ g = f y /\ b = f z).

(** ** The point that a colour stands for *)
Definition over255 (v : triple) : triple := let '(r, g, b) := v in (r / 255, g / 255, b / 255).
Definition means (s : space) (v x : triple) : Prop :=
  match s with
  | XYZd65 => x = v
  | XYZd50 => adapted v x
  | SRGB => of_primaries fine srgb_primaries D65 SrgbCurve v x
  | SRGBLinear => of_primaries fine srgb_primaries D65 Straight v x
  | P3 => of_primaries fine p3_primaries D65 SrgbCurve v x
  | A98 => of_primaries fine a98_primaries D65 A98Curve v x
  | Rec2020 => of_primaries fine rec2020_primaries D65 Rec2020Curve v x
  | ProPhoto => exists x50, of_primaries 0.00001 prophoto_primaries D50 ProphotoCurve v x50 /\ adapted x50 x
  | RGB => of_primaries fine srgb_primaries D65 SrgbCurve (over255 v) x
  | LAB => exists x50, lab_point v x50 /\ adapted x50 x
  | LCH => exists w x50, polar v w /\ lab_point w x50 /\ adapted x50 x
  | OKLAB => oklab_point v x
  | OKLCH => exists w, polar v w /\ oklab_point w x
  | HSL => exists w, hsl_rgb v w /\ of_primaries fine srgb_primaries D65 SrgbCurve w x
  | HWB => exists w, hwb_rgb v w /\ of_primaries fine srgb_primaries D65 SrgbCurve w x
  end.
Definition in_cube (v : triple) : Prop := let '(r, g, b) := v in 0 <= r <= 1 /\ 0 <= g <= 1 /\ 0 <= b <= 1.
(** Components that the code can decode *)
Definition decodable (s : space) (v : triple) : Prop :=
  match s with ProPhoto => let '(r, g, b) := v in - (16 / 512) <= r /\ - (16 / 512) <= g /\ - (16 / 512) <= b | _ => True end.
(** The sRGB colour on the way to HSL and HWB; from most spaces the way leads through XYZ *)
Definition in_srgb (s t : space) (v : triple) (a : R) : Prop :=
  match direct s t with
  | Some _ => in_cube (resolved (convert s SRGB (full v a)))
  | None => in_cube (resolved (convert XYZd65 SRGB (convert s XYZd65 (full v a))))
  end.
Definition convertible (s t : space) (v : triple) (a : R) : Prop := decodable s v /\ (t = HSL \/ t = HWB -> in_srgb s t v a).
(** The colour [c] of the space [t] stands for the same as the colour [v] of the space [s], and has the same alpha *)
Definition agrees (s t : space) (v : triple) (a : R) (c : comps) : Prop :=
  alpha c = Some a /\ exists x, means s v x /\ means t (resolved c) x.

(** ** Gamut mapping: CSS Color 4, 13.2, by halving the chroma in oklch *)
Definition distance_squared (v w : triple) : R := let '(x, y, z) := v in let '(x', y', z') := w in (x - x') ^ 2 + (y - y') ^ 2 + (z - z') ^ 2.
Definition oklch_color (l c h a : R) : comps := full (l, c, h) a.
Inductive mapped (s : space) (l c h a : R) : comps -> Prop :=
| MappedWhite : 1 - 0.00001 < l -> mapped s l c h a (convert OKLCH s (oklch_color 1 0 0 a))
| MappedBlack : l < 0.00001 -> mapped s l c h a (convert OKLCH s (oklch_color 0 0 0 a))
(** The chroma is reduced until it is within 0.00001 of one that is in the gamut *)
| MappedChroma lo c' : 0.00001 <= l <= 1 - 0.00001 ->
    0 <= lo <= c' -> c' <= c -> c' - lo <= 0.00001 -> lo = 0 \/ in_gamut s (convert OKLCH s (oklch_color l lo h a)) = true ->
    mapped s l c h a (convert OKLCH s (oklch_color l c' h a))
(** Or until the difference to the clipped colour is not noticeable *)
| MappedClipped c' u : 0.00001 <= l <= 1 - 0.00001 ->
    0 <= c' <= c -> in_gamut s (convert OKLCH s (oklch_color l c' h a)) = false ->
    polar (l, c', h) u -> distance_squared (resolved (convert s OKLAB (clip s (convert OKLCH s (oklch_color l c' h a))))) u < 0.02 ^ 2 ->
    mapped s l c h a (clip s (convert OKLCH s (oklch_color l c' h a))).
