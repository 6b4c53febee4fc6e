(** * Colour spaces, the conversions between them, gamut mapping and [color-mix()] (src/values/color.rs).
    Simplifications: numbers are real, so that nothing is rounded except where the code rounds to bytes, and
    there are no infinities; the zero has no sign. *)
From Coq Require Import Reals ZArith Bool.
From Verif Require Import MatrixModel.
Local Open Scope R_scope.

Definition floor (x : R) : R := IZR (Int_part x).
(** [f32::trunc] and the operator [%] of f32, whose result has the sign of the dividend *)
Definition trunc (x : R) : R := if ltb x 0 then - floor (- x) else floor x.
Definition frem (x m : R) : R := x - m * trunc (x / m).
(** [f32::round]: halves away from zero *)
Definition round (x : R) : R := if ltb x 0 then - floor (- x + 1 / 2) else floor (x + 1 / 2).
(** [f32::clamp] *)
Definition clamp (x lo hi : R) : R := if ltb x lo then lo else if ltb hi x then hi else x.
(** [f32::powf] of a base that is not negative, for positive exponents *)
Definition powf (x y : R) : R := if eqb x 0 then 0 else exp (y * ln x).
(** [f32::cbrt] *)
Definition cbrt (x : R) : R := if ltb x 0 then - powf (- x) (1 / 3) else powf x (1 / 3).
(** [f32::atan2] *)
Definition atan2 (y x : R) : R :=
  if ltb 0 x then atan (y / x)
  else if ltb x 0 then if ltb y 0 then atan (y / x) - PI else atan (y / x) + PI
  else if ltb 0 y then PI / 2 else if ltb y 0 then - (PI / 2) else 0.

(** f32 with NaN, which stands for a component that is missing ([none]) *)
Definition num := option R.
Definition lift2 (f : R -> R -> R) (x y : num) : num := match x, y with Some a, Some b => Some (f a b) | _, _ => None end.
Definition nadd := lift2 Rplus.
Definition nmul := lift2 Rmult.
(** A quotient: dividing zero by zero is NaN.  Simplification: so is dividing anything else by zero, which is infinite in the code. *)
Definition ndiv (x y : num) : num := match x, y with Some a, Some b => if eqb b 0 then None else Some (a / b) | _, _ => None end.
Definition resolve_num (x : num) : R := match x with Some a => a | None => 0 end.

(** color.rs:1515-1540: the three components of a colour and its alpha *)
Record comps := Comps { c1 : num; c2 : num; c3 : num; alpha : num }.
Definition triple := (R * R * R)%type.
Definition full (t : triple) (a : R) : comps := let '(x, y, z) := t in Comps (Some x) (Some y) (Some z) (Some a).
(** color.rs:1555-1563 *)
Definition resolved (c : comps) : triple := (resolve_num (c1 c), resolve_num (c2 c), resolve_num (c3 c)).
Definition resolve_missing (c : comps) : comps := full (resolved c) (resolve_num (alpha c)).

(** color.rs:1577-1843 *)
Inductive space := SRGB | RGB | SRGBLinear | P3 | A98 | ProPhoto | Rec2020 | LAB | LCH | OKLAB | OKLCH | XYZd50 | XYZd65 | HSL | HWB.

(** color.rs:2058-2064 *)
Record mat := Mat { m0 : R; m1 : R; m2 : R; m3 : R; m4 : R; m5 : R; m6 : R; m7 : R; m8 : R }.
Definition multiply_matrix (m : mat) (v : triple) : triple :=
  let '(x, y, z) := v in
  (m0 m * x + m1 m * y + m2 m * z, m3 m * x + m4 m * y + m5 m * z, m6 m * x + m7 m * y + m8 m * z).
Definition multiply_num (m : mat) (x y z : num) : num * num * num :=
  let row a b c := nadd (nadd (nmul (Some a) x) (nmul (Some b) y)) (nmul (Some c) z) in
  (row (m0 m) (m1 m) (m2 m), row (m3 m) (m4 m) (m5 m), row (m6 m) (m7 m) (m8 m)).

(** color.rs:1983-1993 *)
Definition d50_to_d65 : mat := Mat 0.9554734527042182 (-0.023098536874261423) 0.0632593086610217 (-0.028369706963208136) 1.0099954580058226 0.021041398966943008 0.012314001688319899 (-0.020507696433477912) 1.3303659366080753.
(** color.rs:2009-2019 *)
Definition d65_to_d50 : mat := Mat 1.0479298208405488 0.022946793341019088 (-0.05019222954313557) 0.029627815688159344 0.990434484573249 (-0.01707382502938514) (-0.009243058152591178) 0.015055144896577895 0.7518742899580008.
(** color.rs:2035-2045 *)
Definition xyz_to_srgb : mat := Mat 3.2409699419045226 (-1.537383177570094) (-0.4986107602930034) (-0.9692436362808796) 1.8759675015077202 0.04155505740717559 0.05563007969699366 (-0.20397695888897652) 1.0569715142428786.
(** color.rs:2109-2119 *)
Definition lms_to_xyz : mat := Mat 1.2268798733741557 (-0.5578149965554813) 0.28139105017721583 (-0.04057576262431372) 1.1122868293970594 (-0.07171106666151701) (-0.07637294974672142) (-0.4214933239627914) 1.5869240244272418.
(** color.rs:2121-2131 *)
Definition oklab_to_lms : mat := Mat 0.99999999845051981432 0.39633779217376785678 0.21580375806075880339 1.0000000088817607767 (-0.1055613423236563494) (-0.063854174771705903402) 1.0000000546724109177 (-0.089484182094965759684) (-1.2914855378640917399).
(** color.rs:2148-2158 *)
Definition xyz_to_lms : mat := Mat 0.8190224432164319 0.3619062562801221 (-0.12887378261216414) 0.0329836671980271 0.9292868468965546 0.03614466816999844 0.048177199566046255 0.26423952494422764 0.6335478258136937.
(** color.rs:2160-2170 *)
Definition lms_to_oklab : mat := Mat 0.2104542553 0.7936177850 (-0.0040720468) 1.9779984951 (-2.4285922050) 0.4505937099 0.0259040371 0.7827717662 (-0.8086757660).
(** color.rs:2261-2271 *)
Definition srgb_to_xyz : mat := Mat 0.41239079926595934 0.357584339383878 0.1804807884018343 0.21263900587151027 0.715168678767756 0.07219231536073371 0.01933081871559182 0.11919477979462598 0.9505321522496607.
(** color.rs:2287-2297 *)
Definition xyz_to_p3 : mat := Mat 2.493496911941425 (-0.9313836179191239) (-0.40271078445071684) (-0.8294889695615747) 1.7626640603183463 0.023624685841943577 0.03584583024378447 (-0.07617238926804182) 0.9568845240076872.
(** color.rs:2317-2327 *)
Definition p3_to_xyz : mat := Mat 0.4865709486482162 0.26566769316909306 0.1982172852343625 0.2289745640697488 0.6917385218365064 0.079286914093745 0 0.04511338185890264 1.043944368900976.
(** color.rs:2365-2375 *)
Definition a98_to_xyz : mat := Mat 0.5766690429101305 0.1855582379065463 0.1882286462349947 0.29734497525053605 0.6273635662554661 0.07529145849399788 0.02703136138641234 0.07068885253582723 0.9913375368376388.
(** color.rs:2391-2401 *)
Definition xyz_to_a98 : mat := Mat 2.0415879038107465 (-0.5650069742788596) (-0.34473135077832956) (-0.9692436362808795) 1.8759675015077202 0.04155505740717557 0.013444280632031142 (-0.11836239223101838) 1.0151749943912054.
(** color.rs:2457-2467 *)
Definition prophoto_to_xyz : mat := Mat 0.7977604896723027 0.13518583717574031 0.0313493495815248 0.2880711282292934 0.7118432178101014 0.00008565396060525902 0 0 0.8251046025104601.
(** color.rs:2482-2492 *)
Definition xyz_to_prophoto : mat := Mat 1.3457989731028281 (-0.25558010007997534) (-0.05110628506753401) (-0.5446224939028347) 1.5082327413132781 0.02053603239147973 0 0 1.2119675456389454.
(** color.rs:2555-2565 *)
Definition rec2020_to_xyz : mat := Mat 0.6369580483012914 0.14461690358620832 0.1688809751641721 0.2627002120112671 0.6779980715188708 0.05930171646986196 0 0.028072693049087428 1.060985057710791.
(** color.rs:2580-2590 *)
Definition xyz_to_rec2020 : mat := Mat 1.7166511879712674 (-0.35567078377639233) (-0.25336628137365974) (-0.6666843518324892) 1.6164812366349395 0.01576854581391113 0.017639857445310783 (-0.042770613257808524) 0.9421031212354738.

(** ** Transfer functions *)
Definition sign (c : R) : R := if ltb c 0 then -1 else 1.
Definition each (f : R -> R) (t : triple) : triple := let '(x, y, z) := t in (f x, f y, f z).
(** color.rs:2089-2098 *)
Definition gam_srgb (c : R) : R := if ltb 0.0031308 (Rabs c) then sign c * (1.055 * powf (Rabs c) (1 / 2.4) - 0.055) else 12.92 * c.
(** color.rs:2239-2248 *)
Definition lin_srgb (c : R) : R := if ltb (Rabs c) 0.04045 then c / 12.92 else sign c * powf ((Rabs c + 0.055) / 1.055) 2.4.
(** color.rs:2344-2348, 2403-2411 *)
Definition lin_a98 (c : R) : R := sign c * powf (Rabs c) (563 / 256).
Definition gam_a98 (c : R) : R := sign c * powf (Rabs c) (256 / 563).
(** color.rs:2436-2446: the power is that of the component itself, and NaN when that is negative *)
Definition lin_prophoto (c : R) : num :=
  if ltb (16 / 512) (Rabs c) then if ltb c 0 then None else Some (sign c * powf c 1.8) else Some (c / 16).
(** color.rs:2494-2509 *)
Definition gam_prophoto (c : R) : R := if ltb (Rabs c) (1 / 512) then 16 * c else sign c * powf (Rabs c) (1 / 1.8).
(** color.rs:2532-2544, 2592-2608 *)
Definition rec_a : R := 1.09929682680944.
Definition rec_b : R := 0.018053968510807.
Definition lin_rec2020 (c : R) : R := if ltb (Rabs c) (rec_b * 4.5) then c / 4.5 else sign c * powf ((Rabs c + rec_a - 1) / rec_a) (1 / 0.45).
Definition gam_rec2020 (c : R) : R := if ltb rec_b (Rabs c) then sign c * (rec_a * powf (Rabs c) 0.45 - (rec_a - 1)) else 4.5 * c.

(** ** Lab and its polar form *)
(** color.rs:1866-1883 *)
Definition rectangular_to_polar (t : triple) : triple :=
  let '(l, a, b) := t in
  let h := atan2 b a * 180 / PI in
  let h := if ltb h 0 then h + 360 else h in
  (l, sqrt (a ^ 2 + b ^ 2), frem h 360).
Definition polar_to_rectangular (t : triple) : triple :=
  let '(l, c, h) := t in (l, c * cos (h * PI / 180), c * sin (h * PI / 180)).
(** color.rs:1937, 1942-1943 *)
Definition d50 : triple := (0.3457 / 0.3585, 1, (1 - 0.3457 - 0.3585) / 0.3585).
Definition lab_k : R := 24389 / 27.
Definition lab_e : R := 216 / 24389.
(** color.rs:1939-1978 *)
Definition lab_to_xyz (t : triple) : triple :=
  let '(l, a, b) := t in
  let '(wx, wy, wz) := d50 in
  let f1 := (l + 16) / 116 in
  let f0 := a / 500 + f1 in
  let f2 := f1 - b / 200 in
  let x := if ltb lab_e (f0 ^ 3) then f0 ^ 3 else (116 * f0 - 16) / lab_k in
  let y := if ltb (lab_k * lab_e) l then ((l + 16) / 116) ^ 3 else l / lab_k in
  let z := if ltb lab_e (f2 ^ 3) then f2 ^ 3 else (116 * f2 - 16) / lab_k in
  (x * wx, y * wy, z * wz).
(** color.rs:2184-2215 *)
Definition lab_f (x : R) : R := if ltb lab_e x then cbrt x else (lab_k * x + 16) / 116.
Definition xyz_to_lab (t : triple) : triple :=
  let '(x, y, z) := t in
  let '(wx, wy, wz) := d50 in
  let f0 := lab_f (x / wx) in
  let f1 := lab_f (y / wy) in
  let f2 := lab_f (z / wz) in
  (116 * f1 - 16, 500 * (f0 - f1), 200 * (f1 - f2)).
(** color.rs:2106-2143, 2145-2182 *)
Definition oklab_to_xyz (t : triple) : triple := multiply_matrix lms_to_xyz (each (fun x => x ^ 3) (multiply_matrix oklab_to_lms t)).
Definition xyz_to_oklab (t : triple) : triple := multiply_matrix lms_to_oklab (each cbrt (multiply_matrix xyz_to_lms t)).

(** ** HSL and HWB *)
(** [hsl_to_rgb] of the crate cssparser-color 0.1.0, which is not in the repository *)
Definition hue_to_rgb (n1 n2 h : R) : R :=
  let h := if ltb h 0 then h + 3 else h in
  let h := if ltb 3 h then h - 3 else h in
  if ltb (h * 2) 1 then n1 + (n2 - n1) * h * 2
  else if ltb (h * 2) 3 then n2
  else if ltb h 2 then n1 + (n2 - n1) * (2 - h) * 2
  else n1.
Definition hsl_to_rgb (h s l : R) : triple :=
  let n2 := if ltb 0.5 l then l + s - l * s else l * (s + 1) in
  let n1 := l * 2 - n2 in
  (hue_to_rgb n1 n2 (h * 3 + 1), hue_to_rgb n1 n2 (h * 3), hue_to_rgb n1 n2 (h * 3 - 1)).
(** color.rs:2665-2678 *)
Definition hsl_srgb (t : triple) : triple :=
  let '(h, s, l) := t in hsl_to_rgb ((h - 360 * floor (h / 360)) / 360) (s / 100) (l / 100).
(** color.rs:2698-2728 *)
Definition hwb_srgb (t : triple) : triple :=
  let '(h, w, b) := t in
  let w := w / 100 in
  let b := b / 100 in
  if ltb (w + b) 1 then let x := 1 - w - b in each (fun c => c * x + w) (hsl_srgb (h, 100, 50))
  else let gray := w / (w + b) in (gray, gray, gray).
(** color.rs:2624-2663, without resolving the colour *)
Definition srgb_hue (r g b : R) : num :=
  let max := Rmax (Rmax r g) b in
  let min := Rmin (Rmin r g) b in
  let d := max - min in
  if eqb d 0 then None
  else if eqb max r then Some (((g - b) / d + (if ltb g b then 6 else 0)) * 60)
  else if eqb max g then Some (((b - r) / d + 2) * 60)
  else if eqb max b then Some (((r - g) / d + 4) * 60)
  else None.
Definition srgb_hsl (t : triple) (a : R) : comps :=
  let '(r, g, b) := t in
  let max := Rmax (Rmax r g) b in
  let min := Rmin (Rmin r g) b in
  let l := (min + max) / 2 in
  let s := if eqb (max - min) 0 then 0 else if eqb l 0 || eqb l 1 then 0 else (max - l) / Rmin l (1 - l) in
  Comps (srgb_hue r g b) (Some (s * 100)) (Some (l * 100)) (Some a).
(** color.rs:2680-2696 *)
Definition srgb_hwb (t : triple) (a : R) : comps :=
  let '(r, g, b) := t in
  let w := Rmin (Rmin r g) b in
  let k := 1 - Rmax (Rmax r g) b in
  Comps (srgb_hue r g b) (Some (w * 100)) (Some (k * 100)) (Some a).

(** ** Conversions *)
(** A conversion that resolves missing components first *)
Definition via_triple (f : triple -> triple) (c : comps) : comps := full (f (resolved c)) (resolve_num (alpha c)).
(** color.rs:2427-2477 *)
Definition prophoto_xyz50 (c : comps) : comps :=
  let '(r, g, b) := resolved c in
  let '(x, y, z) := multiply_num prophoto_to_xyz (lin_prophoto r) (lin_prophoto g) (lin_prophoto b) in
  Comps x y z (Some (resolve_num (alpha c))).
Definition compose (f g : triple -> triple) (t : triple) : triple := g (f t).
(** color.rs:2759-2768, 2748-2757: missing components stay missing *)
Definition scale_rgb (k : R) (c : comps) : comps := Comps (nmul (c1 c) (Some k)) (nmul (c2 c) (Some k)) (nmul (c3 c) (Some k)) (alpha c).
(** From a space to xyz-d65 (color.rs:1980-2004, 2106-2143, 2256-2282, 2311-2385, 2525-2575, 2799-2918).
    The intermediate colours have no missing components, save those of prophoto-rgb. *)
Definition lab_xyz65 := compose lab_to_xyz (multiply_matrix d50_to_d65).
Definition srgb_xyz65 := compose (each lin_srgb) (multiply_matrix srgb_to_xyz).
Definition to_xyz (s : space) (c : comps) : comps :=
  match s with
  | XYZd65 => c
  | XYZd50 => via_triple (multiply_matrix d50_to_d65) c
  | LAB => via_triple lab_xyz65 c
  | LCH => via_triple (compose polar_to_rectangular lab_xyz65) c
  | OKLAB => via_triple oklab_to_xyz c
  | OKLCH => via_triple (compose polar_to_rectangular oklab_to_xyz) c
  | SRGBLinear => via_triple (multiply_matrix srgb_to_xyz) c
  | SRGB => via_triple srgb_xyz65 c
  | RGB => via_triple srgb_xyz65 (scale_rgb (1 / 255) c)
  | P3 => via_triple (compose (each lin_srgb) (multiply_matrix p3_to_xyz)) c
  | A98 => via_triple (compose (each lin_a98) (multiply_matrix a98_to_xyz)) c
  | Rec2020 => via_triple (compose (each lin_rec2020) (multiply_matrix rec2020_to_xyz)) c
  | ProPhoto => via_triple (multiply_matrix d50_to_d65) (prophoto_xyz50 c)
  | HSL => via_triple (compose hsl_srgb srgb_xyz65) c
  | HWB => via_triple (compose hwb_srgb srgb_xyz65) c
  end.
(** From xyz-d65, for the spaces whose conversion does not map into a gamut (color.rs:2006-2056, 2066-2078, 2145-2215, 2284-2309,
    2387-2425, 2479-2523, 2577-2622) *)
Definition xyz_srgb := compose (multiply_matrix xyz_to_srgb) (each gam_srgb).
Definition xyz_lab := compose (multiply_matrix d65_to_d50) xyz_to_lab.
Definition of_xyz (s : space) (c : comps) : comps :=
  match s with
  | XYZd65 => c
  | XYZd50 => via_triple (multiply_matrix d65_to_d50) c
  | LAB => via_triple xyz_lab c
  | LCH => via_triple (compose xyz_lab rectangular_to_polar) c
  | OKLAB => via_triple xyz_to_oklab c
  | OKLCH => via_triple (compose xyz_to_oklab rectangular_to_polar) c
  | SRGBLinear => via_triple (multiply_matrix xyz_to_srgb) c
  | RGB => scale_rgb 255 (via_triple xyz_srgb c)
  | P3 => via_triple (compose (multiply_matrix xyz_to_p3) (each gam_srgb)) c
  | A98 => via_triple (compose (multiply_matrix xyz_to_a98) (each gam_a98)) c
  | Rec2020 => via_triple (compose (multiply_matrix xyz_to_rec2020) (each gam_rec2020)) c
  | ProPhoto => via_triple (compose (multiply_matrix d65_to_d50) (compose (multiply_matrix xyz_to_prophoto) (each gam_prophoto))) c
  | SRGB | HSL | HWB => via_triple xyz_srgb c
  end.

(** ** Gamuts *)
Definition within (lo hi : R) (x : num) : bool := match x with Some v => negb (ltb v lo) && negb (ltb hi v) | None => false end.
Definition nclamp (x : num) (lo hi : R) : num := option_map (fun v => clamp v lo hi) x.
(** color.rs:3089-3177 *)
Definition in_gamut (s : space) (c : comps) : bool :=
  match s with
  | SRGB | SRGBLinear | P3 | A98 | ProPhoto | Rec2020 => within 0 1 (c1 c) && within 0 1 (c2 c) && within 0 1 (c3 c)
  | RGB => within 0 255 (c1 c) && within 0 255 (c2 c) && within 0 255 (c3 c)
  | HSL | HWB => within 0 100 (c2 c) && within 0 100 (c3 c)
  | LAB | OKLAB | XYZd50 | XYZd65 | LCH | OKLCH => true
  end.
Definition clip (s : space) (c : comps) : comps :=
  match s with
  | SRGB | SRGBLinear | P3 | A98 | ProPhoto | Rec2020 => Comps (nclamp (c1 c) 0 1) (nclamp (c2 c) 0 1) (nclamp (c3 c) 0 1) (nclamp (alpha c) 0 1)
  | RGB => Comps (nclamp (c1 c) 0 255) (nclamp (c2 c) 0 255) (nclamp (c3 c) 0 255) (nclamp (alpha c) 0 1)
  | HSL | HWB => Comps (option_map (fun h => frem h 360) (c1 c)) (nclamp (c2 c) 0 100) (nclamp (c3 c) 0 100) (nclamp (alpha c) 0 1)
  | LAB | OKLAB | XYZd50 | XYZd65 | LCH | OKLCH => c
  end.
(** color.rs:3179-3188, of colours in oklab *)
Definition delta_eok (a b : triple) : R :=
  let '(l, x, y) := a in let '(m, u, v) := b in sqrt ((l - m) ^ 2 + (x - u) ^ 2 + (y - v) ^ 2).
(** color.rs:3194-3195 *)
Definition jnd : R := 0.02.
Definition gamut_epsilon : R := 0.00001.
Section Gamut.
(** The space, and the conversions from oklch to it and from it to oklab *)
Variable s : space.
Variable of_oklch : comps -> comps.
Variable to_oklab : comps -> comps.
(** color.rs:3225-3244.  [fuel] bounds the rounds of the loop; [map_gamut] gives enough. *)
Fixpoint chroma_search (fuel : nat) (l h a : R) (min max current : R) : comps :=
  let color c := Comps (Some l) (Some c) (Some h) (Some a) in
  if ltb gamut_epsilon (max - min) then
    match fuel with
    | O => of_oklch (color current)
    | S fuel =>
        let chroma := (min + max) / 2 in
        let converted := of_oklch (color chroma) in
        if in_gamut s converted then chroma_search fuel l h a chroma max chroma
        else
          let clipped := clip s converted in
          if ltb (delta_eok (resolved (to_oklab clipped)) (polar_to_rectangular (l, chroma, h))) jnd then clipped
          else chroma_search fuel l h a min chroma chroma
    end
  else of_oklch (color current).
(** color.rs:3190-3220, of a colour in oklch *)
Definition search_fuel (c : R) : nat := Z.to_nat (up (c / gamut_epsilon)).
Definition map_gamut_oklch (t : triple) (a : R) : comps :=
  let '(l, c, h) := t in
  if ltb (Rabs (l - 1)) gamut_epsilon || ltb 1 l then of_oklch (full (1, 0, 0) a)
  else if ltb l gamut_epsilon then of_oklch (full (0, 0, 0) a)
  else chroma_search (search_fuel c) l h a 0 c c.
End Gamut.

(** The conversions to and from oklch that gamut mapping uses in the spaces RGB, sRGB, linear sRGB, display-p3, a98-rgb, prophoto-rgb
    and rec2020 *)
Definition map_gamut_rgb (s : space) (c : comps) : comps :=
  let o := of_xyz OKLCH (to_xyz s c) in
  map_gamut_oklch s (fun x => of_xyz s (to_xyz OKLCH x)) (fun x => of_xyz OKLAB (to_xyz s x)) (resolved o) (resolve_num (alpha o)).
(** color.rs:1565-1572, for sRGB *)
Definition resolve_srgb (c : comps) : comps :=
  let c := resolve_missing c in if in_gamut SRGB c then c else map_gamut_rgb SRGB c.
(** color.rs:2624-2696 *)
Definition hsl_of_srgb (c : comps) : comps := let c := resolve_srgb c in srgb_hsl (resolved c) (resolve_num (alpha c)).
Definition hwb_of_srgb (c : comps) : comps := let c := resolve_srgb c in srgb_hwb (resolved c) (resolve_num (alpha c)).
Definition from_xyz (s : space) (c : comps) : comps :=
  match s with
  | HSL => hsl_of_srgb (of_xyz SRGB c)
  | HWB => hwb_of_srgb (of_xyz SRGB c)
  | _ => of_xyz s c
  end.
(** color.rs:1845-2918: which conversions are direct; all others go through xyz-d65 *)
Definition direct (s t : space) : option (comps -> comps) :=
  match s, t with
  | LAB, LCH | OKLAB, OKLCH => Some (via_triple rectangular_to_polar)
  | LCH, LAB | OKLCH, OKLAB => Some (via_triple polar_to_rectangular)
  | LAB, XYZd50 => Some (via_triple lab_to_xyz)
  | XYZd50, LAB => Some (via_triple xyz_to_lab)
  | ProPhoto, XYZd50 => Some prophoto_xyz50
  | XYZd50, ProPhoto => Some (via_triple (compose (multiply_matrix xyz_to_prophoto) (each gam_prophoto)))
  | SRGBLinear, SRGB => Some (via_triple (each gam_srgb))
  | SRGB, SRGBLinear => Some (via_triple (each lin_srgb))
  | SRGB, RGB => Some (scale_rgb 255)
  | RGB, SRGB => Some (scale_rgb (1 / 255))
  | SRGB, HSL => Some hsl_of_srgb
  | HSL, SRGB => Some (via_triple hsl_srgb)
  | SRGB, HWB => Some hwb_of_srgb
  | HWB, SRGB => Some (via_triple hwb_srgb)
  | HSL, HWB => Some (fun c => hwb_of_srgb (via_triple hsl_srgb c))
  | HWB, HSL => Some (fun c => hsl_of_srgb (via_triple hwb_srgb c))
  | RGB, HSL => Some (fun c => hsl_of_srgb (scale_rgb (1 / 255) c))
  | HSL, RGB => Some (fun c => scale_rgb 255 (via_triple hsl_srgb c))
  | RGB, HWB => Some (fun c => hwb_of_srgb (scale_rgb (1 / 255) c))
  | HWB, RGB => Some (fun c => scale_rgb 255 (via_triple hwb_srgb c))
  | RGB, SRGBLinear => Some (fun c => via_triple (each lin_srgb) (scale_rgb (1 / 255) c))
  | SRGBLinear, RGB => Some (fun c => scale_rgb 255 (via_triple (each gam_srgb) c))
  | _, _ => None
  end.
Definition space_eq_dec (s t : space) : {s = t} + {s <> t}.
Proof. decide equality. Defined.
Definition convert (s t : space) (c : comps) : comps :=
  if space_eq_dec s t then c else match direct s t with Some f => f c | None => from_xyz t (to_xyz s c) end.
(** color.rs:3190: gamut mapping in any space *)
Definition map_gamut (s : space) (c : comps) : comps :=
  let o := convert s OKLCH c in
  map_gamut_oklch s (convert OKLCH s) (convert s OKLAB) (resolved o) (resolve_num (alpha o)).
(** color.rs:1565-1572 *)
Definition resolve (s : space) (c : comps) : comps :=
  let c := resolve_missing c in if in_gamut s c then c else map_gamut s c.
