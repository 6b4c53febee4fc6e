(** * What [color-mix()] stands for: CSS Color 5, section 3, and CSS Color 4 (2022), section 12.
    Colours are real numbers here; a component may be missing. *)
From Coq Require Import Reals ZArith List String.
From Verif Require Import ColorSpaceModel ColorSpaceSpec ColorMixModel.
Import ListNotations.
Local Open Scope R_scope.

(** The same angle, up to whole turns of 360 degrees *)
Definition same_angle (a b : R) : Prop := exists k : Z, a = b + 360 * IZR k.
(** CSS Color 4, 12.4: how far the second angle may be from the first.  For [longer] this is the range that color.rs documents. *)
Definition arc (m : hue_method) (d : R) : Prop :=
  match m with
  | Shorter => -180 <= d <= 180
  | Longer => d = 0 \/ 180 <= Rabs d < 360
  | Increasing => 0 <= d < 360
  | Decreasing => -360 < d <= 0
  | Specified => True
  end.
(** The angles are brought between 0 and 360, and one of them is raised by a turn if that is needed *)
Definition fixed_up (m : hue_method) (h k h' k' : R) : Prop :=
  match m with
  | Specified => h' = h /\ k' = k
  | _ =>
      exists a b, same_angle h a /\ same_angle k b /\ 0 <= a < 360 /\ 0 <= b < 360 /\
        (h' = a \/ h' = a + 360) /\ (k' = b \/ k' = b + 360) /\ arc m (k' - h') /\ (arc m (b - a) -> h' = a /\ k' = b)
  end.
(** CSS Color 4, 12.2: a component that is missing in one colour is taken from the other *)
Inductive taken : num -> num -> option (R * R) -> Prop :=
| TakenBoth x y : taken (Some x) (Some y) (Some (x, y))
| TakenLeft x : taken (Some x) None (Some (x, x))
| TakenRight y : taken None (Some y) (Some (y, y))
| TakenNone : taken None None None.
(** CSS Color 5, 3.1: the shares of the two colours *)
Definition share (p q s : R) : Prop := s * (p + q) = p.

(** CSS Color 4, 12.3: a component other than the hue, with the alphas (or 1 where they are missing) and the shares of the colours.
    Nothing is said of a colour that is fully transparent. *)
Inductive blended (s1 s2 a1 a2 : R) : num -> num -> num -> Prop :=
| Blended x y x' y' v : taken x y (Some (x', y')) -> v * (a1 * s1 + a2 * s2) = x' * a1 * s1 + y' * a2 * s2 -> blended s1 s2 a1 a2 x y (Some v)
| BlendedNone : blended s1 s2 a1 a2 None None None
| BlendedClear x y v : a1 * s1 + a2 * s2 = 0 -> blended s1 s2 a1 a2 x y v.
(** The hue is not multiplied by alpha *)
Inductive turned (m : hue_method) (s1 s2 : R) : num -> num -> num -> Prop :=
| Turned h k h0 k0 h' k' v :
    taken h k (Some (h0, k0)) -> fixed_up m h0 k0 h' k' -> same_angle v (h' * s1 + k' * s2) -> turned m s1 s2 h k (Some v)
| TurnedNone : turned m s1 s2 None None None.

(** Which component is the hue *)
Inductive kind := Rectangular | HueFirst | HueLast.
Definition kind_of (s : space) : kind :=
  match s with HSL | HWB => HueFirst | LCH | OKLCH => HueLast | _ => Rectangular end.
(** CSS Color 5, 3.2: the colour [r] is [x] and [y] mixed with the percentages [p] and [q] *)
Definition mixed (s : space) (m : hue_method) (p q : R) (x y r : comps) : Prop :=
  exists s1 s2 a1 a2,
    share p q s1 /\ share q p s2 /\
    (taken (alpha x) (alpha y) (Some (a1, a2)) /\ alpha r = Some ((a1 * s1 + a2 * s2) * Rmin 1 (p + q))
     \/ taken (alpha x) (alpha y) None /\ a1 = 1 /\ a2 = 1 /\ alpha r = None) /\
    let part := blended s1 s2 a1 a2 in
    let hue := turned m s1 s2 in
    match kind_of s with
    | Rectangular => part (c1 x) (c1 y) (c1 r) /\ part (c2 x) (c2 y) (c2 r) /\ part (c3 x) (c3 y) (c3 r)
    | HueFirst => hue (c1 x) (c1 y) (c1 r) /\ part (c2 x) (c2 y) (c2 r) /\ part (c3 x) (c3 y) (c3 r)
    | HueLast => part (c1 x) (c1 y) (c1 r) /\ part (c2 x) (c2 y) (c2 r) /\ hue (c3 x) (c3 y) (c3 r)
    end.

(** CSS Color 4, 4.4.1: components without power, which become missing when a colour is converted.
    What is within the precision of the numbers of the code (2^-23) of a value is taken for it. *)
Definition near (z : R) (x : num) : Prop := exists v, x = Some v /\ Rabs (v - z) < / 2 ^ 23.
Definition sum_of (x y : num) : num := match x, y with Some a, Some b => Some (a + b) | _, _ => None end.
Inductive powerless : space -> comps -> comps -> Prop :=
| LabBlack s c : In s [LAB; OKLAB; LCH; OKLCH] -> near 0 (c1 c) -> powerless s c (Comps (c1 c) None None (alpha c))
| LabOther s c : In s [LAB; OKLAB] -> ~ near 0 (c1 c) -> powerless s c c
| LchGrey s c : In s [LCH; OKLCH] -> ~ near 0 (c1 c) -> near 0 (c2 c) -> powerless s c (Comps (c1 c) (c2 c) None (alpha c))
| LchOther s c : In s [LCH; OKLCH] -> ~ near 0 (c1 c) -> ~ near 0 (c2 c) -> powerless s c c
| HslExtreme c : near 0 (c3 c) \/ near 100 (c3 c) -> powerless HSL c (Comps None None (c3 c) (alpha c))
| HslGrey c : ~ near 0 (c3 c) -> ~ near 100 (c3 c) -> near 0 (c2 c) -> powerless HSL c (Comps None (c2 c) (c3 c) (alpha c))
| HslOther c : ~ near 0 (c3 c) -> ~ near 100 (c3 c) -> ~ near 0 (c2 c) -> powerless HSL c c
| HwbGrey c : near 100 (sum_of (c2 c) (c3 c)) -> powerless HWB c (Comps None (c2 c) (c3 c) (alpha c))
| HwbOther c : ~ near 100 (sum_of (c2 c) (c3 c)) -> powerless HWB c c
| Rgb s c : In s [SRGB; SRGBLinear; XYZd50; XYZd65] -> powerless s c c.
(** CSS Color 4, 13: a colour out of the gamut is mapped into it, as property C66 says *)
Inductive brought (s : space) (c : comps) : comps -> Prop :=
| BroughtWithin : in_gamut s c = true -> brought s c c
| BroughtOutside l k h x :
    in_gamut s c = false -> resolved (convert s OKLCH c) = (l, k, h) -> mapped s l k h (resolve_num (alpha (convert s OKLCH c))) x -> brought s c x.
(** The components of a colour in the space in which it is mixed.  The conversion is that of property C66. *)
Inductive operand (s : space) : css -> comps -> Prop :=
| OperandBytes r g b a : s = SRGB -> operand s (Bytes r g b a) (full (IZR r / 255, IZR g / 255, IZR b / 255) (IZR a / 255))
| OperandOwn c : operand s (Plain s c) c
| OperandRGB c : s = SRGB -> operand s (Plain RGB c) (convert RGB SRGB c)
| OperandBytesOther r g b a x : s <> SRGB ->
    powerless s (convert SRGB s (full (IZR r / 255, IZR g / 255, IZR b / 255) (IZR a / 255))) x -> operand s (Bytes r g b a) x
| OperandOther t c y x : t <> s -> ~ (t = RGB /\ s = SRGB) -> brought s (convert t s c) y -> powerless s y x -> operand s (Plain t c) x.

(** What the mixed colour is given as: a byte is the nearest one to the component *)
Definition nearest (b : Z) (v : R) : Prop := (0 <= b <= 255)%Z /\ (0 <= v <= 1 -> Rabs (IZR b - 255 * v) <= 1 / 2) /\ (v < 0 -> b = 0%Z) /\ (1 < v -> b = 255%Z).
Definition value (x : num) (v : R) : Prop := match x with Some y => v = y | None => v = 0 end.
Definition known (x y : comps) : Prop := exists v1 v2 v3 a, value (c1 x) v1 /\ value (c2 x) v2 /\ value (c3 x) v3 /\ value (alpha x) a /\ y = full (v1, v2, v3) a.
(** Missing components are zero, and the colour is brought into the gamut of sRGB *)
Definition in_bytes (c : comps) (out : css) : Prop :=
  exists c0 c' r g b a x y z w,
    known c c0 /\ brought SRGB c0 c' /\ value (c1 c') x /\ value (c2 c') y /\ value (c3 c') z /\ value (alpha c') w /\
    out = Bytes r g b a /\ nearest r x /\ nearest g y /\ nearest b z /\ nearest a w.
Definition given (s : space) (r : comps) (out : css) : Prop :=
  match s with
  | SRGB => in_bytes r out
  | HSL | HWB => in_bytes (convert s SRGB r) out
  | _ => out = Plain s r
  end.

(** The whole: the colours are brought into the space, mixed, and the result is given *)
Definition correct_mix (s : space) (m : hue_method) (p q : R) (a b out : css) : Prop :=
  exists x y r, operand s a x /\ operand s b y /\ mixed s m p q x y r /\ given s r out.

(** ** Which colours are covered *)
Definition mixing (s : space) : Prop :=
  match s with SRGB | SRGBLinear | LAB | OKLAB | XYZd50 | XYZd65 | HSL | HWB | LCH | OKLCH => True | _ => False end.
(** A colour that is converted has no missing components.  A light-dark() has such colours in it. *)
Fixpoint covered (s : space) (c : css) : Prop :=
  match c with
  | Bytes r g b a => (0 <= r <= 255 /\ 0 <= g <= 255 /\ 0 <= b <= 255 /\ 0 <= a <= 255)%Z
  | Plain t d =>
      t <> s -> ~ (t = RGB /\ s = SRGB) -> c1 d <> None /\ c2 d <> None /\ c3 d <> None /\ alpha d <> None
  | LightDark l d => covered s l /\ covered s d
  | CurrentColor | System _ => False
  end.
(** The colour that is used in a light or a dark colour scheme *)
Fixpoint used (is_dark : bool) (c : css) : css :=
  match c with LightDark l d => if is_dark then used is_dark d else used is_dark l | _ => c end.
Fixpoint mentions_unknown (c : css) : Prop :=
  match c with CurrentColor | System _ => True | LightDark l d => mentions_unknown l \/ mentions_unknown d | _ => False end.

(** ** The text: CSS Color 5, 3: color-mix( in <space> [ <method> hue ]?, [ <color> && <percentage>? ]#{2} ) *)
Local Open Scope string_scope.
Definition spaces : list (string * space) :=
  [("srgb", SRGB); ("srgb-linear", SRGBLinear); ("lab", LAB); ("oklab", OKLAB); ("xyz", XYZd65); ("xyz-d50", XYZd50); ("xyz-d65", XYZd65);
   ("hsl", HSL); ("hwb", HWB); ("lch", LCH); ("oklch", OKLCH)].
Definition methods : list (string * hue_method) :=
  [("shorter", Shorter); ("longer", Longer); ("increasing", Increasing); ("decreasing", Decreasing); ("specified", Specified)].
Inductive method_text : space -> hue_method -> list tok -> Prop :=
| NoMethod s : method_text s Shorter []
| AMethod s m w : kind_of s <> Rectangular -> In (w, m) methods -> method_text s m [Word w; Word "hue"].
Inductive part_text : option R -> css -> list tok -> Prop :=
| PartAlone c : part_text None c [Color c]
| PartBefore p c : part_text (Some p) c [Percent p; Color c]
| PartAfter p c : part_text (Some p) c [Color c; Percent p].
Inductive mix_text : space -> hue_method -> option R -> css -> option R -> css -> list tok -> Prop :=
| MixText s w m lm p1 a l1 p2 b l2 :
    In (w, s) spaces -> method_text s m lm -> part_text p1 a l1 -> part_text p2 b l2 ->
    mix_text s m p1 a p2 b ([Word "in"; Word w] ++ lm ++ [Comma] ++ l1 ++ [Comma] ++ l2).
(** CSS Color 5, 3.1 *)
Local Open Scope R_scope.
Inductive percentages : option R -> option R -> R -> R -> Prop :=
| NeitherPercent : percentages None None (1 / 2) (1 / 2)
| FirstPercent p : percentages (Some p) None p (1 - p)
| SecondPercent p : percentages None (Some p) (1 - p) p
| BothPercents p q : percentages (Some p) (Some q) p q.
