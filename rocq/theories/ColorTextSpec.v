(** * The text of colours: CSS Color 4, sections 4-10, and CSS Color 5, section 4 (relative colours) *)
From Coq Require Import Reals ZArith Bool List String.
From Verif Require Import ColorSpaceModel ColorSpaceSpec ColorMixModel ColorMixSpec ColorTextModel.
Import ListNotations.
Local Open Scope R_scope.
Local Open Scope string_scope.

(** Where the code departs from CSS: the type of the hue keyword, the alpha of a relative colour that does not name one, numbers and
    [none] in the old notations with commas, and keywords in a calc() within calc(). *)
Record dialect := Dialect {
  hue_type : ctype; default_alpha : num -> num; old_numbers : Prop; old_none : Prop; deep : Prop }.
Definition css_dialect : dialect := Dialect TNumber (fun a => a) False False True.
Definition read_dialect : dialect := Dialect TAngle (fun _ => Some 1) True True False.

(** ** Values *)
(** What keywords stand for *)
Definition keywords := string -> ctype -> num -> Prop.
Definition no_keywords : keywords := fun _ _ _ => False.
(** CSS Values 4, 10: types and values of calc().  A missing component spreads. *)
Inductive means (d : dialect) (k : keywords) : expr -> ctype -> num -> Prop :=
| MNumber x : means d k (XNumber x) TNumber (Some x)
| MPercentage x : means d k (XPercentage x) TPercentage (Some x)
| MAngle x : means d k (XAngle x) TAngle (Some x)
| MIdent s t x : k s t x -> means d k (XIdent s) t x
| MAdd a b t x y : means d k a t x -> means d k b t y -> means d k (XAdd a b) t (nadd x y)
| MSub a b t x y : means d k a t x -> means d k b t y -> means d k (XSub a b) t (lift2 Rminus x y)
| MMul a b t x y : means d k a TNumber x -> means d k b t y -> means d k (XMul a b) t (nmul x y)
| MMul' a b t x y : means d k a t x -> means d k b TNumber y -> means d k (XMul a b) t (nmul x y)
| MDiv a b t x y : means d k a t x -> means d k b TNumber (Some y) -> y <> 0 -> means d k (XDiv a b) t (option_map (fun v => v / y) x)
| MDivNone a b t x : means d k a t x -> means d k b TNumber None -> means d k (XDiv a b) t None
| MNested e t x : means d no_keywords e t x -> means d k (XNested e) t x
| MDeep e t x : deep d -> means d k e t x -> means d k (XNested e) t x.
Inductive value_of (d : dialect) (k : keywords) : token -> ctype -> num -> Prop :=
| VNumber x : value_of d k (Number x) TNumber (Some x)
| VPercentage x : value_of d k (Percentage x) TPercentage (Some x)
| VAngle x : value_of d k (Angle x) TAngle (Some x)
| VCalc e t x : means d k e t x -> value_of d k (Calc e) t x
| VKeyword s t x : k s t x -> value_of d k (Ident s) t x.
(** A component that is a number or a percentage of [basis], or missing *)
Inductive component (d : dialect) (k : keywords) (basis : R) : token -> num -> Prop :=
| CNumber t x : value_of d k t TNumber x -> component d k basis t x
| CPercentage t x : value_of d k t TPercentage x -> component d k basis t (option_map (fun v => v * basis) x)
| CNone : component d k basis (Ident "none") None.
Inductive hue_component (d : dialect) (k : keywords) : token -> num -> Prop :=
| HNumber t x : value_of d k t TNumber x -> hue_component d k t x
| HAngle t x : value_of d k t TAngle x -> hue_component d k t x
| HNone : hue_component d k (Ident "none") None.

(** ** Clamping and rounding *)
Definition clamped (lo hi : R) (v w : num) : Prop :=
  match v, w with Some x, Some y => y = Rmax lo (Rmin x hi) | None, None => True | _, _ => False end.
Definition raised (v w : num) : Prop := match v, w with Some x, Some y => (0 <= x -> y = x) /\ (x <= 0 -> y = 0) | None, None => True | _, _ => False end.
(** The nearest of the numbers from 0 to 255, halves upwards *)
Definition nearest_byte (x : R) (n : Z) : Prop :=
  (x < 0 -> n = 0%Z) /\ (255 < x -> n = 255%Z) /\ (0 <= x <= 255 -> IZR n - 1 / 2 <= x < IZR n + 1 / 2).
Definition nearest_num (x y : num) : Prop :=
  match x, y with Some v, Some w => exists n, w = IZR n /\ nearest_byte v n | None, None => True | _, _ => False end.

(** ** Colours that others are relative to *)
(** The keywords of a function with their values, and the alpha if none is named *)
Record source := Source { kw : keywords; omitted : num; absolute : bool }.
Definition no_source : source := Source no_keywords (Some 1) true.
Definition names (d : dialect) (s : space) : list (string * ctype) :=
  match s with
  | LAB | OKLAB => [("l", TNumber); ("a", TNumber); ("b", TNumber)]
  | LCH | OKLCH => [("l", TNumber); ("c", TNumber); ("h", hue_type d)]
  | XYZd50 | XYZd65 => [("x", TNumber); ("y", TNumber); ("z", TNumber)]
  | HSL => [("h", hue_type d); ("s", TNumber); ("l", TNumber)]
  | HWB => [("h", hue_type d); ("w", TNumber); ("b", TNumber)]
  | _ => [("r", TNumber); ("g", TNumber); ("b", TNumber)]
  end.
Definition keywords_of (d : dialect) (s : space) (c : comps) : keywords := fun w t x =>
  In ((w, t), x) (List.combine (names d s ++ [("alpha", TNumber)])%list [c1 c; c2 c; c3 c; alpha c]).
(** The colour in the space.  Conversions are those of property C66. *)
Inductive in_space (s : space) : css -> comps -> Prop :=
| InSpaceBytes r g b a : in_space s (Bytes r g b a) (convert SRGB s (full (IZR r / 255, IZR g / 255, IZR b / 255) (IZR a / 255)))
| InSpacePlain t c : in_space s (Plain t c) (convert t s c).
(** The hue of lch() and oklch() is brought to a turn *)
Definition turned_hue (x y : num) : Prop :=
  match x, y with Some h, Some k => same_angle k h /\ 0 <= k < 360 | None, None => True | _, _ => False end.
Inductive source_of (d : dialect) (s : space) (c : css) : source -> Prop :=
| SourceOf x y : in_space s c x -> kind_of s <> HueLast -> y = resolve s x -> source_of d s c (Source (keywords_of d s y) (default_alpha d (alpha y)) false)
| SourceOfHue x y h : in_space s c x -> kind_of s = HueLast -> y = resolve s x -> turned_hue (c3 y) h ->
    source_of d s c (Source (keywords_of d s (Comps (c1 y) (c2 y) h (alpha y))) (default_alpha d (alpha y)) false).
(** The same thing for both halves of a light-dark() *)
Inductive halves (R : css -> css -> Prop) : css -> css -> Prop :=
| HalvesPair a b x y : halves R a x -> halves R b y -> halves R (LightDark a b) (LightDark x y)
| HalvesOne a x : is_pair a = false -> R a x -> halves R a x.

(** ** The notations, without their names and origins *)
Inductive alpha_text (d : dialect) (src : source) : list token -> num -> Prop :=
| AlphaOmitted : alpha_text d src [] (omitted src)
| AlphaGiven t v w : component d (kw src) 1 t v -> clamped 0 1 v w -> alpha_text d src [Slash; t] w.
Inductive old_alpha_text (d : dialect) : list token -> num -> Prop :=
| OldAlphaOmitted : old_alpha_text d [] (Some 1)
| OldAlphaGiven t v w : component d no_keywords 1 t v -> (v = None -> old_none d) -> clamped 0 1 v w -> old_alpha_text d [CommaToken; t] w.
(** A colour of sRGB with components from 0 to 255: rounded to bytes, unless something is missing *)
Inductive rgb_color : num -> num -> num -> num -> css -> Prop :=
| RgbBytes r g b a r' g' b' a' :
    nearest_byte r r' -> nearest_byte g g' -> nearest_byte b b' -> nearest_byte (255 * a) a' -> rgb_color (Some r) (Some g) (Some b) (Some a) (Bytes r' g' b' a')
| RgbMissing r g b a r' g' b' :
    r = None \/ g = None \/ b = None \/ a = None -> nearest_num r r' -> nearest_num g g' -> nearest_num b b' -> rgb_color r g b a (Plain RGB (Comps r' g' b' a)).
(** A colour of HSL or HWB: as bytes (properties C65 and C66), unless something is missing *)
Inductive hue_color (s : space) : num -> num -> num -> num -> css -> Prop :=
| HueBytes h x y a : hue_color s (Some h) (Some x) (Some y) (Some a) (into_css s (full (h, x, y) a))
| HueMissing h x y a : h = None \/ x = None \/ y = None \/ a = None -> hue_color s h x y a (Plain s (Comps h x y a)).
Definition lab_bases : list (space * (R * R)) := [(LAB, (100, 125)); (OKLAB, (1, 0.4))].
Definition lch_bases : list (space * (R * R)) := [(LCH, (100, 150)); (OKLCH, (1, 0.4))].
Definition percent_only (d : dialect) (t : token) (x : num) : Prop :=
  (exists v, value_of d no_keywords t TPercentage v /\ x = option_map (fun v => v * 100) v) \/ old_numbers d /\ value_of d no_keywords t TNumber x.
Inductive body (d : dialect) (src : source) : space -> list token -> css -> Prop :=
| LabText s lb ab t1 t2 t3 la x x' y z a :
    In (s, (lb, ab)) lab_bases -> component d (kw src) lb t1 x -> raised x x' -> component d (kw src) ab t2 y -> component d (kw src) ab t3 z ->
    alpha_text d src la a -> body d src s (t1 :: t2 :: t3 :: la) (Plain s (Comps x' y z a))
| LchText s lb cb t1 t2 t3 la x x' y y' z a :
    In (s, (lb, cb)) lch_bases -> component d (kw src) lb t1 x -> raised x x' -> component d (kw src) cb t2 y -> raised y y' ->
    hue_component d (kw src) t3 z -> alpha_text d src la a -> body d src s (t1 :: t2 :: t3 :: la) (Plain s (Comps x' y' z a))
| RgbText t1 t2 t3 la r g b a c :
    component d (kw src) 255 t1 r -> component d (kw src) 255 t2 g -> component d (kw src) 255 t3 b -> alpha_text d src la a ->
    rgb_color r g b a c -> body d src RGB (t1 :: t2 :: t3 :: la) c
| RgbOld ty t1 t2 t3 la r g b a basis c :
    absolute src = true -> ty = TNumber /\ basis = 1 \/ ty = TPercentage /\ basis = 255 ->
    value_of d no_keywords t1 ty (Some r) -> value_of d no_keywords t2 ty (Some g) -> value_of d no_keywords t3 ty (Some b) -> old_alpha_text d la a ->
    rgb_color (Some (r * basis)) (Some (g * basis)) (Some (b * basis)) a c ->
    body d src RGB (t1 :: CommaToken :: t2 :: CommaToken :: t3 :: la) c
| HueText s t1 t2 t3 la h x x' y y' a c :
    In s [HSL; HWB] -> hue_component d (kw src) t1 h -> component d (kw src) 100 t2 x -> clamped 0 100 x x' -> component d (kw src) 100 t3 y ->
    clamped 0 100 y y' -> alpha_text d src la a -> hue_color s h x' y' a c -> body d src s (t1 :: t2 :: t3 :: la) c
| HslOld t1 t2 t3 la h x x' y y' a c :
    absolute src = true -> hue_component d no_keywords t1 (Some h) -> percent_only d t2 (Some x) -> clamped 0 100 (Some x) x' ->
    percent_only d t3 (Some y) -> clamped 0 100 (Some y) y' -> old_alpha_text d la a -> hue_color HSL (Some h) x' y' a c ->
    body d src HSL (t1 :: CommaToken :: t2 :: CommaToken :: t3 :: la) c.
(** color() *)
Definition predefined_names : list (string * space) :=
  [("srgb", SRGB); ("srgb-linear", SRGBLinear); ("display-p3", P3); ("a98-rgb", A98); ("prophoto-rgb", ProPhoto); ("rec2020", Rec2020);
   ("xyz", XYZd65); ("xyz-d50", XYZd50); ("xyz-d65", XYZd65)].
Inductive color_body (d : dialect) (src : source) (s : space) : list token -> css -> Prop :=
| ColorText t1 t2 t3 la x y z a :
    component d (kw src) 1 t1 x -> component d (kw src) 1 t2 y -> component d (kw src) 1 t3 z -> alpha_text d src la a ->
    color_body d src s (t1 :: t2 :: t3 :: la) (Plain s (Comps x y z a)).
Inductive color_source (d : dialect) (s : space) (c : css) : source -> Prop :=
| ColorSource x y : in_space s c x -> y = resolve_missing x -> color_source d s c (Source (keywords_of d s y) (default_alpha d (alpha y)) false).

(** ** The whole *)
Definition function_names : list (string * space) :=
  [("lab", LAB); ("oklab", OKLAB); ("lch", LCH); ("oklch", OKLCH); ("hsl", HSL); ("hsla", HSL); ("hwb", HWB); ("rgb", RGB); ("rgba", RGB)].
Section Mix.
Variable d : dialect.
Variable R : token -> css -> Prop.
(** The tokens of color-mix(), whose grammar property C65 has *)
Inductive mix_part : token -> tok -> Prop :=
| MixWord s : mix_part (Ident s) (Word s)
| MixComma : mix_part CommaToken Comma
| MixPercent t p : value_of d no_keywords t TPercentage (Some p) -> mix_part t (Percent p)
| MixColor t c : R t c -> mix_part t (Color c).
End Mix.
Inductive color_text (d : dialect) : token -> css -> Prop :=
| TextLeaf c : color_text d (Leaf c) c
| TextAbsolute name s args c : In (name, s) function_names -> body d no_source s args c -> color_text d (Fn name args) c
| TextRelative name s o args co c :
    In (name, s) function_names -> color_text d o co ->
    halves (fun co c => exists src, source_of d s co src /\ body d src s args c) co c -> color_text d (Fn name (Ident "from" :: o :: args)) c
| TextColor name s args c : In (name, s) predefined_names -> color_body d no_source s args c -> color_text d (Fn "color" (Ident name :: args)) c
| TextColorRelative name s o args co c :
    In (name, s) predefined_names -> color_text d o co ->
    halves (fun co c => exists src, color_source d s co src /\ color_body d src s args c) co c ->
    color_text d (Fn "color" (Ident "from" :: o :: Ident name :: args)) c
| TextLightDark a b ca cb : color_text d a ca -> color_text d b cb ->
    color_text d (Fn "light-dark" [a; CommaToken; b]) (LightDark (used false ca) (used true cb))
| TextMix args l s m p1 a p2 b q1 q2 c :
    Forall2 (mix_part d (color_text d)) args l -> mix_text s m p1 a p2 b l -> percentages p1 p2 q1 q2 -> q1 + q2 <> 0 -> interpolate s m q1 q2 a b = Some c ->
    color_text d (Fn "color-mix" args) c.
(** A leaf is a colour in bytes, currentColor or a system colour *)
Definition simple (c : css) : Prop :=
  match c with Bytes r g b a => (0 <= r <= 255 /\ 0 <= g <= 255 /\ 0 <= b <= 255 /\ 0 <= a <= 255)%Z | CurrentColor | System _ => True | _ => False end.
Fixpoint proper (t : token) : Prop :=
  match t with Leaf c => simple c | Fn _ args => fold_right (fun t p => proper t /\ p) True args | _ => True end.
(** Colours that are relative to others and on which the code and CSS agree: an alpha is given, calc() has no keywords in it, and [h] only
    stands where a hue stands *)
Fixpoint no_names (e : expr) : Prop :=
  match e with
  | XIdent _ => False
  | XAdd a b | XSub a b | XMul a b | XDiv a b => no_names a /\ no_names b
  | XNested e => no_names e
  | XNumber _ | XPercentage _ | XAngle _ => True
  end.
Definition hue_place (name : string) : nat := if in_dec string_dec name ["hsl"; "hsla"; "hwb"] then 0%nat else 2%nat.
Definition careful_body (name : string) (l : list token) : Prop :=
  In Slash l /\ (forall e, In (Calc e) l -> no_names e) /\ forall n, nth_error l n = Some (Ident "h") -> n = hue_place name.
Fixpoint careful (t : token) : Prop :=
  match t with
  | Fn name args => (forall o l, args = Ident "from" :: o :: l -> careful_body name l) /\ fold_right (fun t p => careful t /\ p) True args
  | _ => True
  end.
(** No color-mix() *)
Fixpoint no_mix (t : token) : Prop :=
  match t with Fn name args => name <> "color-mix" /\ fold_right (fun t p => no_mix t /\ p) True args | _ => True end.

(** ** Printed colours *)
(** The colour that is read where [c] was printed: an alpha of nearly 1 is 1, and colours of rgb(), hsl() and hwb() with missing
    components become bytes, the missing ones being 0.  [hsl_rgb] and [hwb_rgb] are those of property C66. *)
Inductive same_alpha : num -> num -> Prop :=
| SameAlpha a : same_alpha a a
| SameOne x : Rabs (x - 1) <= / 2 ^ 23 -> same_alpha (Some x) (Some 1).
Definition in_srgb (s : space) (v w : triple) : Prop :=
  match s with
  | RGB => let '(x, y, z) := v in w = (x / 255, y / 255, z / 255)
  | HSL => hsl_rgb v w
  | HWB => hwb_rgb v w
  | _ => False
  end.
Inductive reads_as : css -> css -> Prop :=
| ReadsSimple c : simple c -> reads_as c c
| ReadsPlain s x y z a a' : ~ In s [RGB; HSL; HWB] -> same_alpha a a' -> reads_as (Plain s (Comps x y z a)) (Plain s (Comps x y z a'))
| ReadsBytes s x y z a x' y' z' a' u v w r g b al :
    value x x' -> value y y' -> value z z' -> value a a' -> in_srgb s (x', y', z') (u, v, w) ->
    nearest r u -> nearest g v -> nearest b w -> nearest al a' -> reads_as (Plain s (Comps x y z a)) (Bytes r g b al)
| ReadsPair a b x y : reads_as a x -> reads_as b y -> reads_as (LightDark a b) (LightDark x y).
