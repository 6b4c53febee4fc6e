(** * [color-mix()] (src/values/color.rs:3247-3684).  Simplifications as in [ColorSpaceModel]. *)
From Coq Require Import Reals ZArith Bool List String.
From Verif Require Import MatrixModel ColorSpaceModel.
Import ListNotations.
Local Open Scope R_scope.

(** color.rs:46-73, 169-230: [Plain] is [CssColor::LAB], [Predefined] or [Float], by its space; [Bytes] is [CssColor::RGBA] *)
Inductive css := Bytes (r g b a : Z) | Plain (s : space) (c : comps) | CurrentColor | LightDark (light dark : css) | System (name : string).

(** color.rs:1654-1674 *)
Definition clamp_floor_256 (v : R) : Z := Int_part (Rmin (Rmax (round v) 0) 255).
Definition clamp_unit (v : R) : Z := clamp_floor_256 (v * 255).
(** color.rs:2730-2746 *)
Definition of_bytes (r g b a : Z) : comps := full (IZR r / 255, IZR g / 255, IZR b / 255) (IZR a / 255).
Definition to_bytes (c : comps) : css :=
  let c := resolve_srgb c in
  let '(r, g, b) := resolved c in Bytes (clamp_unit r) (clamp_unit g) (clamp_unit b) (clamp_unit (resolve_num (alpha c))).

(** color.rs:2964-2992 *)
Definition try_from (t : space) (c : css) : option comps :=
  match c with
  | Bytes r g b a => Some (convert SRGB t (of_bytes r g b a))
  | Plain s c => Some (convert s t c)
  | CurrentColor | LightDark _ _ | System _ => None
  end.
(** color.rs:3311-3337; [None] is unreachable *)
Definition own_space (c : css) : option space :=
  match c with
  | Bytes _ _ _ _ => Some SRGB
  | Plain RGB _ => Some SRGB
  | Plain s _ => Some s
  | CurrentColor | LightDark _ _ | System _ => None
  end.
(** color.rs:3013-3079 *)
Definition into_css (s : space) (c : comps) : css :=
  match s with
  | SRGB => to_bytes c
  | HSL => to_bytes (convert HSL SRGB c)
  | HWB => to_bytes (convert HWB SRGB c)
  | RGB => to_bytes (convert RGB SRGB c)
  | _ => Plain s c
  end.

(** f32::EPSILON *)
Definition f32_epsilon : R := / 2 ^ 23.
(** Comparisons with NaN are false *)
Definition nabs_lt (x : num) (e : R) : bool := match x with Some v => ltb (Rabs v) e | None => false end.
(** color.rs:3524-3549, 3604-3615, 3627-3633 *)
Definition adjust_powerless (s : space) (c : comps) : comps :=
  match s with
  | LAB | OKLAB => if nabs_lt (c1 c) f32_epsilon then Comps (c1 c) None None (alpha c) else c
  | LCH | OKLCH =>
      let c := if nabs_lt (c2 c) f32_epsilon then Comps (c1 c) (c2 c) None (alpha c) else c in
      if nabs_lt (c1 c) f32_epsilon then Comps (c1 c) None None (alpha c) else c
  | HSL =>
      let c := if nabs_lt (c2 c) f32_epsilon then Comps None (c2 c) (c3 c) (alpha c) else c in
      if nabs_lt (c3 c) f32_epsilon || nabs_lt (nadd (c3 c) (Some (-100))) f32_epsilon then Comps None None (c3 c) (alpha c) else c
  | HWB => if nabs_lt (nadd (nadd (c2 c) (c3 c)) (Some (-100))) f32_epsilon then Comps None (c2 c) (c3 c) (alpha c) else c
  | _ => c
  end.
(** color.rs:3454-3470 *)
Definition fill (x y : num) : num := match x with None => y | Some _ => x end.
Definition fill_missing (c d : comps) : comps := Comps (fill (c1 c) (c1 d)) (fill (c2 c) (c2 d)) (fill (c3 c) (c3 d)) (fill (alpha c) (alpha d)).

(** color.rs:265-280 *)
Inductive hue_method := Shorter | Longer | Increasing | Decreasing | Specified.
(** color.rs:3642-3684: on two angles, neither of them missing *)
Definition normal (a : R) : R := frem (frem a 360 + 360) 360.
Definition interpolate_hue (m : hue_method) (a b : R) : R * R :=
  let '(a, b) := match m with Specified => (a, b) | _ => (normal a, normal b) end in
  let delta := b - a in
  match m with
  | Shorter => if ltb 180 delta then (a + 360, b) else if ltb delta (-180) then (a, b + 360) else (a, b)
  | Longer => if ltb 0 delta && ltb delta 180 then (a + 360, b) else if ltb (-180) delta && ltb delta 0 then (a, b + 360) else (a, b)
  | Increasing => if ltb b a then (a, b + 360) else (a, b)
  | Decreasing => if ltb a b then (a + 360, b) else (a, b)
  | Specified => (a, b)
  end.
(** With a missing angle no comparison holds; an angle that is there is normalised *)
Definition interpolate_num (m : hue_method) (a b : num) : num * num :=
  match a, b with
  | Some x, Some y => let '(x, y) := interpolate_hue m x y in (Some x, Some y)
  | _, _ => match m with Specified => (a, b) | _ => (option_map normal a, option_map normal b) end
  end.
(** color.rs:3551-3553, 3617-3619, 3635-3637, 3443 *)
Definition adjust_hue (s : space) (m : hue_method) (c d : comps) : comps * comps :=
  match s with
  | LCH | OKLCH => let '(x, y) := interpolate_num m (c3 c) (c3 d) in (Comps (c1 c) (c2 c) x (alpha c), Comps (c1 d) (c2 d) y (alpha d))
  | HSL | HWB => let '(x, y) := interpolate_num m (c1 c) (c1 d) in (Comps x (c2 c) (c3 c) (alpha c), Comps y (c2 d) (c3 d) (alpha d))
  | _ => (c, d)
  end.
(** color.rs:3483-3522, 3557-3640 *)
Definition premultiply (s : space) (c : comps) : comps :=
  match alpha c with
  | None => c
  | Some _ =>
      let f x := nmul x (alpha c) in
      match s with
      | LCH | OKLCH => Comps (f (c1 c)) (f (c2 c)) (c3 c) (alpha c)
      | HSL | HWB => Comps (c1 c) (f (c2 c)) (f (c3 c)) (alpha c)
      | _ => Comps (f (c1 c)) (f (c2 c)) (f (c3 c)) (alpha c)
      end
  end.
Definition is_zero (x : num) : bool := match x with Some v => eqb v 0 | None => false end.
Definition unpremultiply (s : space) (mult : R) (c : comps) : comps :=
  let f x := ndiv x (alpha c) in
  let rem x := option_map (fun h => frem h 360) x in
  let a := nmul (alpha c) (Some mult) in
  match s with
  | LCH | OKLCH => match alpha c with None => Comps (c1 c) (c2 c) (rem (c3 c)) None | Some _ => Comps (f (c1 c)) (f (c2 c)) (rem (c3 c)) a end
  | HSL | HWB => match alpha c with None => Comps (rem (c1 c)) (c2 c) (c3 c) None | Some _ => Comps (rem (c1 c)) (f (c2 c)) (f (c3 c)) a end
  | _ => match alpha c with None => c | Some _ => if is_zero (alpha c) then c else Comps (f (c1 c)) (f (c2 c)) (f (c3 c)) a end
  end.
(** color.rs:3472-3479 *)
Definition mean (p1 p2 : R) (x y : num) : num := nadd (nmul x (Some p1)) (nmul y (Some p2)).
Definition interpolate_comps (p1 p2 : R) (c d : comps) : comps :=
  Comps (mean p1 p2 (c1 c) (c1 d)) (mean p1 p2 (c2 c) (c2 d)) (mean p1 p2 (c3 c) (c3 d)) (mean p1 p2 (alpha c) (alpha d)).
(** color.rs:3383-3432: two colours, in components of the space *)
Definition prepare (t : space) (c : css) (x : comps) : comps :=
  match own_space c with
  | Some s => if space_eq_dec s t then x else adjust_powerless t (if in_gamut t x then x else map_gamut t x)
  | None => x
  end.
Definition mix_comps (t : space) (m : hue_method) (p1 p2 : R) (x y : comps) : comps :=
  let x := fill_missing x y in
  let y := fill_missing y x in
  let '(x, y) := adjust_hue t m x y in
  let x := premultiply t x in
  let y := premultiply t y in
  let sum := p1 + p2 in
  let '(p1, p2, mult) := if eqb sum 1 then (p1, p2, sum) else (p1 / sum, p2 / sum, if ltb 1 sum then 1 else sum) in
  unpremultiply t mult (interpolate_comps p1 p2 x y).
(** color.rs:3339-3433 *)
Definition is_unknown (c : css) : bool := match c with CurrentColor | System _ => true | _ => false end.
Definition interpolate_plain (t : space) (m : hue_method) (p1 p2 : R) (a b : css) : option css :=
  match try_from t a, try_from t b with
  | Some x, Some y => Some (into_css t (mix_comps t m p1 p2 (prepare t a x) (prepare t b y)))
  | _, _ => None
  end.
Definition light (c : css) : css := match c with LightDark l _ => l | _ => c end.
Definition dark (c : css) : css := match c with LightDark _ d => d | _ => c end.
Definition is_pair (c : css) : bool := match c with LightDark _ _ => true | _ => false end.
(** [fuel] bounds how deeply light-dark() is nested; [interpolate] gives enough *)
Fixpoint interpolate_fuel (fuel : nat) (t : space) (m : hue_method) (p1 p2 : R) (a b : css) : option css :=
  if is_unknown a || is_unknown b then None
  else if is_pair a || is_pair b then
    match fuel with
    | O => None
    | S fuel =>
        match interpolate_fuel fuel t m p1 p2 (light a) (light b), interpolate_fuel fuel t m p1 p2 (dark a) (dark b) with
        | Some l, Some d => Some (LightDark l d)
        | _, _ => None
        end
    end
  else interpolate_plain t m p1 p2 a b.
Fixpoint depth (c : css) : nat := match c with LightDark l d => S (Nat.max (depth l) (depth d)) | _ => O end.
Definition interpolate (t : space) (m : hue_method) (p1 p2 : R) (a b : css) : option css := interpolate_fuel (Nat.max (depth a) (depth b)) t m p1 p2 a b.

(** ** The function: color.rs:3247-3308.  Simplification: a colour is one token; keywords are compared in lower case. *)
Inductive tok := Word (s : string) | Comma | Percent (p : R) | Color (c : css).
Local Open Scope string_scope.
(** color.rs:247-263, 3293-3306 *)
Definition space_name (s : string) : option space :=
  if String.eqb s "srgb" then Some SRGB else if String.eqb s "srgb-linear" then Some SRGBLinear
  else if String.eqb s "lab" then Some LAB else if String.eqb s "oklab" then Some OKLAB
  else if String.eqb s "xyz" then Some XYZd65 else if String.eqb s "xyz-d50" then Some XYZd50 else if String.eqb s "xyz-d65" then Some XYZd65
  else if String.eqb s "hsl" then Some HSL else if String.eqb s "hwb" then Some HWB
  else if String.eqb s "lch" then Some LCH else if String.eqb s "oklch" then Some OKLCH
  else None.
Definition method_name (s : string) : option hue_method :=
  if String.eqb s "shorter" then Some Shorter else if String.eqb s "longer" then Some Longer
  else if String.eqb s "increasing" then Some Increasing else if String.eqb s "decreasing" then Some Decreasing
  else if String.eqb s "specified" then Some Specified else None.
Definition is_polar (s : space) : bool := match s with HSL | HWB | LCH | OKLCH => true | _ => false end.
(** color.rs:3251-3264 *)
Definition parse_method (s : space) (l : list tok) : option (hue_method * list tok) :=
  if is_polar s then
    match l with
    | Word w :: r =>
        match method_name w with
        | Some m => match r with Word h :: r => if String.eqb h "hue" then Some (m, r) else None | _ => None end
        | None => Some (Shorter, l)
        end
    | _ => Some (Shorter, l)
    end
  else Some (Shorter, l).
Definition parse_comma (l : list tok) : option (list tok) := match l with Comma :: r => Some r | _ => None end.
Definition parse_percent (l : list tok) : option R * list tok := match l with Percent p :: r => (Some p, r) | _ => (None, l) end.
(** color.rs:3267-3271, 3274-3278 *)
Definition parse_part (l : list tok) : option (option R * css * list tok) :=
  let '(p, l) := parse_percent l in
  match l with
  | Color c :: l => match p with Some _ => Some (p, c, l) | None => let '(p, l) := parse_percent l in Some (p, c, l) end
  | _ => None
  end.
(** color.rs:3280-3287 *)
Local Open Scope R_scope.
Definition shares (p1 p2 : option R) : R * R :=
  match p1, p2 with
  | None, None => (0.5, 0.5)
  | Some p, None => (p, 1 - p)
  | None, Some p => (1 - p, p)
  | Some p, Some q => (p, q)
  end.
(** The block has to be used up, as [parse_nested_block] asks for *)
Definition parse_color_mix (l : list tok) : option css :=
  match l with
  | Word i :: Word s :: l =>
      if String.eqb i "in" then
        match space_name s with
        | Some s =>
            match parse_method s l with
            | Some (m, l) =>
                match parse_comma l with
                | Some l =>
                    match parse_part l with
                    | Some (p1, a, l) =>
                        match parse_comma l with
                        | Some l =>
                            match parse_part l with
                            | Some (p2, b, []) =>
                                let '(p1, p2) := shares p1 p2 in if eqb (p1 + p2) 0 then None else interpolate s m p1 p2 a b
                            | _ => None
                            end
                        | None => None
                        end
                    | None => None
                    end
                | None => None
                end
            | None => None
            end
        | None => None
        end
      else None
  | _ => None
  end.
