(** * Colour functions, read and printed (src/values/color.rs:530-1485).
    Simplifications, besides those of [ColorSpaceModel]: keywords are compared in lower case; tokens that are colours by themselves
    (hash colours, which property C37 is about, and names) are leaves; angles are in degrees; of math functions there is calc() with
    sums and products; f32::MAX is no bound. *)
From Coq Require Import Reals ZArith Bool List String.
From Verif Require Import MatrixModel ColorSpaceModel ColorMixModel.
Import ListNotations.
Local Open Scope R_scope.
Local Open Scope string_scope.

(** The content of calc(): [XNested] is another calc() in it.  A percentage is a fraction. *)
Inductive expr :=
| XNumber (x : R) | XPercentage (x : R) | XAngle (x : R) | XIdent (s : string)
| XAdd (a b : expr) | XSub (a b : expr) | XMul (a b : expr) | XDiv (a b : expr) | XNested (e : expr).
Inductive token :=
| Ident (s : string) | Number (x : R) | Percentage (x : R) | Angle (x : R) | Calc (e : expr) | CommaToken | Slash
| Leaf (c : css) | Fn (name : string) (args : list token).

(** The result of a parser; [Crash] is a panic *)
Inductive out (A : Type) := Ok (a : A) | Fail | Crash.
Arguments Ok {A}. Arguments Fail {A}. Arguments Crash {A}.
Definition bind {A B} (x : out A) (f : A -> out B) : out B := match x with Ok a => f a | Fail => Fail | Crash => Crash end.
Notation "x <- a ;; b" := (bind a (fun x => b)) (at level 60, a at next level, right associativity).
(** [try_parse] and then something else *)
Definition or_else {A} (x y : out A) : out A := match x with Ok a => Ok a | Fail => y | Crash => Crash end.
Definition of_option {A} (x : option A) : out A := match x with Some a => Ok a | None => Fail end.

(** ** calc(): src/values/calc.rs:346-358, 540-656, 902-962 *)
Inductive ctype := TNumber | TPercentage | TAngle.
Definition ctype_eqb (a b : ctype) : bool :=
  match a, b with TNumber, TNumber | TPercentage, TPercentage | TAngle, TAngle => true | _, _ => false end.
(** [Calc::Number], [Calc::Value], and [Calc::Sum] of a number and a value *)
Inductive ev := ENumber (x : num) | EValue (x : num) | EMixed.
Definition ev_scale (e : ev) (k : num) : ev := match e with ENumber x => ENumber (nmul x k) | EValue x => EValue (nmul x k) | EMixed => EMixed end.
Definition ev_add (a b : ev) : option ev :=
  match a, b with
  | EValue x, EValue y => Some (EValue (nadd x y))
  | ENumber x, ENumber y => Some (ENumber (nadd x y))
  | ENumber _, _ | _, ENumber _ => Some EMixed
  | _, _ => None
  end.
Definition ev_mul (a b : ev) : option ev :=
  match b with
  | ENumber y => Some (ev_scale a y)
  | _ => match a with ENumber x => Some (ev_scale b x) | _ => None end
  end.
Definition ev_div (a b : ev) : option ev :=
  match b with
  | ENumber (Some y) => if eqb y 0 then None else Some (ev_scale a (Some (1 / y)))
  | ENumber None => Some (ev_scale a None)
  | _ => None
  end.
Definition both {A B C} (f : A -> B -> option C) (x : option A) (y : option B) : option C :=
  match x, y with Some a, Some b => f a b | _, _ => None end.
(** A calc() that is to be of the type [w]; [look] finds identifiers, but not those in a calc() within *)
Fixpoint eval (w : ctype) (look : string -> option ev) (e : expr) : option ev :=
  match e with
  | XNumber x => Some (ENumber (Some x))
  | XPercentage x => if ctype_eqb w TPercentage then Some (EValue (Some x)) else None
  | XAngle x => if ctype_eqb w TAngle then Some (EValue (Some x)) else None
  | XIdent s => look s
  | XAdd a b => both ev_add (eval w look a) (eval w look b)
  | XSub a b => both ev_add (eval w look a) (option_map (fun v => ev_scale v (Some (-1))) (eval w look b))
  | XMul a b => both ev_mul (eval w look a) (eval w look b)
  | XDiv a b => both ev_div (eval w look a) (eval w look b)
  | XNested e => eval w (fun _ => None) e
  end.
Definition no_ident (s : string) : option ev := None.

(** The tokens of the arguments, with colours read *)
Inductive flat := FIdent (s : string) | FNumber (x : R) | FPercentage (x : R) | FAngle (x : R) | FCalc (e : expr) | FComma | FSlash | FColor (c : out css).
(** number.rs:17-30 *)
Definition number_parse (t : flat) : out num :=
  match t with
  | FCalc e => match eval TNumber no_ident e with Some (ENumber x) | Some (EValue x) => Ok x | _ => Fail end
  | FNumber x => Ok (Some x)
  | _ => Fail
  end.
(** percentage.rs:25-37: what calc() gives is not expected to be a number or a sum *)
Definition percentage_parse (t : flat) : out num :=
  match t with
  | FCalc e => match eval TPercentage no_ident e with Some (EValue x) => Ok x | Some _ => Crash | None => Fail end
  | FPercentage x => Ok (Some x)
  | _ => Fail
  end.
(** angle.rs:44-85 *)
Definition angle_parse (t : flat) : out num :=
  match t with
  | FCalc e => match eval TAngle no_ident e with Some (EValue x) => Ok x | _ => Fail end
  | FAngle x => Ok (Some x)
  | _ => Fail
  end.
Definition none_parse (t : flat) : out num := match t with FIdent s => if String.eqb s "none" then Ok None else Fail | _ => Fail end.

(** ** Channel keywords of relative colours *)
(** color.rs:1577-1843 *)
Definition channels (s : space) : string * string * string :=
  match s with
  | LAB | OKLAB => ("l", "a", "b")
  | LCH | OKLCH => ("l", "c", "h")
  | XYZd50 | XYZd65 => ("x", "y", "z")
  | HSL => ("h", "s", "l")
  | HWB => ("h", "w", "b")
  | _ => ("r", "g", "b")
  end.
Definition types (s : space) : ctype * ctype * ctype :=
  match s with
  | LCH | OKLCH => (TNumber, TNumber, TAngle)
  | HSL | HWB => (TAngle, TNumber, TNumber)
  | _ => (TNumber, TNumber, TNumber)
  end.
(** color.rs:690-695 *)
Record origin := Origin { o_space : space; o_comps : comps }.
(** color.rs:706-729 *)
Definition get_ident (o : origin) (s : string) (allowed : ctype -> bool) : option (num * ctype) :=
  let '(n1, n2, n3) := channels (o_space o) in
  let '(t1, t2, t3) := types (o_space o) in
  if String.eqb s n1 && allowed t1 then Some (c1 (o_comps o), t1)
  else if String.eqb s n2 && allowed t2 then Some (c2 (o_comps o), t2)
  else if String.eqb s n3 && allowed t3 then Some (c3 (o_comps o), t3)
  else if String.eqb s "alpha" && (allowed TNumber || allowed TPercentage) then Some (alpha (o_comps o), TNumber)
  else None.
Definition look_up (o : origin) (allowed : ctype -> bool) (s : string) : option ev :=
  match get_ident o s allowed with Some (x, TNumber) => Some (ENumber x) | Some (x, _) => Some (EValue x) | None => None end.
Definition angle_or_number_type (t : ctype) : bool := match t with TAngle | TNumber => true | TPercentage => false end.
Definition number_or_percentage_type (t : ctype) : bool := match t with TPercentage | TNumber => true | TAngle => false end.
(** A number, or a value of the other type *)
Inductive either := AsNumber (x : num) | AsValue (x : num).
(** color.rs:758-791, 832-865 *)
Definition relative (w : ctype) (allowed : ctype -> bool) (o : origin) (t : flat) : out either :=
  match t with
  | FIdent s => match get_ident o s allowed with Some (x, TNumber) => Ok (AsNumber x) | Some (x, _) => Ok (AsValue x) | None => Fail end
  | FCalc e => match eval w (look_up o allowed) e with Some (ENumber x) => Ok (AsNumber x) | Some (EValue x) => Ok (AsValue x) | _ => Fail end
  | _ => Fail
  end.
Definition relative_if (w : ctype) (allowed : ctype -> bool) (o : option origin) (t : flat) : out either :=
  match o with Some o => relative w allowed o t | None => Fail end.
(** color.rs:948-972, 1005-1028; [none] is allowed *)
Definition angle_or_number (o : option origin) (t : flat) : out either :=
  or_else (relative_if TAngle angle_or_number_type o t)
    (or_else (x <- angle_parse t ;; Ok (AsValue x)) (x <- or_else (number_parse t) (none_parse t) ;; Ok (AsNumber x))).
Definition number_or_percentage (o : option origin) (t : flat) : out either :=
  or_else (relative_if TPercentage number_or_percentage_type o t)
    (or_else (x <- number_parse t ;; Ok (AsNumber x)) (or_else (x <- percentage_parse t ;; Ok (AsValue x)) (x <- none_parse t ;; Ok (AsNumber x)))).
(** color.rs:974-1003, without a colour that the components are relative to *)
Definition plain_number (t : flat) : out num := or_else (number_parse t) (none_parse t).
Definition plain_percentage (t : flat) : out num := or_else (percentage_parse t) (none_parse t).
(** color.rs:1365-1385 *)
Definition hue (o : option origin) (t : flat) : out num := x <- angle_or_number o t ;; Ok (match x with AsNumber v | AsValue v => v end).
Definition comp (o : option origin) (basis : R) (t : flat) : out num :=
  x <- number_or_percentage o t ;; Ok (match x with AsNumber v => v | AsValue v => nmul v (Some basis) end).
(** All of these read one token *)
Definition next {A} (f : flat -> out A) (l : list flat) : out (A * list flat) :=
  match l with t :: l => a <- f t ;; Ok (a, l) | [] => Fail end.
Definition comma (l : list flat) : out (list flat) := match l with FComma :: l => Ok l | _ => Fail end.
Definition starts_with_comma (l : list flat) : bool := match l with FComma :: _ => true | _ => false end.
Definition not_negative (x : num) : num := option_map (Rmax 0) x.
(** color.rs:1387-1411 *)
Definition parse_alpha (o : option origin) (l : list flat) : out (num * list flat) :=
  match l with
  | FSlash :: l => x <- next (comp o 1) l ;; Ok (nclamp (fst x) 0 1, snd x)
  | _ => Ok (Some 1, l)
  end.
Definition parse_legacy_alpha (o : option origin) (l : list flat) : out (num * list flat) :=
  match l with
  | [] => Ok (Some 1, l)
  | _ => l <- comma l ;; x <- next (comp o 1) l ;; Ok (nclamp (fst x) 0 1, snd x)
  end.

(** ** The functions *)
Definition parser := option origin -> list flat -> out (css * list flat).
(** color.rs:1099-1123 *)
Definition parse_lab (s : space) (l_basis ab_basis : R) : parser := fun o l =>
  x <- next (comp o l_basis) l ;; y <- next (comp o ab_basis) (snd x) ;; z <- next (comp o ab_basis) (snd y) ;;
  a <- parse_alpha o (snd z) ;; Ok (Plain s (Comps (not_negative (fst x)) (fst y) (fst z) (fst a)), snd a).
(** color.rs:1125-1155 *)
Definition turn (o : origin) : origin :=
  let c := o_comps o in
  Origin (o_space o) (Comps (c1 c) (c2 c) (option_map (fun h => let h := frem h 360 in if ltb h 0 then h + 360 else h) (c3 c)) (alpha c)).
Definition parse_lch (s : space) (l_basis c_basis : R) : parser := fun o l =>
  let o := option_map turn o in
  x <- next (comp o l_basis) l ;; y <- next (comp o c_basis) (snd x) ;; z <- next (hue o) (snd y) ;;
  a <- parse_alpha o (snd z) ;; Ok (Plain s (Comps (not_negative (fst x)) (not_negative (fst y)) (fst z) (fst a)), snd a).
Definition is_none {A} (x : option A) : bool := match x with None => true | Some _ => false end.
(** color.rs:1236-1281; color.rs:1060-1079 *)
Definition finish_hue (s : space) (c : comps) : css :=
  if is_none (c1 c) || is_none (c2 c) || is_none (c3 c) || is_none (alpha c) then Plain s c else into_css s c.
Definition parse_hsl_hwb (s : space) (allows_legacy : bool) : parser := fun o l =>
  x <- next (hue o) l ;;
  if allows_legacy && is_none o && negb (is_none (fst x)) && starts_with_comma (snd x) then
    l <- comma (snd x) ;; y <- next (comp o 100) l ;; l <- comma (snd y) ;; z <- next (comp o 100) l ;;
    if is_none (fst y) || is_none (fst z) then Fail
    else a <- parse_legacy_alpha o (snd z) ;; Ok (finish_hue s (Comps (fst x) (nclamp (fst y) 0 100) (nclamp (fst z) 0 100) (fst a)), snd a)
  else
    y <- next (comp o 100) (snd x) ;; z <- next (comp o 100) (snd y) ;;
    a <- parse_alpha o (snd z) ;; Ok (finish_hue s (Comps (fst x) (nclamp (fst y) 0 100) (nclamp (fst z) 0 100) (fst a)), snd a).
(** color.rs:1283-1363 *)
Definition channel (x : num) : num := option_map (fun v => clamp (round v) 0 255) x.
Definition get_component (x : either) : num := match x with AsNumber v => channel v | AsValue v => channel (nmul v (Some 255)) end.
Definition either_num (x : either) : num := match x with AsNumber v | AsValue v => v end.
Definition finish_rgb (legacy : bool) (r g b a : num) : css :=
  match r, g, b, a with
  | Some r, Some g, Some b, Some a =>
      if legacy then Bytes (Int_part r) (Int_part g) (Int_part b) (clamp_unit a)
      else Bytes (clamp_unit (r / 255)) (clamp_unit (g / 255)) (clamp_unit (b / 255)) (clamp_unit a)
  | _, _, _, _ => Plain RGB (Comps r g b a)
  end.
Definition parse_rgb : parser := fun o l =>
  x <- next (number_or_percentage o) l ;;
  if is_none o && negb (is_none (either_num (fst x))) && starts_with_comma (snd x) then
    l <- comma (snd x) ;;
    v <- (match fst x with
          | AsNumber r => y <- next plain_number l ;; l <- comma (snd y) ;; z <- next plain_number l ;; Ok (channel r, channel (fst y), channel (fst z), snd z)
          | AsValue r =>
              y <- next plain_percentage l ;; l <- comma (snd y) ;; z <- next plain_percentage l ;;
              Ok (channel (nmul r (Some 255)), channel (nmul (fst y) (Some 255)), channel (nmul (fst z) (Some 255)), snd z)
          end) ;;
    let '(r, g, b, l) := v in
    if is_none g || is_none b then Fail else a <- parse_legacy_alpha o l ;; Ok (finish_rgb true r g b (fst a), snd a)
  else
    y <- next (number_or_percentage o) (snd x) ;; z <- next (number_or_percentage o) (snd y) ;;
    a <- parse_alpha o (snd z) ;; Ok (finish_rgb false (get_component (fst x)) (get_component (fst y)) (get_component (fst z)) (fst a), snd a).
(** color.rs:892-941 *)
Fixpoint parse_from (s : space) (body : parser) (c : css) (l : list flat) : out (css * list flat) :=
  match c with
  | LightDark a b => x <- parse_from s body a l ;; y <- parse_from s body b l ;; Ok (LightDark (fst x) (fst y), snd y)
  | _ => match try_from s c with Some x => body (Some (Origin s (resolve s x))) l | None => Fail end
  end.
Definition parse_relative (s : space) (body : parser) (l : list flat) : out (css * list flat) :=
  match l with
  | FIdent i :: r =>
      if String.eqb i "from" then match r with FColor c :: r => c <- c ;; parse_from s body c r | _ => Fail end
      else body None l
  | _ => body None l
  end.
(** color.rs:1182-1234 *)
Definition predefined (s : string) : option space :=
  if String.eqb s "srgb" then Some SRGB else if String.eqb s "srgb-linear" then Some SRGBLinear
  else if String.eqb s "display-p3" then Some P3 else if String.eqb s "a98-rgb" then Some A98
  else if String.eqb s "prophoto-rgb" then Some ProPhoto else if String.eqb s "rec2020" then Some Rec2020
  else if String.eqb s "xyz-d50" then Some XYZd50 else if String.eqb s "xyz" then Some XYZd65 else if String.eqb s "xyz-d65" then Some XYZd65
  else None.
Definition parse_predefined_relative (name : string) (from : option css) (l : list flat) : out (css * list flat) :=
  s <- of_option (predefined name) ;;
  o <- (match from with Some c => x <- of_option (try_from s c) ;; Ok (Some (Origin s (resolve_missing x))) | None => Ok None end) ;;
  x <- next (comp o 1) l ;; y <- next (comp o 1) (snd x) ;; z <- next (comp o 1) (snd y) ;;
  a <- parse_alpha o (snd z) ;; Ok (Plain s (Comps (fst x) (fst y) (fst z) (fst a)), snd a).
(** color.rs:1157-1180 *)
Definition parse_predefined (l : list flat) : out (css * list flat) :=
  f <- (match l with
        | FIdent i :: r => if String.eqb i "from" then match r with FColor c :: r => c <- c ;; Ok (Some c, r) | _ => Fail end else Ok (None, l)
        | _ => Ok (None, l)
        end) ;;
  match snd f with
  | FIdent name :: r =>
      match fst f with
      | Some (LightDark a b) =>
          x <- parse_predefined_relative name (Some a) r ;; y <- parse_predefined_relative name (Some b) r ;; Ok (LightDark (fst x) (fst y), snd y)
      | from => parse_predefined_relative name from r
      end
  | _ => Fail
  end.
(** color.rs:3247-3308.  Simplification: a percentage that is calc() of a number crashes in the code. *)
Definition mix_token (t : flat) : out tok :=
  match t with
  | FIdent s => Ok (Word s)
  | FComma => Ok Comma
  | FPercentage p => Ok (Percent p)
  | FCalc e => match eval TPercentage no_ident e with Some (EValue (Some p)) => Ok (Percent p) | _ => Fail end
  | FColor c => c <- c ;; Ok (Color c)
  | _ => Fail
  end.
Fixpoint mix_tokens (l : list flat) : out (list tok) :=
  match l with [] => Ok [] | t :: l => t <- mix_token t ;; l <- mix_tokens l ;; Ok (t :: l) end.
(** color.rs:1080-1092 *)
Definition parse_light_dark (l : list flat) : out (css * list flat) :=
  match l with
  | FColor a :: l =>
      a <- a ;; l <- comma l ;;
      match l with FColor b :: l => b <- b ;; Ok (LightDark (light a) (dark b), l) | _ => Fail end
  | _ => Fail
  end.
(** color.rs:1031-1097; [parse_nested_block] wants the block to be used up *)
Definition whole (x : out (css * list flat)) : out css := x <- x ;; match snd x with [] => Ok (fst x) | _ => Fail end.
Definition parse_function (name : string) (l : list flat) : out css :=
  if String.eqb name "lab" then whole (parse_relative LAB (parse_lab LAB 100 125) l)
  else if String.eqb name "oklab" then whole (parse_relative OKLAB (parse_lab OKLAB 1 0.4) l)
  else if String.eqb name "lch" then whole (parse_relative LCH (parse_lch LCH 100 150) l)
  else if String.eqb name "oklch" then whole (parse_relative OKLCH (parse_lch OKLCH 1 0.4) l)
  else if String.eqb name "color" then whole (parse_predefined l)
  else if String.eqb name "hsl" || String.eqb name "hsla" then whole (parse_relative HSL (parse_hsl_hwb HSL true) l)
  else if String.eqb name "hwb" then whole (parse_relative HWB (parse_hsl_hwb HWB false) l)
  else if String.eqb name "rgb" || String.eqb name "rgba" then whole (parse_relative RGB parse_rgb l)
  else if String.eqb name "color-mix" then l <- mix_tokens l ;; of_option (parse_color_mix l)
  else if String.eqb name "light-dark" then whole (parse_light_dark l)
  else Fail.
(** color.rs:530-557 *)
Fixpoint parse_color (t : token) : out css :=
  match t with
  | Leaf c => Ok c
  | Fn name args =>
      parse_function name (map (fun t =>
        match t with
        | Ident s => FIdent s | Number x => FNumber x | Percentage x => FPercentage x | Angle x => FAngle x | Calc e => FCalc e
        | CommaToken => FComma | Slash => FSlash | Leaf _ | Fn _ _ => FColor (parse_color t)
        end) args)
  | _ => Fail
  end.

(** ** Printing: color.rs:559-660, 1413-1485.  Simplification: numbers are printed as they are, and light-dark() is supported. *)
Definition print_num (x : num) : token := match x with Some v => Number v | None => Ident "none" end.
Definition print_alpha (a : num) : list token :=
  match a with
  | Some v => if ltb f32_epsilon (Rabs (v - 1)) then [Slash; Number v] else []
  | None => [Slash; Ident "none"]
  end.
Definition write_components (name : string) (a b c al : num) : token :=
  Fn name ([match a with Some v => Percentage v | None => Ident "none" end; print_num b; print_num c] ++ print_alpha al).
Definition write_predefined (name : string) (c : comps) : token :=
  Fn "color" ([Ident name; print_num (c1 c); print_num (c2 c); print_num (c3 c)] ++ print_alpha (alpha c)).
(** color.rs:2787-2797, 2770-2785 *)
Definition rgb_bytes (c : comps) : css :=
  let c := resolve RGB c in
  let '(r, g, b) := resolved c in Bytes (clamp_floor_256 r) (clamp_floor_256 g) (clamp_floor_256 b) (clamp_unit (resolve_num (alpha c))).
Fixpoint print (c : css) : token :=
  match c with
  | Plain LAB c => write_components "lab" (nmul (c1 c) (Some (1 / 100))) (c2 c) (c3 c) (alpha c)
  | Plain LCH c => write_components "lch" (nmul (c1 c) (Some (1 / 100))) (c2 c) (c3 c) (alpha c)
  | Plain OKLAB c => write_components "oklab" (c1 c) (c2 c) (c3 c) (alpha c)
  | Plain OKLCH c => write_components "oklch" (c1 c) (c2 c) (c3 c) (alpha c)
  | Plain SRGB c => write_predefined "srgb" c
  | Plain SRGBLinear c => write_predefined "srgb-linear" c
  | Plain P3 c => write_predefined "display-p3" c
  | Plain A98 c => write_predefined "a98-rgb" c
  | Plain ProPhoto c => write_predefined "prophoto-rgb" c
  | Plain Rec2020 c => write_predefined "rec2020" c
  | Plain XYZd50 c => write_predefined "xyz-d50" c
  | Plain XYZd65 c => write_predefined "xyz" c
  | Plain s c => Leaf (rgb_bytes (convert s RGB c))
  | LightDark a b => Fn "light-dark" [print a; CommaToken; print b]
  | Bytes _ _ _ _ | CurrentColor | System _ => Leaf c
  end.
