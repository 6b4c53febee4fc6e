(** * Browser targets: src/targets.rs, src/compat.rs, src/prefixes.rs, the colour fallbacks of
    src/values/color.rs and the scopes of src/rules/supports.rs *)
From Coq Require Import List Bool String Ascii NArith.
From Verif Require Import TargetsTable.
Import ListNotations.
Local Open Scope string_scope.
Local Open Scope list_scope.
Local Open Scope N_scope.

Definition browser_eqb (a b : browser) : bool :=
  match a, b with
  | Android, Android | Chrome, Chrome | Edge, Edge | Firefox, Firefox | IE, IE | IosSaf, IosSaf
  | Opera, Opera | Safari, Safari | Samsung, Samsung => true
  | _, _ => false
  end.
Definition all_browsers : list browser := [Android; Chrome; Edge; Firefox; IE; IosSaf; Opera; Safari; Samsung].
(** targets.rs:29-39 [Browsers]: the lowest version of each browser *)
Definition browsers := browser -> option N.
Definition no_browsers : browsers := fun _ => None.
Definition set_browser (b : browser) (o : option N) (bs : browsers) : browsers := fun x => if browser_eqb b x then o else bs x.

(** ** Versions (targets.rs:140-156) *)

(** [str::split] on one character *)
Fixpoint split (c : ascii) (s : string) : list string :=
  match s with
  | EmptyString => [""]
  | String x r =>
      if Ascii.eqb x c then "" :: split c r
      else match split c r with [] => [String x ""] | p :: ps => String x p :: ps end
  end.
Definition digit (c : ascii) : option N :=
  let n := N_of_ascii c in if (48 <=? n) && (n <=? 57) then Some (n - 48) else None.
(** [str::parse::<u32>]: digits after an optional plus; an overflow is an error *)
Fixpoint digits (acc : N) (s : string) : option N :=
  match s with
  | EmptyString => Some acc
  | String c r => match digit c with
                  | Some d => let a := acc * 10 + d in if a <? 4294967296 then digits a r else None
                  | None => None
                  end
  end.
Definition parse_u32 (s : string) : option N :=
  match s with
  | EmptyString => None
  | String "+" EmptyString => None
  | String "+" r => digits 0 r
  | _ => digits 0 s
  end.
Definition or_zero (o : option N) : N := match o with Some n => n | None => 0 end.
Definition nth_part (l : list string) (i : nat) : option N := match nth_error l i with Some s => parse_u32 s | None => None end.
(** [(major & 0xff) << 16 | (minor & 0xff) << 8 | (patch & 0xff)] *)
Definition pack (major minor patch : N) : N :=
  N.lor (N.lor (N.shiftl (N.land major 255) 16) (N.shiftl (N.land minor 255) 8)) (N.land patch 255).
Definition parse_version (version : string) : option N :=
  let parts := split "." (hd "" (split "-" version)) in
  match nth_part parts 0 with
  | Some major => Some (pack major (or_zero (nth_part parts 1)) (or_zero (nth_part parts 2)))
  | None => None
  end.

(** targets.rs:98-137 [from_distribs]: names and versions from browserslist *)
Definition browser_of (name : string) : option browser :=
  if String.eqb name "android" then Some Android
  else if String.eqb name "chrome" || String.eqb name "and_chr" then Some Chrome
  else if String.eqb name "edge" then Some Edge
  else if String.eqb name "firefox" || String.eqb name "and_ff" then Some Firefox
  else if String.eqb name "ie" then Some IE
  else if String.eqb name "ios_saf" then Some IosSaf
  else if String.eqb name "opera" || String.eqb name "op_mob" then Some Opera
  else if String.eqb name "safari" then Some Safari
  else if String.eqb name "samsung" then Some Samsung
  else None.
Definition add_distrib (st : browsers * bool) (d : string * string) : browsers * bool :=
  let (bs, any) := st in
  match browser_of (fst d) with
  | Some b =>
      match parse_version (snd d) with
      | Some v => match bs b with
                  | Some w => if v <? w then (set_browser b (Some v) bs, true) else st
                  | None => (set_browser b (Some v) bs, true)
                  end
      | None => st
      end
  | None => st
  end.
Definition from_distribs (l : list (string * string)) : option browsers :=
  let (bs, any) := fold_left add_distrib l (no_browsers, false) in if any then Some bs else None.

(** ** Features *)

(** targets.rs:158-181 *)
Inductive flag :=
| Nesting | NotSelectorList | DirSelector | LangSelectorList | IsSelector | TextDecorationThicknessPercent
| MediaIntervalSyntax | MediaRangeSyntax | CustomMediaQueries | ClampFunction | ColorFunction | OklabColors
| LabColors | P3Colors | HexAlphaColors | SpaceSeparatedColorNotation | FontFamilySystemUi
| DoublePositionGradients | VendorPrefixes | LogicalProperties | LightDark.
Definition all_flags : list flag :=
  [Nesting; NotSelectorList; DirSelector; LangSelectorList; IsSelector; TextDecorationThicknessPercent;
   MediaIntervalSyntax; MediaRangeSyntax; CustomMediaQueries; ClampFunction; ColorFunction; OklabColors;
   LabColors; P3Colors; HexAlphaColors; SpaceSeparatedColorNotation; FontFamilySystemUi;
   DoublePositionGradients; VendorPrefixes; LogicalProperties; LightDark].
Definition flag_eq_dec (a b : flag) : {a = b} + {a <> b}. Proof. decide equality. Defined.
Definition flag_eqb (a b : flag) : bool := if flag_eq_dec a b then true else false.
(** A set of flags *)
Definition features := flag -> bool.
Definition none : features := fun _ => false.
Definition only (l : list flag) : features := fun f => existsb (flag_eqb f) l.
Definition contains (a b : features) : bool := forallb (fun f => negb (b f) || a f) all_flags.
Definition intersects (a b : features) : bool := existsb (fun f => a f && b f) all_flags.
Definition is_empty (a : features) : bool := negb (existsb a all_flags).
Definition union (a b : features) : features := fun f => a f || b f.
Definition minus (a b : features) : features := fun f => a f && negb (b f).
Definition selectors : features := only [Nesting; NotSelectorList; DirSelector; LangSelectorList; IsSelector].

(** targets.rs:197-205 *)
Record targets := Targets { t_browsers : option browsers; t_include : features; t_exclude : features }.

(** compat.rs:233-5731 [Feature::is_compatible], on the row of the feature *)
Definition row_of {A} (table : list (list string * list A)) (name : string) : list A :=
  match find (fun r => existsb (String.eqb name) (fst r)) table with Some r => snd r | None => [] end.
Definition is_compatible (row : list (browser * option N)) (bs : browsers) : bool :=
  forallb (fun r => match bs (fst r), snd r with
                    | None, _ => true
                    | Some v, Some m => negb (v <? m)
                    | Some _, None => false
                    end) row.
(** compat.rs:5733-5828 [is_partially_compatible] *)
Definition is_partially_compatible (row : list (browser * option N)) (bs : browsers) : bool :=
  existsb (fun b => match bs b with Some v => is_compatible row (set_browser b (Some v) no_browsers) | None => false end) all_browsers.

(** targets.rs:225-241 *)
Definition t_compatible (t : targets) (row : list (browser * option N)) : bool :=
  match t_browsers t with Some bs => is_compatible row bs | None => true end.
Definition should_compile (t : targets) (row : list (browser * option N)) (f : features) : bool :=
  contains (t_include t) f || (negb (contains (t_exclude t) f) && negb (t_compatible t row)).
Definition should_compile_selectors (t : targets) : bool :=
  intersects (t_include t) selectors
  || (negb (intersects (t_exclude t) selectors) && match t_browsers t with Some _ => true | None => false end).

(** ** Vendor prefixes *)
Definition prefix_eqb (a b : prefix) : bool :=
  match a, b with NoPrefix, NoPrefix | WebKit, WebKit | Moz, Moz | Ms, Ms | O, O => true | _, _ => false end.
Definition prefixes := prefix -> bool.
Definition in_range (r : option N * option N) (v : N) : bool :=
  match fst r with Some lo => lo <=? v | None => true end && match snd r with Some hi => v <=? hi | None => true end.
(** prefixes.rs:195-2242 [prefixes_for], on the row of the feature *)
Definition prefixes_for (row : list (browser * (option N * option N) * prefix)) (bs : browsers) : prefixes :=
  fold_left (fun p e => match bs (fst (fst e)) with
                        | Some v => if in_range (snd (fst e)) v then fun x => prefix_eqb (snd e) x || p x else p
                        | None => p
                        end) row (prefix_eqb NoPrefix).
(** targets.rs:243-253 *)
Definition t_prefixes (t : targets) (p : prefixes) (row : list (browser * (option N * option N) * prefix)) : prefixes :=
  if p NoPrefix && negb (contains (t_exclude t) (only [VendorPrefixes])) then
    if contains (t_include t) (only [VendorPrefixes]) then fun _ => true
    else match t_browsers t with Some bs => prefixes_for row bs | None => p end
  else p.

(** ** Colours and their fallbacks (color.rs:231-245, 282-300, 320-446, 503-523) *)

(** Colours by their space: [Keyword] is currentColor or a system colour; [Rgb] is any colour in the
    spaces that all browsers know; [Predefined] is color() with a space other than display-p3 *)
Inductive color := Keyword | Rgb | Lab | Oklab | P3 | Predefined | LightDarkColor (light dark : color).
(** [ColorFallbackKind] *)
Record kinds := Kinds { k_rgb : bool; k_p3 : bool; k_lab : bool; k_oklab : bool }.
Definition no_kinds : kinds := Kinds false false false false.
Definition kinds_or (a b : kinds) : kinds :=
  Kinds (k_rgb a || k_rgb b) (k_p3 a || k_p3 b) (k_lab a || k_lab b) (k_oklab a || k_oklab b).
Definition kinds_minus (a b : kinds) : kinds :=
  Kinds (k_rgb a && negb (k_rgb b)) (k_p3 a && negb (k_p3 b)) (k_lab a && negb (k_lab b)) (k_oklab a && negb (k_oklab b)).
Definition highest (k : kinds) : kinds :=
  if k_oklab k then Kinds false false false true else if k_lab k then Kinds false false true false
  else if k_p3 k then Kinds false true false false else if k_rgb k then Kinds true false false false else no_kinds.
Definition rgb_below : kinds := Kinds true false false false.
Definition p3_only : kinds := Kinds false true false false.
Definition p3_below : kinds := Kinds true true false false.
Definition lab_below : kinds := Kinds true true true false.
Definition oklab_below : kinds := Kinds true true true true.

(** The macro [should_compile!] (targets.rs:317-324) *)
Definition compile (t : targets) (name : string) (f : flag) : bool := should_compile t (row_of compat_table name) (only [f]).
Definition partially (t : targets) (name : string) : bool :=
  match t_browsers t with Some bs => is_partially_compatible (row_of compat_table name) bs | None => false end.
(** color.rs:389-427, for a colour that needs fallbacks *)
Definition reduce (t : targets) (k : kinds) : kinds :=
  let k := if k_oklab k && negb (compile t "OklabColors" OklabColors) then kinds_minus k lab_below else k in
  let k := if k_lab k then
             if negb (compile t "LabColors" LabColors) then kinds_minus k p3_below
             else if partially t "LabColors" then kinds_minus k p3_only else k
           else k in
  if k_p3 k then
    if negb (compile t "P3Colors" P3Colors) then kinds_minus k rgb_below
    else if negb (k_p3 (highest k)) && negb (partially t "P3Colors") then kinds_minus k p3_only else k
  else k.
(** color.rs:360-427 [get_possible_fallbacks] *)
Fixpoint possible_fallbacks (t : targets) (c : color) : kinds :=
  match c with
  | Keyword | Rgb => no_kinds
  | Lab => if compile t "LabColors" LabColors then reduce t lab_below else no_kinds
  | Oklab => if compile t "OklabColors" OklabColors then reduce t oklab_below else no_kinds
  | P3 => if compile t "P3Colors" P3Colors then reduce t p3_below
          else if compile t "ColorFunction" ColorFunction then reduce t lab_below else no_kinds
  | Predefined => if compile t "ColorFunction" ColorFunction then reduce t lab_below else no_kinds
  | LightDarkColor l d => kinds_or (possible_fallbacks t l) (possible_fallbacks t d)
  end.
(** color.rs:430-435 *)
Definition necessary_fallbacks (t : targets) (c : color) : kinds :=
  kinds_minus (possible_fallbacks t c) (highest (possible_fallbacks t c)).
(** color.rs:331-358 [to_rgb], [to_lab] and [to_p3]: an error for keywords (color.rs:2972-2974) *)
Fixpoint convert (to : color) (c : color) : option color :=
  match c with
  | Keyword => None
  | LightDarkColor l d =>
      match convert to l, convert to d with Some x, Some y => Some (LightDarkColor x y) | _, _ => None end
  | _ => Some to
  end.
(** color.rs:503-523 [get_fallbacks]: the colours to print before, and the colour itself; [None] is a
    panic of [unwrap] *)
Definition get_fallbacks (t : targets) (c : color) : option (list color * color) :=
  let k := necessary_fallbacks t c in
  match (if k_rgb k then option_map (fun x => [x]) (convert Rgb c) else Some []),
        (if k_p3 k then option_map (fun x => [x]) (convert P3 c) else Some []),
        (if k_lab k then convert Lab c else Some c) with
  | Some r, Some p, Some c' => Some (r ++ p, c')
  | _, _, _ => None
  end.

(** ** Scopes of [@supports] *)

(** The tokens of a value, as far as features go (custom.rs:1091-1128): colours, colours with
    variables, functions, variables with a fallback, and the rest.  A colour with variables is [light-dark] or
    not. *)
Inductive token :=
| TColor (c : color)
| TFloat
| TUnresolved
| TUnresolvedLightDark (light dark : list token)
| TFunction (args : list token)
| TVar (fallback : option (list token))
| TOther.
(** color.rs:448-480; a [Float] colour is [TFloat] here *)
Fixpoint color_features (c : color) : features :=
  match c with
  | Lab => only [LabColors]
  | Oklab => only [OklabColors]
  | P3 => only [ColorFunction; P3Colors]
  | Predefined => only [ColorFunction]
  | LightDarkColor l d => union (only [LightDark]) (union (color_features l) (color_features d))
  | Keyword | Rgb => none
  end.
Definition unions : list features -> features := fold_right union none.
Fixpoint token_features (x : token) : features :=
  match x with
  | TColor c => color_features c
  | TFloat | TUnresolved => only [SpaceSeparatedColorNotation]
  | TUnresolvedLightDark l d =>
      union (only [SpaceSeparatedColorNotation; LightDark]) (union (unions (map token_features l)) (unions (map token_features d)))
  | TFunction l => unions (map token_features l)
  | TVar (Some l) => unions (map token_features l)
  | TVar None | TOther => none
  end.
(** supports.rs:100-128 [SupportsCondition]: a declaration has a property, custom or not, and a value,
    which may fail to parse; selectors and unknown conditions have a number *)
Inductive cond :=
| CNot (c : cond)
| CAnd (l : list cond)
| COr (l : list cond)
| CDecl (custom : bool) (property : string) (value : option (list token))
| CElse (n : nat).
(** supports.rs:171-191; [try_union_all] is targets.rs:183-193 *)
Fixpoint supported_internal (c : cond) : option features :=
  match c with
  | CAnd l =>
      (fix all (l : list cond) : option features :=
         match l with
         | [] => Some none
         | x :: r => match supported_internal x, all r with Some a, Some b => Some (union a b) | _, _ => None end
         end) l
  | CDecl _ _ (Some v) => Some (unions (map token_features v))
  | CDecl _ _ None | CElse _ => Some none
  | CNot _ | COr _ => None
  end.
Definition supported_features (c : cond) : features := match supported_internal c with Some f => f | None => none end.

(** targets.rs:256-290 [TargetsWithSupportsScope], with the targets that the handlers see
    (supports.rs:46-56) *)
Record scope := Scope { stack : list features; current : targets; handler : targets }.
Definition exclude_with (f : features -> features) (t : targets) : targets :=
  Targets (t_browsers t) (t_include t) (f (t_exclude t)).
Definition enter (f : features) (s : scope) : bool * scope :=
  if is_empty f || contains (t_exclude (current s)) f then (false, s)
  else let new := minus f (t_exclude (current s)) in
       (true, Scope (new :: stack s) (exclude_with (fun e => union e new) (current s)) (handler s)).
Definition exit_scope (s : scope) : scope :=
  match stack s with
  | last :: r => Scope r (exclude_with (fun e => minus e last) (current s)) (handler s)
  | [] => s
  end.
(** A style sheet: [@supports] rules, other nested rules, and places where the targets are used *)
Inductive rule := Supports (c : cond) (l : list rule) | Group (l : list rule) | Use (n : nat).
Record seen := Seen { at_ : nat; by_rules : targets; by_handlers : targets }.
(** supports.rs:40-58 [SupportsRule::minify]: the scope afterwards and what the places saw *)
Fixpoint visit (r : rule) (s : scope) {struct r} : scope * list seen :=
  let visits := fix go (l : list rule) (s : scope) : scope * list seen :=
    match l with
    | [] => (s, [])
    | x :: xs => let (s1, o1) := visit x s in let (s2, o2) := go xs s1 in (s2, o1 ++ o2)
    end in
  match r with
  | Use n => (s, [Seen n (current s) (handler s)])
  | Group l => visits l s
  | Supports c l =>
      let (inserted, s1) := enter (supported_features c) s in
      let s2 := if inserted then Scope (stack s1) (current s1) (current s1) else s1 in
      let (s3, o) := visits l s2 in
      if inserted then let s4 := exit_scope s3 in (Scope (stack s4) (current s4) (current s4), o)
      else (s3, o)
  end.
