(** * Model of src/media_query.rs

    Token level: the cssparser tokenizer is external.  A token stream is a list of [tok];
    a parenthesised block is one token holding its contents, which is how
    [cssparser::Parser::parse_nested_block] presents it.  Whitespace and comments are skipped by
    [Parser::next], hence absent.  f32 numbers are modelled by rationals; calc() in values is not
    modelled. *)
From Coq Require Import List String Ascii Bool ZArith QArith.
Import ListNotations.
Open Scope string_scope.
Open Scope list_scope.

(** ASCII-lowercase of a string, used for cssparser's case-insensitive comparisons
    ([eq_ignore_ascii_case], [match_ignore_ascii_case!]). *)
Definition lower_ascii (c : ascii) : ascii :=
  let n := nat_of_ascii c in
  if (Nat.leb 65 n && Nat.leb n 90)%bool then ascii_of_nat (n + 32) else c.

Fixpoint lower (s : string) : string :=
  match s with
  | EmptyString => EmptyString
  | String c r => String (lower_ascii c) (lower r)
  end.

(** [a.eq_ignore_ascii_case(b)] *)
Definition ieq (a b : string) : bool := String.eqb (lower a) (lower b).

(** [str::starts_with] returning the remainder *)
Fixpoint strip_prefix (p s : string) : option string :=
  match p, s with
  | EmptyString, _ => Some s
  | String a p', String b s' => if Ascii.eqb a b then strip_prefix p' s' else None
  | _, EmptyString => None
  end.

(** [starts_with_ignore_ascii_case], also returning the remainder (media_query.rs:1256-1269);
    the needles are lowercase literals *)
Fixpoint istrip_prefix (p s : string) : option string :=
  match p, s with
  | EmptyString, _ => Some s
  | String a p', String b s' => if Ascii.eqb a (lower_ascii b) then istrip_prefix p' s' else None
  | _, EmptyString => None
  end.

(** cssparser tokens that occur in media queries.  [TNum q (Some z)] is a number token with an
    integer value.  [TEnv s] stands for an [env(...)] function with opaque contents. *)
Inductive tok : Type :=
| TIdent (s : string)
| TNum (q : Q) (int : option Z)
| TDim (q : Q) (unit : string)
| TDelim (c : ascii)
| TColon
| TComma
| TEnv (s : string)
| TBlock (l : list tok).

(** ** Data types *)

(** media_query.rs:184-193 [Qualifier] *)
Inductive qualifier := Only | QNot.

(** media_query.rs:195-214 [MediaType] *)
Inductive media_type := MAll | MPrint | MScreen | MCustom (s : string).

(** media_query.rs:505-513 [Operator] *)
Inductive operator := And | Or.

(** media_query.rs:888-907 [MediaFeatureComparison] *)
Inductive comparison_op := CEq | CGt | CGe | CLt | CLe.

(** media_query.rs:1407-1492 [MediaFeatureId] *)
Inductive feature_id :=
| Width | Height | AspectRatio | Orientation | OverflowBlock | OverflowInline
| HorizontalViewportSegments | VerticalViewportSegments | DisplayMode | Resolution_
| Scan | Grid | Update | EnvironmentBlending | Color | ColorIndex | Monochrome | ColorGamut
| DynamicRange | InvertedColors | Pointer | Hover | AnyPointer | AnyHover | NavControls
| VideoColorGamut | VideoDynamicRange | Scripting | PrefersReducedMotion
| PrefersReducedTransparency | PrefersContrast | ForcedColors | PrefersColorScheme
| PrefersReducedData | DeviceWidth | DeviceHeight | DeviceAspectRatio
| WebKitDevicePixelRatio | MozDevicePixelRatio.

(** media_query.rs:1335-1355 [MediaFeatureType] *)
Inductive feature_type :=
| FTLength | FTNumber | FTInteger | FTBoolean | FTResolution | FTRatio | FTIdent | FTUnknown.

(** media_query.rs:1222-1237 [MediaFeatureName] *)
Inductive feature_name :=
| NStandard (f : feature_id)
| NCustom (s : string)
| NUnknown (s : string).

(** values/resolution.rs:24-31 [Resolution]'s variants *)
Inductive res_unit := Dpi | Dpcm | Dppx.

(** media_query.rs:1576-1605 [MediaFeatureValue]; a length is a number and its (lowercase) unit *)
Inductive mvalue :=
| VLength (q : Q) (unit : string)
| VNumber (q : Q)
| VInteger (z : Z)
| VBoolean (b : bool)
| VResolution (q : Q) (u : res_unit)
| VRatio (a b : Q)
| VIdent (s : string)
| VEnv (s : string).

(** media_query.rs:958-1008 [QueryFeature] *)
Inductive feature :=
| FPlain (n : feature_name) (v : mvalue)
| FBoolean (n : feature_name)
| FRange (n : feature_name) (op : comparison_op) (v : mvalue)
| FInterval (n : feature_name) (start : mvalue) (sop : comparison_op)
            (end_ : mvalue) (eop : comparison_op).

(** media_query.rs:515-540 [MediaCondition] *)
Inductive cond :=
| CFeature (f : feature)
| CNot (c : cond)
| COp (op : operator) (cs : list cond)
| CUnknown (l : list tok).

(** media_query.rs:261-277 [MediaQuery] *)
Record mquery := MQ { mq_qual : option qualifier; mq_type : media_type; mq_cond : option cond }.

(** media_query.rs:34-45 [MediaList] *)
Definition mlist := list mquery.

(** ** Equality tests ([#[derive(PartialEq)]]) *)

Definition qualifier_eqb (a b : qualifier) : bool :=
  match a, b with Only, Only | QNot, QNot => true | _, _ => false end.
Definition oqualifier_eqb (a b : option qualifier) : bool :=
  match a, b with
  | None, None => true | Some a, Some b => qualifier_eqb a b | _, _ => false end.
Definition mtype_eqb (a b : media_type) : bool :=
  match a, b with
  | MAll, MAll | MPrint, MPrint | MScreen, MScreen => true
  | MCustom s, MCustom t => String.eqb s t
  | _, _ => false
  end.
Definition operator_eqb (a b : operator) : bool :=
  match a, b with And, And | Or, Or => true | _, _ => false end.
Definition cmp_eqb (a b : comparison_op) : bool :=
  match a, b with
  | CEq, CEq | CGt, CGt | CGe, CGe | CLt, CLt | CLe, CLe => true | _, _ => false end.
Definition feature_id_eq_dec (a b : feature_id) : {a = b} + {a <> b}.
Proof. decide equality. Defined.
Definition feature_id_eqb (a b : feature_id) : bool :=
  if feature_id_eq_dec a b then true else false.
Definition name_eqb (a b : feature_name) : bool :=
  match a, b with
  | NStandard f, NStandard g => feature_id_eqb f g
  | NCustom s, NCustom t | NUnknown s, NUnknown t => String.eqb s t
  | _, _ => false
  end.
Definition res_unit_eqb (a b : res_unit) : bool :=
  match a, b with Dpi, Dpi | Dpcm, Dpcm | Dppx, Dppx => true | _, _ => false end.
Definition value_eqb (a b : mvalue) : bool :=
  match a, b with
  | VLength p u, VLength q v => Qeq_bool p q && String.eqb u v
  | VNumber p, VNumber q => Qeq_bool p q
  | VInteger p, VInteger q => Z.eqb p q
  | VBoolean p, VBoolean q => Bool.eqb p q
  | VResolution p u, VResolution q v => Qeq_bool p q && res_unit_eqb u v
  | VRatio p p', VRatio q q' => Qeq_bool p q && Qeq_bool p' q'
  | VIdent s, VIdent t | VEnv s, VEnv t => String.eqb s t
  | _, _ => false
  end.
Definition feature_eqb (a b : feature) : bool :=
  match a, b with
  | FPlain n v, FPlain m w => name_eqb n m && value_eqb v w
  | FBoolean n, FBoolean m => name_eqb n m
  | FRange n o v, FRange m p w => name_eqb n m && cmp_eqb o p && value_eqb v w
  | FInterval n s so e eo, FInterval m t to f fo =>
      name_eqb n m && value_eqb s t && cmp_eqb so to && value_eqb e f && cmp_eqb eo fo
  | _, _ => false
  end.
Fixpoint tok_eqb (a b : tok) {struct a} : bool :=
  match a, b with
  | TIdent s, TIdent t | TEnv s, TEnv t => String.eqb s t
  | TNum p _, TNum q _ => Qeq_bool p q
  | TDim p u, TDim q v => Qeq_bool p q && String.eqb u v
  | TDelim c, TDelim d => Ascii.eqb c d
  | TColon, TColon | TComma, TComma => true
  | TBlock l, TBlock m =>
      (fix go (l m : list tok) : bool :=
         match l, m with
         | [], [] => true
         | x :: l', y :: m' => tok_eqb x y && go l' m'
         | _, _ => false
         end) l m
  | _, _ => false
  end.
Fixpoint toks_eqb (l m : list tok) : bool :=
  match l, m with
  | [], [] => true
  | x :: l', y :: m' => tok_eqb x y && toks_eqb l' m'
  | _, _ => false
  end.
Fixpoint cond_eqb (a b : cond) {struct a} : bool :=
  match a, b with
  | CFeature f, CFeature g => feature_eqb f g
  | CNot c, CNot d => cond_eqb c d
  | COp o cs, COp p ds =>
      operator_eqb o p &&
      (fix go (l m : list cond) : bool :=
         match l, m with
         | [], [] => true
         | x :: l', y :: m' => cond_eqb x y && go l' m'
         | _, _ => false
         end) cs ds
  | CUnknown l, CUnknown m => toks_eqb l m
  | _, _ => false
  end.
Definition ocond_eqb (a b : option cond) : bool :=
  match a, b with None, None => true | Some a, Some b => cond_eqb a b | _, _ => false end.
Definition mquery_eqb (a b : mquery) : bool :=
  oqualifier_eqb (mq_qual a) (mq_qual b) && mtype_eqb (mq_type a) (mq_type b)
  && ocond_eqb (mq_cond a) (mq_cond b).
Definition mlist_contains (l : mlist) (q : mquery) : bool :=
  existsb (fun x => mquery_eqb x q) l.

(** ** Feature names and types *)

(** media_query.rs:1407-1492: the string of each feature id *)
Definition feature_id_name (f : feature_id) : string :=
  match f with
  | Width => "width" | Height => "height" | AspectRatio => "aspect-ratio"
  | Orientation => "orientation" | OverflowBlock => "overflow-block"
  | OverflowInline => "overflow-inline"
  | HorizontalViewportSegments => "horizontal-viewport-segments"
  | VerticalViewportSegments => "vertical-viewport-segments"
  | DisplayMode => "display-mode" | Resolution_ => "resolution" | Scan => "scan"
  | Grid => "grid" | Update => "update" | EnvironmentBlending => "environment-blending"
  | Color => "color" | ColorIndex => "color-index" | Monochrome => "monochrome"
  | ColorGamut => "color-gamut" | DynamicRange => "dynamic-range"
  | InvertedColors => "inverted-colors" | Pointer => "pointer" | Hover => "hover"
  | AnyPointer => "any-pointer" | AnyHover => "any-hover" | NavControls => "nav-controls"
  | VideoColorGamut => "video-color-gamut" | VideoDynamicRange => "video-dynamic-range"
  | Scripting => "scripting" | PrefersReducedMotion => "prefers-reduced-motion"
  | PrefersReducedTransparency => "prefers-reduced-transparency"
  | PrefersContrast => "prefers-contrast" | ForcedColors => "forced-colors"
  | PrefersColorScheme => "prefers-color-scheme"
  | PrefersReducedData => "prefers-reduced-data" | DeviceWidth => "device-width"
  | DeviceHeight => "device-height" | DeviceAspectRatio => "device-aspect-ratio"
  | WebKitDevicePixelRatio => "-webkit-device-pixel-ratio"
  | MozDevicePixelRatio => "-moz-device-pixel-ratio"
  end.

Definition all_feature_ids : list feature_id :=
  [ Width; Height; AspectRatio; Orientation; OverflowBlock; OverflowInline;
    HorizontalViewportSegments; VerticalViewportSegments; DisplayMode; Resolution_;
    Scan; Grid; Update; EnvironmentBlending; Color; ColorIndex; Monochrome; ColorGamut;
    DynamicRange; InvertedColors; Pointer; Hover; AnyPointer; AnyHover; NavControls;
    VideoColorGamut; VideoDynamicRange; Scripting; PrefersReducedMotion;
    PrefersReducedTransparency; PrefersContrast; ForcedColors; PrefersColorScheme;
    PrefersReducedData; DeviceWidth; DeviceHeight; DeviceAspectRatio;
    WebKitDevicePixelRatio; MozDevicePixelRatio ].

(** [FeatureId::parse_string] (macros.rs:58-71, enum_property!) *)
Definition parse_feature_id (s : string) : option feature_id :=
  find (fun f => ieq (feature_id_name f) s) all_feature_ids.

(** media_query.rs:1407-1492: the declared value type of each feature id *)
Definition feature_id_type (f : feature_id) : feature_type :=
  match f with
  | Width | Height | DeviceWidth | DeviceHeight => FTLength
  | AspectRatio | DeviceAspectRatio => FTRatio
  | HorizontalViewportSegments | VerticalViewportSegments | Color | ColorIndex | Monochrome =>
      FTInteger
  | Resolution_ => FTResolution
  | Grid => FTBoolean
  | WebKitDevicePixelRatio | MozDevicePixelRatio => FTNumber
  | _ => FTIdent
  end.

(** media_query.rs:1295-1302 *)
Definition name_type (n : feature_name) : feature_type :=
  match n with NStandard f => feature_id_type f | _ => FTUnknown end.

(** media_query.rs:1357-1371 [MediaFeatureType::allows_ranges] *)
Definition allows_ranges (t : feature_type) : bool :=
  match t with FTBoolean | FTIdent => false | _ => true end.

(** media_query.rs:1239-1282 [MediaFeatureName::parse] *)
Definition parse_name (ident : string) : feature_name * option comparison_op :=
  match strip_prefix "--" ident with
  | Some _ => (NCustom ident, None)
  | None =>
      let (is_webkit, name) :=
        match istrip_prefix "-webkit-" ident with
        | Some r => (true, r)
        | None => (false, ident)
        end in
      let (comparator, name) :=
        match istrip_prefix "min-" name with
        | Some r => (Some CGe, r)
        | None =>
            match istrip_prefix "max-" name with
            | Some r => (Some CLe, r)
            | None => (None, name)
            end
        end in
      let name := if is_webkit : bool then String.append "-webkit-" name else name in
      match parse_feature_id name with
      | Some f => (NStandard f, comparator)
      | None => (NUnknown ident, None)
      end
  end.

(** media_query.rs:1304-1315 [MediaFeatureName::to_css] *)
Definition print_name (n : feature_name) : string :=
  match n with
  | NStandard f => feature_id_name f
  | NCustom s | NUnknown s => s
  end.

(** media_query.rs:1317-1333 and 1502-1519 [to_css_with_prefix] *)
Definition print_name_with_prefix (prefix : string) (n : feature_name) : string :=
  match n with
  | NStandard WebKitDevicePixelRatio =>
      String.append "-webkit-" (String.append prefix "device-pixel-ratio")
  | NStandard f => String.append prefix (feature_id_name f)
  | NCustom s | NUnknown s => String.append prefix s
  end.

(** ** Values *)

(** values/length.rs:337-458 [define_length_units!] *)
Definition length_units : list string :=
  [ "px"; "in"; "cm"; "mm"; "q"; "pt"; "pc"; "em"; "rem"; "ex"; "rex"; "ch"; "rch"; "cap";
    "rcap"; "ic"; "ric"; "lh"; "rlh"; "vw"; "lvw"; "svw"; "dvw"; "cqw"; "vh"; "lvh"; "svh";
    "dvh"; "cqh"; "vi"; "svi"; "lvi"; "dvi"; "cqi"; "vb"; "svb"; "lvb"; "dvb"; "cqb"; "vmin";
    "svmin"; "lvmin"; "dvmin"; "cqmin"; "vmax"; "svmax"; "lvmax"; "dvmax"; "cqmax" ].

Definition is_length_unit (u : string) : bool := existsb (String.eqb u) length_units.

(** values/length.rs:105-127 [LengthValue::parse]; calc() is not modelled *)
Definition parse_length (l : list tok) : option (mvalue * list tok) :=
  match l with
  | TDim q u :: r => if is_length_unit (lower u) then Some (VLength q (lower u), r) else None
  | TNum q _ :: r => Some (VLength q "px", r)
  | _ => None
  end.

(** values/number.rs:19-34 [CSSNumber::parse] *)
Definition parse_number (l : list tok) : option (Q * list tok) :=
  match l with TNum q _ :: r => Some (q, r) | _ => None end.

(** values/number.rs:117-123 [CSSInteger::parse] *)
Definition parse_integer (l : list tok) : option (Z * list tok) :=
  match l with TNum _ (Some z) :: r => Some (z, r) | _ => None end.

(** values/resolution.rs:33-50 [Resolution::parse] *)
Definition parse_res_unit (u : string) : option res_unit :=
  if String.eqb u "dpi" then Some Dpi
  else if String.eqb u "dpcm" then Some Dpcm
  else if String.eqb u "dppx" || String.eqb u "x" then Some Dppx
  else None.
Definition parse_resolution (l : list tok) : option (mvalue * list tok) :=
  match l with
  | TDim q u :: r =>
      match parse_res_unit (lower u) with Some x => Some (VResolution q x, r) | None => None end
  | _ => None
  end.

(** values/ratio.rs:22-33 [Ratio::parse] *)
Definition parse_ratio (l : list tok) : option (mvalue * list tok) :=
  match parse_number l with
  | None => None
  | Some (a, r) =>
      match r with
      | TDelim "/" :: r' =>
          match parse_number r' with Some (b, r'') => Some (VRatio a b, r'') | None => None end
      | _ => Some (VRatio a 1, r)
      end
  end.

(** values/ratio.rs:36-43 [Ratio::parse_required] *)
Definition parse_ratio_required (l : list tok) : option (mvalue * list tok) :=
  match parse_number l with
  | Some (a, TDelim "/" :: r') =>
      match parse_number r' with Some (b, r'') => Some (VRatio a b, r'') | None => None end
  | _ => None
  end.

Definition parse_ident_value (l : list tok) : option (mvalue * list tok) :=
  match l with TIdent s :: r => Some (VIdent s, r) | _ => None end.

(** media_query.rs:1644-1664 [MediaFeatureValue::parse_known] *)
Definition parse_known (l : list tok) (t : feature_type) : option (mvalue * list tok) :=
  match t with
  | FTBoolean =>
      match parse_integer l with
      | Some (z, r) =>
          if Z.eqb z 0 || Z.eqb z 1 then Some (VBoolean (Z.eqb z 1), r) else None
      | None => None
      end
  | FTNumber => match parse_number l with Some (q, r) => Some (VNumber q, r) | None => None end
  | FTInteger => match parse_integer l with Some (z, r) => Some (VInteger z, r) | None => None end
  | FTLength => parse_length l
  | FTResolution => parse_resolution l
  | FTRatio => parse_ratio l
  | FTIdent => parse_ident_value l
  | FTUnknown => None
  end.

(** media_query.rs:1666-1693 [MediaFeatureValue::parse_unknown] *)
Definition parse_unknown (l : list tok) : option (mvalue * list tok) :=
  match parse_ratio_required l with
  | Some r => Some r
  | None =>
  match parse_number l with
  | Some (q, r) => Some (VNumber q, r)
  | None =>
  match parse_length l with
  | Some r => Some r
  | None =>
  match parse_resolution l with
  | Some r => Some r
  | None =>
  match l with
  | TEnv s :: r => Some (VEnv s, r)
  | _ => parse_ident_value l
  end end end end end.

(** media_query.rs:1633-1642 [MediaFeatureValue::parse] *)
Definition parse_value (l : list tok) (t : feature_type) : option (mvalue * list tok) :=
  match parse_known l t with Some r => Some r | None => parse_unknown l end.

(** media_query.rs:1608-1620 [MediaFeatureValue::value_type] *)
Definition value_type (v : mvalue) : feature_type :=
  match v with
  | VLength _ _ => FTLength | VNumber _ => FTNumber | VInteger _ => FTInteger
  | VBoolean _ => FTBoolean | VResolution _ _ => FTResolution | VRatio _ _ => FTRatio
  | VIdent _ => FTIdent | VEnv _ => FTUnknown
  end.
Definition feature_type_eqb (a b : feature_type) : bool :=
  match a, b with
  | FTLength, FTLength | FTNumber, FTNumber | FTInteger, FTInteger | FTBoolean, FTBoolean
  | FTResolution, FTResolution | FTRatio, FTRatio | FTIdent, FTIdent
  | FTUnknown, FTUnknown => true
  | _, _ => false
  end.
(** media_query.rs:1622-1627 [check_type] *)
Definition check_type (v : mvalue) (expected : feature_type) : bool :=
  match expected, value_type v with
  | _, FTUnknown | FTUnknown, _ => true
  | a, b => feature_type_eqb a b
  end.

(** Integral rationals print without a fractional part (cssparser number serialization), so the
    tokenizer reads them back as integers. *)
Definition q_int (q : Q) : option Z :=
  let r := Qred q in if Pos.eqb (Qden r) 1 then Some (Qnum r) else None.
Definition num_tok (q : Q) : tok := TNum q (q_int q).

(** values/length.rs:460-474 [LengthValue::to_css] (outside calc) *)
Definition print_length (q : Q) (u : string) : list tok :=
  if Qeq_bool q 0 then [TNum 0 (Some 0%Z)] else [TDim q u].

(** values/resolution.rs:67-87; [x_unit] is [targets.is_compatible(XResolutionUnit)] *)
Definition print_resolution (x_unit : bool) (q : Q) (u : res_unit) : list tok :=
  match u with
  | Dpi => [TDim q "dpi"]
  | Dpcm => [TDim q "dpcm"]
  | Dppx => [TDim q (if x_unit then "x" else "dppx")]
  end.

(** media_query.rs:1696-1721 [MediaFeatureValue::to_css], values/ratio.rs:45-57 *)
Definition print_value (x_unit : bool) (v : mvalue) : list tok :=
  match v with
  | VLength q u => print_length q u
  | VNumber q => [num_tok q]
  | VInteger z => [TNum (inject_Z z) (Some z)]
  | VBoolean b => [TNum (if b then 1 else 0) (Some (if b then 1%Z else 0%Z))]
  | VResolution q u => print_resolution x_unit q u
  | VRatio a b => num_tok a :: (if Qeq_bool b 1 then [] else [TDelim "/"; num_tok b])
  | VIdent s => [TIdent s]
  | VEnv s => [TEnv s]
  end.

(** ** Comparisons *)

(** media_query.rs:934-942 [MediaFeatureComparison::opposite] *)
Definition cmp_opposite (c : comparison_op) : comparison_op :=
  match c with CGt => CLt | CGe => CLe | CLt => CGt | CLe => CGe | CEq => CEq end.

(** media_query.rs:944-952 [MediaFeatureComparison::negate] *)
Definition cmp_negate (c : comparison_op) : comparison_op :=
  match c with CGt => CLe | CGe => CLt | CLt => CGe | CLe => CGt | CEq => CEq end.

(** media_query.rs:909-931 [MediaFeatureComparison::to_css]; ">=" and "<=" are two delimiters *)
Definition print_cmp (c : comparison_op) : list tok :=
  match c with
  | CEq => [TDelim "="]
  | CGt => [TDelim ">"]
  | CGe => [TDelim ">"; TDelim "="]
  | CLt => [TDelim "<"]
  | CLe => [TDelim "<"; TDelim "="]
  end.

(** media_query.rs:1723-1756 [consume_operation_or_colon];
    [Some (None, _)] is a colon *)
Definition consume_op (l : list tok) (allow_colon : bool)
  : option (option comparison_op * list tok) :=
  match l with
  | TColon :: r => if allow_colon then Some (None, r) else None
  | TDelim d :: r =>
      if Ascii.eqb d "=" then Some (Some CEq, r)
      else if Ascii.eqb d ">" then
        match r with
        | TDelim "=" :: r' => Some (Some CGe, r')
        | _ => Some (Some CGt, r)
        end
      else if Ascii.eqb d "<" then
        match r with
        | TDelim "=" :: r' => Some (Some CLe, r')
        | _ => Some (Some CLt, r)
        end
      else None
  | _ => None
  end.

(** ** Feature parsing *)

(** Result of parsing a feature: [ErrInvalid] is [ParserError::InvalidMediaQuery], which is not
    retried; [ErrOther] is any other error. *)
Inductive fres := FOk (f : feature) (rest : list tok) | ErrInvalid | ErrOther.

(** media_query.rs:1038-1075 [parse_name_first]; [options.error_recovery = false] *)
Definition parse_name_first (l : list tok) : fres :=
  match l with
  | TIdent s :: l1 =>
      let (name, legacy) := parse_name s in
      match consume_op l1 true with
      | None => FOk (FBoolean name) l1
      | Some (op, l2) =>
          match op, legacy with
          | Some _, Some _ => ErrInvalid
          | _, _ =>
              match parse_value l2 (name_type name) with
              | None => ErrOther
              | Some (v, l3) =>
                  if check_type v (name_type name) then
                    match (match op with Some o => Some o | None => legacy end) with
                    | Some o =>
                        if allows_ranges (name_type name) then FOk (FRange name o v) l3
                        else ErrInvalid
                    | None => FOk (FPlain name v) l3
                    end
                  else ErrInvalid
              end
          end
      end
  | _ => ErrOther
  end.

(** media_query.rs:1077-1093: scan for the feature name.  [MediaFeatureName::parse] consumes one
    token per attempt and only fails on non-identifiers. *)
Fixpoint find_name (l : list tok) : option (feature_name * option comparison_op) :=
  match l with
  | [] => None
  | TIdent s :: _ => Some (parse_name s)
  | _ :: r => find_name r
  end.

(** media_query.rs:1113-1124: the operator pairs accepted in an interval *)
Definition matching_ops (a b : comparison_op) : bool :=
  match a, b with
  | CGt, CGt | CGt, CGe | CGe, CGe | CGe, CGt
  | CLt, CLt | CLt, CLe | CLe, CLe | CLe, CLt => true
  | _, _ => false
  end.

(** media_query.rs:1077-1140 [parse_value_first] *)
Definition parse_value_first (l : list tok) : fres :=
  match find_name l with
  | None => ErrInvalid
  | Some (_, Some _) => ErrInvalid
  | Some (name, None) =>
      let t := name_type name in
      match parse_value l t with
      | None => ErrOther
      | Some (v, l1) =>
      match consume_op l1 false with
      | None => ErrOther
      | Some (None, _) => ErrOther
      | Some (Some op, l2) =>
      match l2 with
      | TIdent _ :: l3 =>
          if negb (allows_ranges t) || negb (check_type v t) then ErrInvalid
          else
            match consume_op l3 false with
            | Some (Some eop, l4) =>
                if matching_ops op eop then
                  match parse_value l4 t with
                  | None => ErrOther
                  | Some (e, l5) =>
                      if check_type e t then FOk (FInterval name v op e eop) l5 else ErrInvalid
                  end
                else ErrInvalid
            | _ => FOk (FRange name (cmp_opposite op) v) l3
            end
      | _ => ErrOther
      end end end
  end.

(** media_query.rs:1013-1032 [QueryFeature::parse_with_options] *)
Definition parse_feature (l : list tok) : fres :=
  match parse_name_first l with
  | FOk f r => FOk f r
  | ErrInvalid => ErrInvalid
  | ErrOther => parse_value_first l
  end.

(** ** Condition parsing *)

(** [Operator::parse] *)
Definition parse_operator (s : string) : option operator :=
  if ieq s "and" then Some And else if ieq s "or" then Some Or else None.
Definition operator_name (o : operator) : string :=
  match o with And => "and" | Or => "or" end.

(** media_query.rs:792-811 [parse_paren_block]; [pqc] parses a nested condition (with ALLOW_OR).
    [parse_nested_block] fails unless the whole block is consumed. *)
Definition paren_block (pqc : list tok -> option (cond * list tok)) (b : list tok)
  : option cond :=
  match b with
  | [] => None
  | _ =>
      match pqc b with
      | Some (c, []) => Some c
      | Some (_, _ :: _) => None
      | None =>
          match parse_feature b with
          | FOk f [] => Some (CFeature f)
          | _ => None
          end
      end
  end.

(** media_query.rs:760-767: the loop collecting further operands.  The container-only functions
    (style(), scroll-state()) are not modelled. *)
Fixpoint parse_tail (block : list tok -> option cond) (op : operator) (acc : list cond)
         (l : list tok) {struct l} : option (cond * list tok) :=
  match l with
  | TIdent s :: l' =>
      if ieq s (operator_name op) then
        match l' with
        | TBlock b :: l'' =>
            match block b with
            | Some c => parse_tail block op (acc ++ [c]) l''
            | None => None
            end
        | _ => None
        end
      else Some (COp op acc, l)
  | _ => Some (COp op acc, l)
  end.

(** media_query.rs:696-768 [parse_query_condition] and 770-790 [parse_parens_or_function] for
    media queries; recursion is on nesting depth of blocks, [n] is fuel. *)
Fixpoint parse_condition (n : nat) (allow_or : bool) (l : list tok)
  : option (cond * list tok) :=
  match n with
  | O => None
  | S n' =>
      let block := paren_block (parse_condition n' true) in
      match l with
      | TBlock b :: l1 =>
          match block b with
          | None => None
          | Some c1 =>
              match l1 with
              | TIdent s :: l2 =>
                  match parse_operator s with
                  | None => Some (c1, l1)
                  | Some op =>
                      if negb allow_or && operator_eqb op Or then None
                      else
                        match l2 with
                        | TBlock b2 :: l3 =>
                            match block b2 with
                            | None => None
                            | Some c2 => parse_tail block op [c1; c2] l3
                            end
                        | _ => None
                        end
                  end
              | _ => Some (c1, l1)
              end
          end
      | TIdent s :: l1 =>
          if ieq s "not" then
            match l1 with
            | TBlock b :: l2 =>
                match block b with Some c => Some (CNot c, l2) | None => None end
            | _ => None
            end
          else None
      | _ => None
      end
  end.

(** Nesting depth of a token list: enough fuel for [parse_condition]. *)
Fixpoint tok_depth (t : tok) : nat :=
  match t with
  | TBlock l => S ((fix go l := match l with [] => O | x :: r => Nat.max (tok_depth x) (go r) end) l)
  | _ => O
  end.
Fixpoint toks_depth (l : list tok) : nat :=
  match l with [] => O | x :: r => Nat.max (tok_depth x) (toks_depth r) end.

Definition condition_of_toks (allow_or : bool) (l : list tok) : option (cond * list tok) :=
  parse_condition (S (toks_depth l)) allow_or l.

(** media_query.rs:216-225, 238-243 [MediaType] from an identifier *)
Definition media_type_of (s : string) : media_type :=
  if ieq s "all" then MAll
  else if ieq s "print" then MPrint
  else if ieq s "screen" then MScreen
  else MCustom s.

(** [Qualifier::parse] *)
Definition parse_qualifier (s : string) : option qualifier :=
  if ieq s "only" then Some Only else if ieq s "not" then Some QNot else None.

(** media_query.rs:284-290: optional qualifier followed by a media type; on failure the whole
    attempt is rolled back *)
Definition parse_prefix (l : list tok) : option (option qualifier * media_type) * list tok :=
  match l with
  | TIdent s :: l1 =>
      match parse_qualifier s with
      | Some q =>
          match l1 with
          | TIdent t :: l2 => (Some (Some q, media_type_of t), l2)
          | _ => (None, l)
          end
      | None => (Some (None, media_type_of s), l1)
      end
  | _ => (None, l)
  end.

(** media_query.rs:279-315 [MediaQuery::parse_with_options] (error recovery off), on the tokens of
    one comma-separated part; the caller requires all tokens to be consumed *)
Definition parse_query (l : list tok) : option mquery :=
  match parse_prefix l with
  | (None, _) =>
      match condition_of_toks true l with
      | Some (c, []) => Some (MQ None MAll (Some c))
      | _ => None
      end
  | (Some (q, t), l1) =>
      match l1 with
      | [] => Some (MQ q t None)
      | TIdent s :: l2 =>
          if ieq s "and" then
            match condition_of_toks false l2 with
            | Some (c, []) => Some (MQ q t (Some c))
            | _ => None
            end
          else None
      | _ => None
      end
  end.

(** Split on top-level commas ([parse_until_before(Delimiter::Comma)]). *)
Fixpoint split_comma (l : list tok) : list tok * option (list tok) :=
  match l with
  | [] => ([], None)
  | TComma :: r => ([], Some r)
  | t :: r => let (a, b) := split_comma r in (t :: a, b)
  end.

(** media_query.rs:54-82 [MediaList::parse].  Each part must parse; an empty part makes the query
    parser fail with EndOfInput, which ends the list. *)
Fixpoint parse_list_fuel (n : nat) (l : list tok) : option mlist :=
  match n with
  | O => None
  | S n' =>
      let (part, rest) := split_comma l in
      match part with
      | [] => Some []
      | _ =>
          match parse_query part with
          | None => None
          | Some q =>
              match rest with
              | None => Some [q]
              | Some r =>
                  match parse_list_fuel n' r with
                  | Some qs => Some (q :: qs)
                  | None => None
                  end
              end
          end
      end
  end.
Definition parse_list (l : list tok) : option mlist :=
  match l with [] => Some [] | _ => parse_list_fuel (S (List.length l)) l end.

(** ** Printing *)

(** The target features that change printing: [should_compile!(targets, MediaRangeSyntax)],
    [should_compile!(targets, MediaIntervalSyntax)], and compatibility with the [x] unit. *)
Record ptargets := PT { pt_range : bool; pt_interval : bool; pt_x : bool }.

(** media_query.rs:1522-1574 [write_min_max] *)
Definition write_min_max (pt : ptargets) (op : comparison_op) (n : feature_name) (v : mvalue)
           (is_range : bool) : list tok :=
  let feature name := TBlock (TIdent name :: TColon :: print_value (pt_x pt) v) in
  let negated name :=
    let body := [TIdent "not"; feature name] in if is_range then [TBlock body] else body in
  match op with
  | CGt => negated (print_name_with_prefix "max-" n)
  | CGe => [feature (print_name_with_prefix "min-" n)]
  | CLt => negated (print_name_with_prefix "min-" n)
  | CLe => [feature (print_name_with_prefix "max-" n)]
  | CEq => [feature (print_name n)]
  end.

(** media_query.rs:1142-1156 [QueryFeature::needs_parens] *)
Definition feature_needs_parens (pt : ptargets) (f : feature) (parent : option operator) : bool :=
  match f with
  | FInterval _ _ _ _ _ =>
      pt_interval pt && negb (match parent with Some And => true | _ => false end)
  | FRange _ op _ => pt_range pt && match op with CGt | CLt => true | _ => false end
  | _ => false
  end.

(** media_query.rs:1158-1167 [QueryFeature::negate] *)
Definition feature_negate (f : feature) : option feature :=
  match f with FRange n op v => Some (FRange n (cmp_negate op) v) | _ => None end.

(** media_query.rs:1170-1220 [QueryFeature::to_css] *)
Definition print_feature (pt : ptargets) (f : feature) : list tok :=
  match f with
  | FBoolean n => [TBlock [TIdent (print_name n)]]
  | FPlain n v => [TBlock (TIdent (print_name n) :: TColon :: print_value (pt_x pt) v)]
  | FRange n op v =>
      if pt_range pt then write_min_max pt op n v false
      else [TBlock (TIdent (print_name n) :: print_cmp op ++ print_value (pt_x pt) v)]
  | FInterval n s sop e eop =>
      if pt_interval pt then
        write_min_max pt (cmp_opposite sop) n s true ++ TIdent "and" :: write_min_max pt eop n e true
      else
        [TBlock (print_value (pt_x pt) s ++ print_cmp sop ++ TIdent (print_name n)
                 :: print_cmp eop ++ print_value (pt_x pt) e)]
  end.

(** media_query.rs:591-598 [MediaCondition::needs_parens] *)
Definition needs_parens (pt : ptargets) (c : cond) (parent : option operator) : bool :=
  match c with
  | CNot _ => true
  | COp o _ => negb (match parent with Some p => operator_eqb o p | None => false end)
  | CFeature f => feature_needs_parens pt f parent
  | CUnknown _ => false
  end.

(** media_query.rs:813-829 [to_css_with_parens_if_needed] *)
Definition wrap (b : bool) (l : list tok) : list tok := if b then [TBlock l] else l.

(** media_query.rs:831-850 [operation_to_css], 853-859 [negate], 862-886 [MediaCondition::to_css].
    Printing an operation with no operands panics in the code ([iter.next().unwrap()]); it prints
    nothing here. *)
Fixpoint print_cond (pt : ptargets) (c : cond) : list tok :=
  match c with
  | CFeature f => print_feature pt f
  | CNot d =>
      match d with
      | CNot x => print_cond pt x
      | CFeature f =>
          match feature_negate f with
          | Some g => print_feature pt g
          | None => TIdent "not" :: wrap (feature_needs_parens pt f None) (print_feature pt f)
          end
      | _ => TIdent "not" :: wrap (needs_parens pt d None) (print_cond pt d)
      end
  | COp op cs =>
      match cs with
      | [] => []
      | c1 :: rest =>
          wrap (needs_parens pt c1 (Some op)) (print_cond pt c1) ++
          (fix go (l : list cond) : list tok :=
             match l with
             | [] => []
             | x :: r =>
                 TIdent (operator_name op)
                 :: wrap (needs_parens pt x (Some op)) (print_cond pt x) ++ go r
             end) rest
      end
  | CUnknown l => l
  end.

Definition qualifier_name (q : qualifier) : string :=
  match q with Only => "only" | QNot => "not" end.
Definition media_type_name (t : media_type) : string :=
  match t with MAll => "all" | MPrint => "print" | MScreen => "screen" | MCustom s => s end.

(** media_query.rs:420-461 [MediaQuery::to_css].  A custom media type is written without
    escaping by the code; tokens here assume it needs none. *)
Definition print_query (pt : ptargets) (q : mquery) : list tok :=
  (match mq_qual q with Some x => [TIdent (qualifier_name x)] | None => [] end) ++
  (match mq_type q with
   | MAll =>
       match mq_qual q, mq_cond q with
       | None, Some _ => []
       | _, _ => [TIdent "all"]
       end
   | t => [TIdent (media_type_name t)]
   end) ++
  match mq_cond q with
  | None => []
  | Some c =>
      match mq_type q, mq_qual q with
      | MAll, None => print_cond pt c
      | _, _ =>
          TIdent "and" ::
          wrap (match c with COp Or _ => true | _ => false end) (print_cond pt c)
      end
  end.

(** media_query.rs:162-183 [MediaList::to_css] *)
Fixpoint print_queries (pt : ptargets) (l : mlist) : list tok :=
  match l with
  | [] => []
  | [q] => print_query pt q
  | q :: r => print_query pt q ++ TComma :: print_queries pt r
  end.
Definition print_list (pt : ptargets) (l : mlist) : list tok :=
  match l with [] => [TIdent "not"; TIdent "all"] | _ => print_queries pt l end.

(** ** Boolean operations on queries *)

(** media_query.rs:354-356 and 359-361 *)
Definition query_always_matches (q : mquery) : bool :=
  match q with MQ None MAll None => true | _ => false end.
Definition query_never_matches (q : mquery) : bool :=
  match q with MQ (Some QNot) MAll None => true | _ => false end.

(** media_query.rs:118-126 *)
Definition list_always_matches (l : mlist) : bool :=
  match l with [] => true | _ => forallb query_always_matches l end.
Definition list_never_matches (l : mlist) : bool :=
  match l with [] => false | _ => forallb query_never_matches l end.

(** media_query.rs:368-394: the qualifier/type table of [MediaQuery::and]; [None] is [Err(())] *)
Definition and_types (a : option qualifier * media_type) (b : option qualifier * media_type)
  : option (option qualifier * media_type) :=
  match a, b with
  | (Some QNot, MAll), _ => Some (Some QNot, MAll)
  | _, (Some QNot, MAll) => Some (Some QNot, MAll)
  | (Some QNot, ta), (Some QNot, tb) => if mtype_eqb ta tb then Some (Some QNot, ta) else None
  | (_, MAll), (q, t) => Some (q, t)
  | (q, t), (_, MAll) => Some (q, t)
  | (Some QNot, _), (q, t) => Some (q, t)
  | (q, t), (Some QNot, _) => Some (q, t)
  | (_, ta), (_, tb) => if mtype_eqb ta tb then Some (None, ta) else Some (Some QNot, MAll)
  end.

(** media_query.rs:367-417 [MediaQuery::and] *)
Definition query_and (a b : mquery) : option mquery :=
  match and_types (mq_qual a, mq_type a) (mq_qual b, mq_type b) with
  | None => None
  | Some (q, t) =>
      let c :=
        match mq_cond b with
        | None => mq_cond a
        | Some cb =>
            match mq_cond a with
            | None => Some cb
            | Some ca => if cond_eqb ca cb then Some ca else Some (COp And [ca; cb])
            end
        end in
      Some (MQ q t c)
  end.

Fixpoint map_opt {A B} (f : A -> option B) (l : list A) : option (list B) :=
  match l with
  | [] => Some []
  | x :: r => match f x, map_opt f r with Some y, Some ys => Some (y :: ys) | _, _ => None end
  end.

(** media_query.rs:132-149 [MediaList::and].  On error the code leaves a partially updated list;
    the model returns [None]. *)
Fixpoint list_and_loop (a : mlist) (bs : mlist) : option mlist :=
  match bs with
  | [] => Some a
  | b :: r =>
      if mlist_contains a b then list_and_loop a r
      else match map_opt (fun x => query_and x b) a with
           | Some a' => list_and_loop a' r
           | None => None
           end
  end.
Definition list_and (a b : mlist) : option mlist :=
  match a with [] => Some b | _ => list_and_loop a b end.

(** media_query.rs:153-159 [MediaList::or] *)
Fixpoint list_or (a b : mlist) : mlist :=
  match b with
  | [] => a
  | q :: r => if mlist_contains a q then list_or a r else list_or (a ++ [q]) r
  end.

(** ** Resolution prefixing *)

(** media_query.rs:633-649 [get_necessary_prefixes], abstracted to: does the condition contain a
    range on [resolution]?  (the prefix set then comes from the targets) *)
Fixpoint has_resolution (c : cond) : bool :=
  match c with
  | CFeature (FRange (NStandard Resolution_) _ _) => true
  | CNot d => has_resolution d
  | COp _ cs => (fix go l := match l with [] => false | x :: r => has_resolution x || go r end) cs
  | _ => false
  end.

(** The vendor prefixes other than None that matter here. *)
Inductive vprefix := PWebKit | PMoz | POther.

(** media_query.rs:651-683 [MediaCondition::transform_resolution] *)
Definition resolution_number (q : Q) (u : res_unit) : Q :=
  match u with Dpi => q / 96 | Dpcm => q * (254 # 100) / 96 | Dppx => q end.
Fixpoint transform_res_cond (p : vprefix) (c : cond) : cond :=
  match c with
  | CFeature (FRange (NStandard Resolution_) op (VResolution q u)) =>
      match p with
      | PWebKit => CFeature (FRange (NStandard WebKitDevicePixelRatio) op
                                    (VNumber (resolution_number q u)))
      | PMoz => CFeature (FRange (NStandard MozDevicePixelRatio) op
                                 (VNumber (resolution_number q u)))
      | POther => c
      end
  | CNot d => CNot (transform_res_cond p d)
  | COp o cs => COp o (map (transform_res_cond p) cs)
  | _ => c
  end.
Definition transform_res_query (p : vprefix) (q : mquery) : mquery :=
  MQ (mq_qual q) (mq_type q) (option_map (transform_res_cond p) (mq_cond q)).
Definition query_prefixes (ps : list vprefix) (q : mquery) : list vprefix :=
  match mq_cond q with Some c => if has_resolution c then ps else [] | None => [] end.

(** media_query.rs:101-108: the inner loop over prefixes at index [i] *)
Fixpoint res_insert (q : mquery) (ps : list vprefix) (l : mlist) (i : nat) : mlist * nat :=
  match ps with
  | [] => (l, i)
  | p :: r =>
      let t := transform_res_query p q in
      let l' := if mlist_contains l t then l else firstn i l ++ t :: skipn i l in
      res_insert q r l' (S i)
  end.

(** media_query.rs:95-115 [MediaList::transform_resolution]; [ps] is the set of prefixes (without
    None) that the targets require for [@media (resolution)]; [n] is fuel for the while loop *)
Fixpoint res_loop (n : nat) (ps : list vprefix) (l : mlist) (i : nat) : option mlist :=
  match n with
  | O => None
  | S n' =>
      match nth_error l i with
      | None => Some l
      | Some q =>
          let (l', i') := res_insert q (query_prefixes ps q) l i in
          res_loop n' ps l' (S i')
      end
  end.
Definition transform_resolution (ps : list vprefix) (l : mlist) : option mlist :=
  res_loop (S (List.length l)) ps l 0.
