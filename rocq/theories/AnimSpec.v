(** * What the [animation] shorthand means (css-animations-1, section 4.9; css-easing-1) *)
From Coq Require Import List Bool QArith ZArith Ascii String.
From Verif Require Import AnimModel.
Import ListNotations.
Local Open Scope string_scope.
Local Open Scope Q_scope.

(** The curves of easing functions, with the control points of css-easing-1 for the keywords *)
Inductive curve := Straight | Bezier (x1 y1 x2 y2 : Q) | Stairs (n : Z) (p : step_position).
Definition curve_of (e : easing) : curve :=
  match e with
  | Linear => Straight
  | Ease => Bezier 0.25 0.1 0.25 1
  | EaseIn => Bezier 0.42 0 1 1
  | EaseOut => Bezier 0 0 0.58 1
  | EaseInOut => Bezier 0.42 0 0.58 1
  | CubicBezier a b c d => Bezier a b c d
  | Steps n p => Stairs n p
  end.
Definition easing_table : list (string * curve) :=
  [("linear", Straight); ("ease", Bezier 0.25 0.1 0.25 1); ("ease-in", Bezier 0.42 0 1 1); ("ease-out", Bezier 0 0 0.58 1); ("ease-in-out", Bezier 0.42 0 0.58 1);
   ("step-start", Stairs 1 Start); ("step-end", Stairs 1 End)].

(** A value of one of the longhands; the name [None] is no animation, the count [None] is infinite *)
Inductive given :=
| GName (s : option string) | GDuration (q : Q) | GTiming (c : curve) | GCount (q : option Q) | GDirection (d : direction)
| GPlay (p : play_state) | GDelay (q : Q) | GFill (f : fill_mode) | GTimeline (t : timeline).
Inductive slot := SName | SDuration | STiming | SCount | SDirection | SPlay | SDelay | SFill | STimeline.
Definition slot_of (g : given) : slot :=
  match g with
  | GName _ => SName | GDuration _ => SDuration | GTiming _ => STiming | GCount _ => SCount | GDirection _ => SDirection
  | GPlay _ => SPlay | GDelay _ => SDelay | GFill _ => SFill | GTimeline _ => STimeline
  end.
Definition slot_eqb (a b : slot) : bool :=
  match a, b with
  | SName, SName | SDuration, SDuration | STiming, STiming | SCount, SCount | SDirection, SDirection | SPlay, SPlay | SDelay, SDelay | SFill, SFill | STimeline, STimeline => true
  | _, _ => false
  end.

(** The token is a value of the longhand *)
Inductive valid : token -> given -> Prop :=
| VDuration q : valid (TTime q) (GDuration q)
| VDelay q : valid (TTime q) (GDelay q)
| VEasing e : valid (TEasing e) (GTiming (curve_of e))
| VEasingKw s c : In (lower s, c) easing_table -> valid (TIdent s) (GTiming c)
| VCount q : valid (TNumber q) (GCount (Some q))
| VInfinite s : lower s = "infinite" -> valid (TIdent s) (GCount None)
| VDirection s d : In (lower s, d) [("normal", Normal); ("reverse", Reverse); ("alternate", Alternate); ("alternate-reverse", AlternateReverse)] -> valid (TIdent s) (GDirection d)
| VFill s f : In (lower s, f) [("none", FillNone); ("forwards", Forwards); ("backwards", Backwards); ("both", Both)] -> valid (TIdent s) (GFill f)
| VPlay s p : In (lower s, p) [("running", Running); ("paused", Paused)] -> valid (TIdent s) (GPlay p)
| VNoName s : lower s = "none" -> valid (TIdent s) (GName None)
| VName s : ~ In (lower s) ["none"; "initial"; "inherit"; "unset"; "default"; "revert"; "revert-layer"] -> valid (TIdent s) (GName (Some s))
| VString s : valid (TString s) (GName (Some s))
| VAuto s : lower s = "auto" -> valid (TIdent s) (GTimeline Auto)
| VNoTimeline s : lower s = "none" -> valid (TIdent s) (GTimeline NoTimeline)
| VDashed s : String.prefix "--" s = true -> valid (TIdent s) (GTimeline (Dashed s))
| VFunction n : valid (TTimeline n) (GTimeline (Function n)).

(** The first time is the duration.  What is valid for another property whose value was not found earlier is not the
    name, and the timeline comes last. *)
Inductive prior : slot -> slot -> Prop :=
| PTime : prior SDuration SDelay
| PName s : s <> SName -> s <> STimeline -> prior s SName
| PTimeline s : s <> STimeline -> prior s STimeline.
Definition chosen (used : list slot) (t : token) (g : given) : Prop :=
  valid t g /\ ~ In (slot_of g) used /\ forall g', valid t g' -> prior (slot_of g') (slot_of g) -> In (slot_of g') used.
Inductive reads : list slot -> list token -> list given -> Prop :=
| RNil used : reads used [] []
| RCons used t g r gs : chosen used t g -> reads (slot_of g :: used) r gs -> reads used (t :: r) (g :: gs).
Definition shorthand (t : list token) (gs : list given) : Prop := t <> [] /\ reads [] t gs.

(** The value of a longhand, the initial one if nothing is given *)
Definition initial (s : slot) : given :=
  match s with
  | SName => GName None | SDuration => GDuration 0 | STiming => GTiming (Bezier 0.25 0.1 0.25 1) | SCount => GCount (Some 1) | SDirection => GDirection Normal
  | SPlay => GPlay Running | SDelay => GDelay 0 | SFill => GFill FillNone | STimeline => GTimeline Auto
  end.
Fixpoint value (gs : list given) (s : slot) : given :=
  match gs with [] => initial s | g :: r => if slot_eqb (slot_of g) s then g else value r s end.
(** Equality of values, with equality of rational numbers *)
Definition curve_eq (a b : curve) : Prop :=
  match a, b with
  | Straight, Straight => True
  | Bezier a b c d, Bezier a' b' c' d' => a == a' /\ b == b' /\ c == c' /\ d == d'
  | Stairs n p, Stairs m q => n = m /\ p = q
  | _, _ => False
  end.
Definition given_eq (a b : given) : Prop :=
  match a, b with
  | GDuration p, GDuration q | GDelay p, GDelay q | GCount (Some p), GCount (Some q) => p == q
  | GTiming c, GTiming d => curve_eq c d
  | _, _ => a = b
  end.
Definition same_values (a b : list given) : Prop := forall s, given_eq (value a s) (value b s).

(** The longhands of the parsed shorthand *)
Definition longhands (a : animation) : list given :=
  [GName match a_name a with NoName => None | Ident s | Str s => Some s end; GDuration (a_duration a); GTiming (curve_of (a_timing a));
   GCount match a_count a with Number q => Some q | Infinite => None end; GDirection (a_direction a); GPlay (a_play a); GDelay (a_delay a); GFill (a_fill a); GTimeline (a_timeline a)].

(** Identifiers that the parser can return *)
Definition proper (a : animation) : Prop :=
  match a_name a with
  | Ident s => ~ In (lower s) ["none"; "initial"; "inherit"; "unset"; "default"; "revert"; "revert-layer"]
  | Str s => s <> ""
  | NoName => True
  end /\ match a_timeline a with Dashed s => String.prefix "--" s = true | _ => True end.
(** What the printer gets right: there is a name; keywords of easing functions and [infinite] that are names are in
    lower case, unless the property is printed in any case; a timeline [none] is not taken for the fill mode *)
Definition fine (a : animation) : Prop :=
  match a_name a with
  | NoName => same_values (longhands a) []
  | Ident s | Str s =>
      (In (lower s) (map fst easing_table) -> lower s = s \/ ~ curve_eq (curve_of (a_timing a)) (Bezier 0.25 0.1 0.25 1))
      /\ (lower s = "infinite" -> lower s = s \/ ~ match a_count a with Number q => q == 1 | Infinite => False end)
      /\ (a_timeline a = NoTimeline -> a_fill a <> FillNone \/ In (lower s) ["forwards"; "backwards"; "both"])
  end.
