(** * The [animation] shorthand (src/properties/animation.rs) and easing functions (src/values/easing.rs) *)
From Coq Require Import List Bool QArith ZArith Ascii String.
Import ListNotations.
Local Open Scope string_scope.

(** Letter case as in [match_ignore_ascii_case!] *)
Definition lower_char (c : ascii) : ascii :=
  let n := nat_of_ascii c in if (Nat.leb 65 n && Nat.leb n 90)%bool then ascii_of_nat (n + 32) else c.
Fixpoint lower (s : string) : string := match s with EmptyString => EmptyString | String c r => String (lower_char c) (lower r) end.
Definition is_kw (kw s : string) : bool := String.eqb (lower s) kw.
(** The first entry of a keyword table that matches *)
Fixpoint keyword {A} (table : list (string * A)) (s : string) : option A :=
  match table with [] => None | (kw, a) :: r => if is_kw kw s then Some a else keyword r s end.

(** easing.rs:23-52, 193-203.  Simplification: numbers are rational. *)
Inductive step_position := Start | End | JumpNone | JumpBoth.
Inductive easing :=
| Linear | Ease | EaseIn | EaseOut | EaseInOut
| CubicBezier (x1 y1 x2 y2 : Q)
| Steps (count : Z) (p : step_position).
(** animation.rs:95-100, 112-163 *)
Inductive count := Number (q : Q) | Infinite.
Inductive direction := Normal | Reverse | Alternate | AlternateReverse.
Inductive play_state := Running | Paused.
Inductive fill_mode := FillNone | Forwards | Backwards | Both.
(** animation.rs:37-47 and 193-205; the functions [scroll()] and [view()] are numbers *)
Inductive name := NoName | Ident (s : string) | Str (s : string).
Inductive timeline := Auto | NoTimeline | Dashed (s : string) | Function (n : nat).

(** Tokens.  Simplification: a time, a number and a function with its arguments is one token; a function
    is given by what it is parsed to. *)
Inductive token :=
| TTime (q : Q) | TNumber (q : Q) | TEasing (e : easing) | TTimeline (n : nat) | TIdent (s : string) | TString (s : string) | TOther (n : nat).

(** animation.rs:586-606 *)
Record animation := Animation {
  a_name : name; a_duration : Q; a_timing : easing; a_count : count; a_direction : direction;
  a_play : play_state; a_delay : Q; a_fill : fill_mode; a_timeline : timeline
}.

(** easing.rs:69-80 *)
Definition easing_keywords : list (string * easing) :=
  [("linear", Linear); ("ease", Ease); ("ease-in", EaseIn); ("ease-out", EaseOut); ("ease-in-out", EaseInOut); ("step-start", Steps 1 Start); ("step-end", Steps 1 End)].
Definition as_time (t : token) : option Q := match t with TTime q => Some q | _ => None end.
(** easing.rs:69-107 *)
Definition as_easing (t : token) : option easing :=
  match t with TIdent s => keyword easing_keywords s | TEasing e => Some e | _ => None end.
Definition as_count (t : token) : option count :=
  match t with TNumber q => Some (Number q) | TIdent s => keyword [("infinite", Infinite)] s | _ => None end.
Definition direction_keywords : list (string * direction) :=
  [("normal", Normal); ("reverse", Reverse); ("alternate", Alternate); ("alternate-reverse", AlternateReverse)].
Definition fill_keywords : list (string * fill_mode) := [("none", FillNone); ("forwards", Forwards); ("backwards", Backwards); ("both", Both)].
Definition play_keywords : list (string * play_state) := [("running", Running); ("paused", Paused)].
Definition of_ident {A} (f : string -> option A) (t : token) : option A := match t with TIdent s => f s | _ => None end.
(** values/ident.rs:31-46 *)
Definition reserved (s : string) : bool := existsb (fun kw => is_kw kw s) ["initial"; "inherit"; "unset"; "default"; "revert"; "revert-layer"].
Definition as_name (t : token) : option name :=
  match t with
  | TIdent s => if is_kw "none" s then Some NoName else if reserved s then None else Some (Ident s)
  | TString s => Some (Str s)
  | _ => None
  end.
(** values/ident.rs [DashedIdent] *)
Definition dashed (s : string) : bool := String.prefix "--" s.
Definition as_timeline (t : token) : option timeline :=
  match t with
  | TIdent s => if is_kw "auto" s then Some Auto else if is_kw "none" s then Some NoTimeline else if dashed s then Some (Dashed s) else None
  | TTimeline n => Some (Function n)
  | _ => None
  end.

(** animation.rs:611-619: what was found so far *)
Record found := Found {
  f_name : option name; f_duration : option Q; f_timing : option easing; f_count : option count; f_direction : option direction;
  f_play : option play_state; f_delay : option Q; f_fill : option fill_mode; f_timeline : option timeline
}.
Definition nothing : found := Found None None None None None None None None None.
(** animation.rs:621-629 [parse_prop!] *)
Definition parse_prop {A} (var : option A) (value : option A) (set : option A -> found) (next : option found) : option found :=
  match var, value with None, Some v => Some (set (Some v)) | _, _ => next end.
(** animation.rs:633-641: one turn of the loop, [None] if it breaks *)
Definition step (f : found) (t : token) : option found :=
  let 'Found n d e c di p de fi ti := f in
  parse_prop d (as_time t) (fun x => Found n x e c di p de fi ti)
  (parse_prop e (as_easing t) (fun x => Found n d x c di p de fi ti)
  (parse_prop de (as_time t) (fun x => Found n d e c di p x fi ti)
  (parse_prop c (as_count t) (fun x => Found n d e x di p de fi ti)
  (parse_prop di (of_ident (keyword direction_keywords) t) (fun x => Found n d e c x p de fi ti)
  (parse_prop fi (of_ident (keyword fill_keywords) t) (fun x => Found n d e c di p de x ti)
  (parse_prop p (of_ident (keyword play_keywords) t) (fun x => Found n d e c di x de fi ti)
  (parse_prop n (as_name t) (fun x => Found x d e c di p de fi ti)
  (parse_prop ti (as_timeline t) (fun x => Found n d e c di p de fi x)
  None)))))))).
Fixpoint parse_loop (f : found) (l : list token) : found * list token :=
  match l with
  | [] => (f, [])
  | t :: r => match step f t with Some f' => parse_loop f' r | None => (f, l) end
  end.
Definition get {A} (o : option A) (d : A) : A := match o with Some a => a | None => d end.
(** animation.rs:645-655 *)
Definition complete (f : found) : animation :=
  Animation (get (f_name f) NoName) (get (f_duration f) 0%Q) (get (f_timing f) Ease) (get (f_count f) (Number 1)) (get (f_direction f) Normal)
    (get (f_play f) Running) (get (f_delay f) 0%Q) (get (f_fill f) FillNone) (get (f_timeline f) Auto).
Definition parse (l : list token) : animation * list token := let (f, r) := parse_loop nothing l in (complete f, r).

(** easing.rs:55-66 *)
Definition bezier_eqb (e : easing) (a b c d : Q) : bool :=
  match e with CubicBezier x1 y1 x2 y2 => Qeq_bool x1 a && Qeq_bool y1 b && Qeq_bool x2 c && Qeq_bool y2 d | _ => false end.
Definition is_ease (e : easing) : bool := match e with Ease => true | _ => bezier_eqb e (1 # 4) (1 # 10) (1 # 4) 1 end.
(** easing.rs:110-182 *)
Definition print_easing (e : easing) : token :=
  match e with
  | Linear => TIdent "linear" | Ease => TIdent "ease" | EaseIn => TIdent "ease-in" | EaseOut => TIdent "ease-out" | EaseInOut => TIdent "ease-in-out"
  | _ =>
      if is_ease e then TIdent "ease"
      else if bezier_eqb e (42 # 100) 0 1 1 then TIdent "ease-in"
      else if bezier_eqb e 0 0 (58 # 100) 1 then TIdent "ease-out"
      else if bezier_eqb e (42 # 100) 0 (58 # 100) 1 then TIdent "ease-in-out"
      else match e with Steps 1 Start => TIdent "step-start" | Steps 1 End => TIdent "step-end" | _ => TEasing e end
  end.
(** easing.rs:184-191: the letter case counts *)
Definition easing_ident (s : string) : bool := existsb (String.eqb s) (map fst easing_keywords).
Definition print_count (c : count) : token := match c with Number q => TNumber q | Infinite => TIdent "infinite" end.
Definition print_direction (d : direction) : token :=
  TIdent match d with Normal => "normal" | Reverse => "reverse" | Alternate => "alternate" | AlternateReverse => "alternate-reverse" end.
Definition print_fill (f : fill_mode) : token := TIdent match f with FillNone => "none" | Forwards => "forwards" | Backwards => "backwards" | Both => "both" end.
Definition print_play (p : play_state) : token := TIdent match p with Running => "running" | Paused => "paused" end.
(** animation.rs:49-88, without CSS modules *)
Definition print_name (n : name) : token :=
  match n with
  | NoName => TIdent "none"
  | Ident s => TIdent s
  | Str s => if is_kw "none" s || reserved s then TString s else TIdent s
  end.
Definition print_timeline (t : timeline) : token :=
  match t with Auto => TIdent "auto" | NoTimeline => TIdent "none" | Dashed s => TIdent s | Function n => TTimeline n end.
Definition is_zero (q : Q) : bool := Qeq_bool q 0.
Definition default_count (c : count) : bool := match c with Number q => Qeq_bool q 1 | Infinite => false end.
Definition some {A} (o : option A) : bool := match o with Some _ => true | None => false end.
(** animation.rs:664-704.  [parse_string] of a name: simplification, the name has only characters of
    identifiers. *)
Definition print_before (s : string) (a : animation) : list token :=
  (if negb (is_zero (a_duration a)) || negb (is_zero (a_delay a)) then [TTime (a_duration a)] else [])
  ++ (if negb (is_ease (a_timing a)) || easing_ident s then [print_easing (a_timing a)] else [])
  ++ (if negb (is_zero (a_delay a)) then [TTime (a_delay a)] else [])
  ++ (if negb (default_count (a_count a)) || String.eqb s "infinite" then [print_count (a_count a)] else [])
  ++ (if negb (match a_direction a with Normal => true | _ => false end) || some (keyword direction_keywords s) then [print_direction (a_direction a)] else [])
  ++ (if negb (match a_fill a with FillNone => true | _ => false end) || (negb (is_kw "none" s) && some (keyword fill_keywords s)) then [print_fill (a_fill a)] else [])
  ++ (if negb (match a_play a with Running => true | _ => false end) || some (keyword play_keywords s) then [print_play (a_play a)] else []).
(** animation.rs:659-716 *)
Definition print (a : animation) : list token :=
  match a_name a with NoName => [] | Ident s | Str s => print_before s a end
  ++ [print_name (a_name a)]
  ++ (if match a_name a with NoName => false | _ => true end && match a_timeline a with Auto => false | _ => true end then [print_timeline (a_timeline a)] else []).
