(** * Model of small values: src/values/{rect,size,position,time,easing,length,percentage}.rs and
      the value grammar of properties/border_radius.rs

    Token level, as in MediaModel.v; f32 is modelled by rationals. *)
From Coq Require Import List String Bool ZArith QArith.
From Verif Require Import MediaModel.
Import ListNotations.
Open Scope string_scope.
Open Scope list_scope.

(** Tokens of a property value.  [TkCalc s] stands for a calc() or other math function whose
    contents [s] are opaque and reprinted unchanged. *)
Inductive vtok :=
| TkIdent (s : string)
| TkNum (q : Q) (int : option Z)
| TkDim (q : Q) (unit : string)
| TkPct (q : Q)
| TkCalc (s : string)
| TkDelim (s : string)
| TkFun (name : string) (args : list vtok)
| TkComma.

(** A component parser: consumes tokens from the front *)
Definition vparser (T : Type) := list vtok -> option (T * list vtok).

(** ** Rect and Size2D *)
Section Rect.
Variable T : Type.
Variable parse : vparser T.
Variable eqb : T -> T -> bool.
Variable print : T -> list vtok.

(** rect.rs:20-29 [Rect] *)
Inductive rect := Rect (top right bottom left : T).

(** rect.rs:54-82 [Rect::parse_with]; [try_parse] does not consume on failure *)
Definition parse_rect : vparser rect := fun l =>
  match parse l with
  | None => None
  | Some (first, l1) =>
      match parse l1 with
      | None => Some (Rect first first first first, l1)
      | Some (second, l2) =>
          match parse l2 with
          | None => Some (Rect first second first second, l2)
          | Some (third, l3) =>
              match parse l3 with
              | None => Some (Rect first second third second, l3)
              | Some (fourth, l4) => Some (Rect first second third fourth, l4)
              end
          end
      end
  end.

(** rect.rs:98-120 [Rect::to_css]: the components written *)
Definition rect_components (r : rect) : list T :=
  let '(Rect a b c d) := r in
  let same_vertical := eqb a c in
  let same_horizontal := eqb b d in
  if same_vertical && same_horizontal && eqb a b then [a]
  else if same_vertical && same_horizontal then [a; b]
  else if same_horizontal then [a; b; c]
  else [a; b; c; d].
Definition print_rect (r : rect) : list vtok := flat_map print (rect_components r).

(** [#[derive(PartialEq)]] on [Rect] *)
Definition rect_eqb (r s : rect) : bool :=
  let '(Rect a b c d) := r in
  let '(Rect a' b' c' d') := s in eqb a a' && eqb b b' && eqb c c' && eqb d d'.

(** size.rs:18 [Size2D], size.rs:24-28 [parse], size.rs:35-45 [to_css] *)
Inductive size2d := Size2D (x y : T).
Definition parse_size2d : vparser size2d := fun l =>
  match parse l with
  | None => None
  | Some (first, l1) =>
      match parse l1 with
      | Some (second, l2) => Some (Size2D first second, l2)
      | None => Some (Size2D first first, l1)
      end
  end.
Definition size2d_components (s : size2d) : list T :=
  let '(Size2D x y) := s in if eqb y x then [x] else [x; y].
Definition print_size2d (s : size2d) : list vtok := flat_map print (size2d_components s).

(** properties/border_radius.rs:21-33 [BorderRadius] (vendor prefix dropped) *)
Inductive radii := Radii (top_left top_right bottom_right bottom_left : size2d).

(** border_radius.rs:48-64 [BorderRadius::parse] *)
Definition parse_radii : vparser radii := fun l =>
  match parse_rect l with
  | None => None
  | Some (Rect w0 w1 w2 w3, l1) =>
      let build h l2 :=
        let '(Rect h0 h1 h2 h3) := h in
        Some (Radii (Size2D w0 h0) (Size2D w1 h1) (Size2D w2 h2) (Size2D w3 h3), l2) in
      match l1 with
      | TkDelim "/" :: l2 =>
          match parse_rect l2 with Some (h, l3) => build h l3 | None => None end
      | _ => build (Rect w0 w1 w2 w3) l1
      end
  end.

(** border_radius.rs:66-92 [BorderRadius::to_css] *)
Definition print_radii (r : radii) : list vtok :=
  let '(Radii (Size2D w0 h0) (Size2D w1 h1) (Size2D w2 h2) (Size2D w3 h3)) := r in
  let widths := Rect w0 w1 w2 w3 in
  let heights := Rect h0 h1 h2 h3 in
  print_rect widths
  ++ (if rect_eqb widths heights then [] else TkDelim "/" :: print_rect heights).
End Rect.
Arguments Rect {T}. Arguments Size2D {T}. Arguments Radii {T}.

(** ** LengthPercentage *)

(** values/percentage.rs:187-195 [DimensionPercentage<LengthValue>]: a length, a percentage
    (1 stands for 100%), or an opaque calc() *)
Inductive lp := LpLen (q : Q) (unit : string) | LpPct (q : Q) | LpCalc (s : string).

(** values/percentage.rs:213-229 [parse], values/length.rs:105-125 [LengthValue::parse] *)
Definition parse_lp : vparser lp := fun l =>
  match l with
  | TkCalc s :: r => Some (LpCalc s, r)
  | TkDim q u :: r => if is_length_unit (lower u) then Some (LpLen q (lower u), r) else None
  | TkNum q _ :: r => Some (LpLen q "px", r)
  | TkPct q :: r => Some (LpPct q, r)
  | _ => None
  end.

(** values/length.rs:457-472, values/percentage.rs:476-488 [to_css] (outside calc) *)
Definition print_lp (x : lp) : list vtok :=
  match x with
  | LpLen q u => if Qeq_bool q 0 then [TkNum 0 (Some 0%Z)] else [TkDim q u]
  | LpPct q => [TkPct q]
  | LpCalc s => [TkCalc s]
  end.

(** [#[derive(PartialEq)]] *)
Definition lp_eqb (a b : lp) : bool :=
  match a, b with
  | LpLen p u, LpLen q v => Qeq_bool p q && String.eqb u v
  | LpPct p, LpPct q => Qeq_bool p q
  | LpCalc s, LpCalc t => String.eqb s t
  | _, _ => false
  end.

(** values/percentage.rs:451-463 [Zero] *)
Definition lp_zero : lp := LpLen 0 "px".
Definition lp_is_zero (x : lp) : bool :=
  match x with LpLen q _ => Qeq_bool q 0 | LpPct q => Qeq_bool q 0 | LpCalc _ => false end.

(** ** Position *)

(** position.rs:389-425: side keywords; the first is the start side, the second the end side *)
Inductive side := SStart | SEnd.
Inductive axis := AxX | AxY.
Definition side_name (a : axis) (s : side) : string :=
  match a, s with
  | AxX, SStart => "left" | AxX, SEnd => "right" | AxY, SStart => "top" | AxY, SEnd => "bottom"
  end.
(** position.rs:399-406, 418-425: [Into<LengthPercentage>] *)
Definition side_lp (s : side) : lp := match s with SStart => lp_zero | SEnd => LpPct 1 end.

(** position.rs:317-330 [PositionComponent] *)
Inductive pcomp := PCenter | PLength (x : lp) | PSide (s : side) (offset : option lp).
(** position.rs:24-29 [Position] *)
Inductive position := Position (x y : pcomp).

(** [expect_ident_matching("center")] *)
Definition parse_center (l : list vtok) : option (list vtok) :=
  match l with TkIdent s :: r => if ieq s "center" then Some r else None | _ => None end.
(** [HorizontalPositionKeyword::parse], [VerticalPositionKeyword::parse] (enum_property!) *)
Definition parse_side (a : axis) : vparser side := fun l =>
  match l with
  | TkIdent s :: r =>
      if ieq s (side_name a SStart) then Some (SStart, r)
      else if ieq s (side_name a SEnd) then Some (SEnd, r) else None
  | _ => None
  end.
Definition opt_lp (l : list vtok) : option lp * list vtok :=
  match parse_lp l with Some (x, r) => (Some x, r) | None => (None, l) end.

(** position.rs:346-360 [PositionComponent::parse] *)
Definition parse_pcomp (a : axis) : vparser pcomp := fun l =>
  match parse_center l with
  | Some r => Some (PCenter, r)
  | None =>
      match parse_lp l with
      | Some (x, r) => Some (PLength x, r)
      | None =>
          match parse_side a l with
          | Some (s, r) => let (o, r1) := opt_lp r in Some (PSide s o, r1)
          | None => None
          end
      end
  end.

(** position.rs:60-168 [Position::parse] *)
Definition parse_position : vparser position := fun l =>
  match parse_pcomp AxX l with
  | Some (PCenter, l1) =>
      match parse_pcomp AxY l1 with
      | Some (y, l2) => Some (Position PCenter y, l2)
      | None =>
          match parse_pcomp AxX l1 with
          | Some (x, l2) => Some (Position x PCenter, l2)
          | None => Some (Position PCenter PCenter, l1)
          end
      end
  | Some (PLength x, l1) =>
      match parse_side AxY l1 with
      | Some (s, l2) => Some (Position (PLength x) (PSide s None), l2)
      | None =>
          match parse_lp l1 with
          | Some (y, l2) => Some (Position (PLength x) (PLength y), l2)
          | None =>
              match parse_center l1 with
              | Some l2 => Some (Position (PLength x) PCenter, l2)
              | None => Some (Position (PLength x) PCenter, l1)
              end
          end
      end
  | Some (PSide s o, l1) =>
      match parse_center l1 with
      | Some l2 => Some (Position (PSide s o) PCenter, l2)
      | None =>
          match parse_side AxY l1 with
          | Some (t, l2) => let (yo, l3) := opt_lp l2 in Some (Position (PSide s o) (PSide t yo), l3)
          | None =>
              Some (Position (PSide s None) (match o with Some y => PLength y | None => PCenter end), l1)
          end
      end
  | None =>
      match parse_side AxY l with
      | None => None
      | Some (t, l1) =>
          let (yo, l2) := opt_lp l1 in
          match parse_side AxX l2 with
          | Some (s, l3) => let (xo, l4) := opt_lp l3 in Some (Position (PSide s xo) (PSide t yo), l4)
          | None =>
              match parse_center l2 with
              | Some l3 => Some (Position PCenter (PSide t yo), l3)
              | None => Some (Position PCenter (PSide t None), l1)
              end
          end
      end
  end.

(** position.rs:333-339 [PositionComponent::is_center] *)
Definition pcomp_is_center (c : pcomp) : bool :=
  match c with PCenter => true | PLength (LpPct q) => Qeq_bool q (1 # 2) | _ => false end.

(** position.rs:362-387 [PositionComponent::to_css] *)
Definition print_pcomp (minify : bool) (a : axis) (c : pcomp) : list vtok :=
  match c with
  | PCenter => if minify then [TkPct (1 # 2)] else [TkIdent "center"]
  | PLength x => print_lp x
  | PSide s o => TkIdent (side_name a s) :: match o with Some x => print_lp x | None => [] end
  end.

(** position.rs:242-261, 263-282: the length of a component measured from the start side *)
Definition start_len (c : pcomp) : option lp :=
  match c with
  | PSide SStart (Some x) => Some (if lp_is_zero x then lp_zero else x)
  | PSide SStart None => Some lp_zero
  | PLength x => Some (if lp_is_zero x then lp_zero else x)
  | PCenter => Some (LpPct (1 # 2))
  | PSide SEnd _ => None
  end.

(** position.rs:239-293: the last arm of [Position::to_css] *)
Definition print_position_rest (minify : bool) (x y : pcomp) : list vtok :=
  match start_len x, start_len y with
  | Some a, Some b => print_lp a ++ print_lp b
  | _, _ => print_pcomp minify AxX x ++ print_pcomp minify AxY y
  end.

(** position.rs:170-296 [Position::to_css], arm by arm *)
Definition print_position (minify : bool) (p : position) : list vtok :=
  let '(Position x y) := p in
  match x, y with
  | PSide SEnd (Some _), PLength y_lp => print_pcomp minify AxX x ++ TkIdent "top" :: print_lp y_lp
  | _, _ =>
  match x with
  | PSide SEnd (Some _) =>
      if pcomp_is_center y then print_pcomp minify AxX x ++ [TkIdent "center"]
      else print_position_rest minify x y
  | _ =>
  match x, y with
  | PLength x_lp, PSide SEnd (Some _) =>
      TkIdent "left" :: print_lp x_lp ++ print_pcomp minify AxY y
  | _, _ =>
      if pcomp_is_center x && pcomp_is_center y then print_pcomp minify AxX x
      else
        match x, pcomp_is_center y with
        | PLength x_lp, true => print_lp x_lp
        | PSide SStart (Some x_lp), true => print_lp x_lp
        | PSide s None, true => print_lp (side_lp s)
        | _, _ =>
            match y with
            | PSide _ None =>
                if pcomp_is_center x then print_pcomp minify AxY y
                else
                  match x, y with
                  | PSide s None, PSide t None => print_lp (side_lp s) ++ print_lp (side_lp t)
                  | _, _ => print_position_rest minify x y
                  end
            | PSide SEnd (Some _) =>
                match x with
                | PCenter => TkIdent "center" :: print_pcomp minify AxY y
                | _ => print_position_rest minify x y
                end
            | _ => print_position_rest minify x y
            end
        end
  end end end.

(** ** Time *)

(** time.rs:29-34 [Time] *)
Inductive time := Seconds (q : Q) | Milliseconds (q : Q).
(** time.rs:59-80 [Time::parse], without calc() *)
Definition parse_time : vparser time := fun l =>
  match l with
  | TkDim q u :: r =>
      if ieq u "s" then Some (Seconds q, r)
      else if ieq u "ms" then Some (Milliseconds q, r) else None
  | _ => None
  end.
Definition Qlt_bool (a b : Q) : bool := negb (Qle_bool b a).
(** time.rs:97-125 [Time::to_css] *)
Definition print_time (t : time) : list vtok :=
  match t with
  | Seconds s =>
      if Qlt_bool 0 s && Qlt_bool s (1 # 10) then [TkDim (s * 1000) "ms"] else [TkDim s "s"]
  | Milliseconds ms =>
      if Qeq_bool ms 0 || Qle_bool 100 ms then [TkDim (ms / 1000) "s"] else [TkDim ms "ms"]
  end.

(** ** Easing functions *)

(** easing.rs:203-212 [StepPosition] *)
Inductive step_position := SpStart | SpEnd | SpNone | SpBoth.
(** easing.rs:22-52 [EasingFunction] *)
Inductive easing :=
| Linear | Ease | EaseIn | EaseOut | EaseInOut
| CubicBezier (x1 y1 x2 y2 : Q)
| Steps (count : Z) (pos : step_position).

(** easing.rs:220-236 [StepPosition::parse] *)
Definition parse_step_position : vparser step_position := fun l =>
  match l with
  | TkIdent s :: r =>
      if ieq s "start" then Some (SpStart, r) else if ieq s "end" then Some (SpEnd, r)
      else if ieq s "jump-start" then Some (SpStart, r) else if ieq s "jump-end" then Some (SpEnd, r)
      else if ieq s "jump-none" then Some (SpNone, r) else if ieq s "jump-both" then Some (SpBoth, r)
      else None
  | _ => None
  end.
Definition step_position_name (p : step_position) : string :=
  match p with SpStart => "start" | SpEnd => "end" | SpNone => "jump-none" | SpBoth => "jump-both" end.

(** easing.rs:68-110 [EasingFunction::parse]; a function must consume its whole block *)
Definition parse_easing : vparser easing := fun l =>
  match l with
  | TkIdent s :: r =>
      if ieq s "linear" then Some (Linear, r) else if ieq s "ease" then Some (Ease, r)
      else if ieq s "ease-in" then Some (EaseIn, r) else if ieq s "ease-out" then Some (EaseOut, r)
      else if ieq s "ease-in-out" then Some (EaseInOut, r)
      else if ieq s "step-start" then Some (Steps 1 SpStart, r)
      else if ieq s "step-end" then Some (Steps 1 SpEnd, r) else None
  | TkFun f args :: r =>
      if ieq f "cubic-bezier" then
        match args with
        | [TkNum a _; TkComma; TkNum b _; TkComma; TkNum c _; TkComma; TkNum d _] =>
            Some (CubicBezier a b c d, r)
        | _ => None
        end
      else if ieq f "steps" then
        match args with
        | TkNum _ (Some n) :: rest =>
            match rest with
            | TkComma :: rest' =>
                match parse_step_position rest' with
                | Some (p, []) => Some (Steps n p, r)
                | _ => None
                end
            | [] => Some (Steps n SpEnd, r)
            | _ => None
            end
        | _ => None
        end
      else None
  | _ => None
  end.

(** [*x == EasingFunction::CubicBezier {..}] *)
Definition is_bezier (e : easing) (a b c d : Q) : bool :=
  match e with
  | CubicBezier x1 y1 x2 y2 => Qeq_bool x1 a && Qeq_bool y1 b && Qeq_bool x2 c && Qeq_bool y2 d
  | _ => false
  end.
Definition vnum (q : Q) : vtok := TkNum q (q_int q).
(** easing.rs:54-66, 112-182 [EasingFunction::to_css] *)
Definition print_easing (e : easing) : list vtok :=
  match e with
  | Linear => [TkIdent "linear"]
  | Ease => [TkIdent "ease"]
  | EaseIn => [TkIdent "ease-in"]
  | EaseOut => [TkIdent "ease-out"]
  | EaseInOut => [TkIdent "ease-in-out"]
  | CubicBezier x1 y1 x2 y2 =>
      if is_bezier e (1 # 4) (1 # 10) (1 # 4) 1 then [TkIdent "ease"]
      else if is_bezier e (42 # 100) 0 1 1 then [TkIdent "ease-in"]
      else if is_bezier e 0 0 (58 # 100) 1 then [TkIdent "ease-out"]
      else if is_bezier e (42 # 100) 0 (58 # 100) 1 then [TkIdent "ease-in-out"]
      else [TkFun "cubic-bezier" [vnum x1; TkComma; vnum y1; TkComma; vnum x2; TkComma; vnum y2]]
  | Steps n p =>
      match n, p with
      | 1%Z, SpStart => [TkIdent "step-start"]
      | 1%Z, SpEnd => [TkIdent "step-end"]
      | _, _ => [TkFun "steps" [TkNum (inject_Z n) (Some n); TkComma; TkIdent (step_position_name p)]]
      end
  end.
