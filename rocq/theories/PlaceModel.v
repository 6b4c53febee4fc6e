(** * Position values, as in [background-position] and gradients (src/values/position.rs) *)
From Coq Require Import List Bool QArith.
Import ListNotations.

Section Place.
(** Lengths and [calc()] values *)
Variable L : Type.
Variable zero_length : L.
(** [Zero::is_zero] (length.rs:287-294, 693-698); false for [calc()] *)
Variable is_zero_length : L -> bool.

(** length.rs, percentage.rs:215-225.  Simplification: percentages are rational numbers. *)
Inductive lp := Pct (p : Q) | Dim (l : L).
Definition zero : lp := Dim zero_length.
(** percentage.rs:456-462 *)
Definition lp_zero (v : lp) : bool := match v with Pct p => Qeq_bool p 0 | Dim l => is_zero_length l end.

(** Simplification: keywords are tokens of their own, in any letter case, and a length, percentage or
    math function is one token.  [Other] is any other token, with a number to tell them apart. *)
Inductive token := TLeft | TRight | TTop | TBottom | TCenter | TLp (v : lp) | TOther (n : nat).

(** position.rs:327-342.  The side is [false] for left and top, and [true] for right and bottom
    (position.rs:392-427). *)
Inductive component := Center | Length (v : lp) | Side (far : bool) (offset : option lp).
Record position := Position { px : component; py : component }.

(** position.rs:344-352 *)
Definition is_center (c : component) : bool :=
  match c with Center => true | Length (Pct p) => Qeq_bool p (1 # 2) | _ => false end.

Definition parser A := list token -> option (A * list token).
(** [LengthPercentage::parse] *)
Definition parse_lp : parser lp := fun t => match t with TLp v :: r => Some (v, r) | _ => None end.
(** [expect_ident_matching("center")] *)
Definition parse_center : parser unit := fun t => match t with TCenter :: r => Some (tt, r) | _ => None end.
(** The keywords of position.rs:392-427; [horizontal] tells which ones *)
Definition parse_side (horizontal : bool) : parser bool := fun t =>
  match horizontal, t with
  | true, TLeft :: r | false, TTop :: r => Some (false, r)
  | true, TRight :: r | false, TBottom :: r => Some (true, r)
  | _, _ => None
  end.
(** [try_parse(...).ok()] *)
Definition optional {A} (p : parser A) : list token -> option A * list token := fun t =>
  match p t with Some (a, r) => (Some a, r) | None => (None, t) end.
(** position.rs:359-373 *)
Definition parse_component (horizontal : bool) : parser component := fun t =>
  match parse_center t with
  | Some (_, r) => Some (Center, r)
  | None =>
      match parse_lp t with
      | Some (v, r) => Some (Length v, r)
      | None =>
          match parse_side horizontal t with
          | Some (s, r) => let (o, r) := optional parse_lp r in Some (Side s o, r)
          | None => None
          end
      end
  end.

(** position.rs:133-148 *)
Definition parse_offset_and_x : parser (option lp * component) := fun t =>
  let (o, r) := optional parse_lp t in
  match parse_side true r with
  | Some (s, r) => let (xo, r) := optional parse_lp r in Some ((o, Side s xo), r)
  | None => match parse_center r with Some (_, r) => Some ((o, Center), r) | None => None end
  end.
(** position.rs:130-166: no horizontal position comes first *)
Definition parse_reversed : parser position := fun t =>
  match parse_side false t with
  | Some (y, r) =>
      match parse_offset_and_x r with
      | Some ((o, x), r') => Some (Position x (Side y o), r')
      | None => Some (Position Center (Side y None), r)
      end
  | None => None
  end.
(** position.rs:61-167 *)
Definition parse : parser position := fun t =>
  match parse_component true t with
  | Some (Center, r) =>
      match parse_component false r with
      | Some (y, r') => Some (Position Center y, r')
      | None =>
          match parse_component true r with
          | Some (x, r') => Some (Position x Center, r')
          | None => Some (Position Center Center, r)
          end
      end
  | Some (Length v, r) =>
      match parse_side false r with
      | Some (s, r') => Some (Position (Length v) (Side s None), r')
      | None =>
          match parse_lp r with
          | Some (w, r') => Some (Position (Length v) (Length w), r')
          | None => let (_, r') := optional parse_center r in Some (Position (Length v) Center, r')
          end
      end
  | Some (Side s o, r) =>
      match parse_center r with
      | Some (_, r') => Some (Position (Side s o) Center, r')
      | None =>
          match parse_side false r with
          | Some (s', r') => let (o', r'') := optional parse_lp r' in Some (Position (Side s o) (Side s' o'), r'')
          | None => Some (Position (Side s None) (match o with Some v => Length v | None => Center end), r)
          end
      end
  | None => parse_reversed t
  end.

(** position.rs:375-389, and the keywords *)
Definition side_token (horizontal far : bool) : token :=
  match horizontal, far with true, false => TLeft | true, true => TRight | false, false => TTop | false, true => TBottom end.
Variable minify : bool.
Definition print_component (horizontal : bool) (c : component) : list token :=
  match c with
  | Center => if minify then [TLp (Pct (1 # 2))] else [TCenter]
  | Length v => [TLp v]
  | Side s o => side_token horizontal s :: match o with Some v => [TLp v] | None => [] end
  end.
(** position.rs:400-407, 420-427 *)
Definition side_lp (far : bool) : lp := if far then Pct 1 else zero.
(** position.rs:246-268, 270-292 *)
Definition as_length (c : component) : option lp :=
  match c with
  | Side false (Some v) => Some (if lp_zero v then zero else v)
  | Side false None => Some zero
  | Length v => Some (if lp_zero v then zero else v)
  | Center => Some (Pct (1 # 2))
  | Side true _ => None
  end.
(** position.rs:169-304: the first arm that applies *)
Fixpoint first_arm (arms : list (option (list token))) (default : list token) : list token :=
  match arms with [] => default | Some t :: _ => t | None :: r => first_arm r default end.
Definition print (p : position) : list token :=
  let x := px p in let y := py p in
  let print_x := print_component true x in
  let print_y := print_component false y in
  first_arm
    [ match x, y with Side true (Some _), Length v => Some (print_x ++ [TTop; TLp v]) | _, _ => None end;
      match x with Side true (Some _) => if is_center y then Some (print_x ++ [TCenter]) else None | _ => None end;
      match x, y with Length v, Side true (Some _) => Some (TLeft :: TLp v :: print_y) | _, _ => None end;
      if is_center x && is_center y then Some print_x else None;
      match x with Length v => if is_center y then Some [TLp v] else None | _ => None end;
      match x with Side false (Some v) => if is_center y then Some [TLp v] else None | _ => None end;
      match x with Side s None => if is_center y then Some [TLp (side_lp s)] else None | _ => None end;
      match y with Side s None => if is_center x then Some print_y else None | _ => None end;
      match x, y with Center, Side true (Some _) => Some (TCenter :: print_y) | _, _ => None end;
      match x, y with Side s None, Side s' None => Some [TLp (side_lp s); TLp (side_lp s')] | _, _ => None end ]
    match as_length x, as_length y with
    | Some a, Some b => [TLp a; TLp b]
    | _, _ => print_x ++ print_y
    end.
End Place.
Arguments Pct {L}. Arguments Dim {L}. Arguments zero {L}. Arguments lp_zero {L}.
Arguments TLeft {L}. Arguments TRight {L}. Arguments TTop {L}. Arguments TBottom {L}. Arguments TCenter {L}. Arguments TLp {L}. Arguments TOther {L}.
Arguments Center {L}. Arguments Length {L}. Arguments Side {L}. Arguments Position {L}. Arguments px {L}. Arguments py {L}.
Arguments is_center {L}. Arguments parse {L}. Arguments print {L}.
