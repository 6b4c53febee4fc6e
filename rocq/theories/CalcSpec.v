(** * What math functions mean

    After CSS Values and Units 4, sections 10 and 11, with exact rational numbers.  [lval] gives each plain value its
    canonical number (for instance its length in pixels), and [root] the square root. *)
From Coq Require Import List Bool ZArith QArith Qround Qabs Qminmax String.
From Verif Require Import CalcModel.
Import ListNotations.
Local Open Scope Q_scope.

(** An expression is a number or a value of the type at hand. *)
Inductive kind := KNum | KVal.
Definition kind_eqb (a b : kind) : bool := match a, b with KNum, KNum | KVal, KVal => true | _, _ => false end.
Definition value : Type := (kind * Q)%type.

(** ** Arithmetic functions *)
(** The multiples of [b] next to [a] on either side *)
Definition lower (a b : Q) : Q := inject_Z (Qfloor (a / Qabs b)) * Qabs b.
Definition upper (a b : Q) : Q := inject_Z (Qceiling (a / Qabs b)) * Qabs b.
Definition css_round (s : strategy) (a b : Q) : Q :=
  match s with
  | SUp => upper a b
  | SDown => lower a b
  | SToZero => if Qlt_le_dec a 0 then upper a b else lower a b
  | SNearest => if Qlt_le_dec (a - lower a b) (upper a b - a) then lower a b else upper a b
  end.
(** [a] stands half way between two multiples of [b] *)
Definition tie (a b : Q) : Prop := a - lower a b == upper a b - a /\ ~ lower a b == a.
Definition css_rem (a b : Q) : Q :=
  let r := Qabs a - Qabs b * inject_Z (Qfloor (Qabs a / Qabs b)) in if Qlt_le_dec a 0 then - r else r.
Definition css_mod (a b : Q) : Q := a - b * inject_Z (Qfloor (a / b)).
Definition css_sign (a : Q) : Q := if Qlt_le_dec a 0 then -1 else if Qeq_bool a 0 then 0 else 1.
Definition css_abs (a : Q) : Q := if Qlt_le_dec a 0 then - a else a.
Definition least (q : Q) (qs : list Q) : Q := fold_left Qmin qs q.
Definition greatest (q : Q) (qs : list Q) : Q := fold_left Qmax qs q.
Definition squares (qs : list Q) : Q := fold_left (fun s q => s + q * q) qs 0.

(** The arguments of a function have one kind. *)
Fixpoint agree (vs : list (option value)) : option (kind * list Q) :=
  match vs with
  | [] => None
  | [Some (k, q)] => Some (k, [q])
  | Some (k, q) :: vs =>
      match agree vs with Some (k', qs) => if kind_eqb k k' then Some (k, q :: qs) else None | None => None end
  | None :: _ => None
  end.
Definition on_list (f : Q -> list Q -> Q) (vs : list (option value)) : option value :=
  match agree vs with Some (k, q :: qs) => Some (k, f q qs) | _ => None end.
Definition on_two (f : Q -> Q -> Q) (a b : option value) : option value :=
  match a, b with
  | Some (k, x), Some (k', y) => if kind_eqb k k' then Some (k, f x y) else None
  | _, _ => None
  end.
Definition nonzero (v : option value) : option value :=
  match v with Some (k, x) => if Qeq_bool x 0 then None else Some (k, x) | None => None end.
Definition on_three (f : Q -> Q -> Q -> Q) (a b c : option value) : option value :=
  match agree [a; b; c] with Some (k, [x; y; z]) => Some (k, f x y z) | _ => None end.
Definition times (a b : option value) : option value :=
  match a, b with
  | Some (KNum, x), Some (k, y) => Some (k, x * y)
  | Some (k, x), Some (KNum, y) => Some (k, x * y)
  | _, _ => None
  end.
Definition over (a b : option value) : option value :=
  match a, b with
  | Some (k, x), Some (KNum, y) => if Qeq_bool y 0 then None else Some (k, x / y)
  | _, _ => None
  end.
Definition on_one (f : Q -> Q) (a : option value) : option value :=
  match a with Some (k, x) => Some (k, f x) | None => None end.
Definition css_clamp (a b c : Q) : Q := Qmax a (Qmin b c).

(** ** The value of an expression as written; nothing if its kinds do not fit or it divides by zero *)
Section Meaning.
Context {L : Type} (lval : L -> Q) (root : Q -> Q).

Fixpoint eval (e : expr L) : option value :=
  match e with
  | EVal l => Some (KVal, lval l)
  | ENum q => Some (KNum, q)
  | EAdd a b => on_two Qplus (eval a) (eval b)
  | ESub a b => on_two Qminus (eval a) (eval b)
  | EMul a b => times (eval a) (eval b)
  | EDiv a b => over (eval a) (eval b)
  | ECalc e => eval e
  | EMin es => on_list least (map eval es)
  | EMax es => on_list greatest (map eval es)
  | EClamp a b c => on_three css_clamp (eval a) (eval b) (eval c)
  | ERound s a b => on_two (css_round s) (eval a) (nonzero (eval b))
  | ERem a b => on_two css_rem (eval a) (nonzero (eval b))
  | EMod a b => on_two css_mod (eval a) (nonzero (eval b))
  | EAbs e => on_one css_abs (eval e)
  | ESign e => match eval e with Some (_, x) => Some (KNum, css_sign x) | None => None end
  | EHypot es => on_list (fun q qs => root (squares (q :: qs))) (map eval es)
  end.

(** ** The value of a tree *)
Fixpoint ceval (c : calc L) : option value :=
  match c with
  | CVal l => Some (KVal, lval l)
  | CNum q => Some (KNum, q)
  | CSum a b => on_two Qplus (ceval a) (ceval b)
  | CProd n c => on_one (Qmult n) (ceval c)
  | FCalc c => ceval c
  | FMin cs => on_list least (map ceval cs)
  | FMax cs => on_list greatest (map ceval cs)
  | FClamp a b c => on_three css_clamp (ceval a) (ceval b) (ceval c)
  | FRound s a b => on_two (css_round s) (ceval a) (nonzero (ceval b))
  | FRem a b => on_two css_rem (ceval a) (nonzero (ceval b))
  | FMod a b => on_two css_mod (ceval a) (nonzero (ceval b))
  | FAbs c => on_one css_abs (ceval c)
  | FSign c => match ceval c with Some (_, x) => Some (KNum, css_sign x) | None => None end
  | FHypot cs => on_list (fun q qs => root (squares (q :: qs))) (map ceval cs)
  end.
Definition dp_eval (d : dp L) : option value :=
  match d with DLeaf l => Some (KVal, lval l) | DCalc c => ceval c end.

(** ** Expressions that stay clear of the known faults *)
(** Steps of [round] are positive, and nothing below zero is rounded to the nearest of two equally near multiples;
    [sign] is not asked of a value that vanishes; [hypot] has two arguments, or one that is not negative, or numbers. *)
Fixpoint plain (e : expr L) : Prop :=
  match e with
  | EVal _ | ENum _ => True
  | EAdd a b | ESub a b | EMul a b | EDiv a b | ERem a b | EMod a b => plain a /\ plain b
  | ECalc e | EAbs e => plain e
  | EMin es | EMax es => fold_right and True (map plain es)
  | EClamp a b c => plain a /\ plain b /\ plain c
  | ERound s a b =>
      plain a /\ plain b /\
      forall k x k' y, eval a = Some (k, x) -> eval b = Some (k', y) -> 0 < y /\ (s = SNearest -> x < 0 -> ~ tie x y)
  | ESign e => plain e /\ forall x, eval e = Some (KVal, x) -> ~ x == 0
  | EHypot es =>
      fold_right and True (map plain es) /\
      match es with
      | [e] => forall k x, eval e = Some (k, x) -> 0 <= x
      | [_; _] => True
      | _ => forall e x, List.In e es -> eval e <> Some (KVal, x)
      end
  end.

(** Sums, products and quotients of plain values and numbers *)
Fixpoint arithmetic (e : expr L) : bool :=
  match e with
  | EVal _ | ENum _ => true
  | EAdd a b | ESub a b | EMul a b | EDiv a b => arithmetic a && arithmetic b
  | ECalc e => arithmetic e
  | _ => false
  end.
(** No function is multiplied by zero. *)
Fixpoint no_zero_factor (e : expr L) : Prop :=
  match e with
  | EVal _ | ENum _ => True
  | EMul a b =>
      no_zero_factor a /\ no_zero_factor b /\
      (forall x, eval a = Some (KNum, x) -> x == 0 -> arithmetic b = true) /\
      (forall x, eval b = Some (KNum, x) -> x == 0 -> arithmetic a = true)
  | EAdd a b | ESub a b | EDiv a b | ERem a b | EMod a b | ERound _ a b => no_zero_factor a /\ no_zero_factor b
  | ECalc e | EAbs e | ESign e => no_zero_factor e
  | EMin es | EMax es | EHypot es => fold_right and True (map no_zero_factor es)
  | EClamp a b c => no_zero_factor a /\ no_zero_factor b /\ no_zero_factor c
  end.

(** The outermost function is not [min], [max] or [hypot] with a single argument. *)
Definition proper_root (e : expr L) : Prop :=
  match e with EMin [_] | EMax [_] | EHypot [_] => False | _ => True end.

(** ** Expressions whose sums are written as a flat chain: no right operand of [+] or [-] is a sum *)
Fixpoint is_sum (e : expr L) : bool :=
  match e with
  | EAdd _ _ | ESub _ _ => true
  | EMul a b => is_sum a || is_sum b
  | EDiv a _ => is_sum a
  | ECalc e => is_sum e
  | EMin es | EMax es | EHypot es => existsb is_sum es
  | _ => false
  end.
Fixpoint flat (e : expr L) : Prop :=
  match e with
  | EVal _ | ENum _ => True
  | EAdd a b | ESub a b => flat a /\ flat b /\ is_sum b = false
  | EMul a b | EDiv a b | ERem a b | EMod a b | ERound _ a b => flat a /\ flat b
  | ECalc e | EAbs e | ESign e => flat e
  | EMin es | EMax es | EHypot es => fold_right and True (map flat es)
  | EClamp a b c => flat a /\ flat b /\ flat c
  end.

(** Expressions without [sign] *)
Fixpoint no_sign (e : expr L) : Prop :=
  match e with
  | EVal _ | ENum _ => True
  | EAdd a b | ESub a b | EMul a b | EDiv a b | ERem a b | EMod a b | ERound _ a b => no_sign a /\ no_sign b
  | ECalc e | EAbs e => no_sign e
  | ESign _ => False
  | EMin es | EMax es | EHypot es => fold_right and True (map no_sign es)
  | EClamp a b c => no_sign a /\ no_sign b /\ no_sign c
  end.
(** Expressions without [abs], [sign] and [hypot] of three or more *)
Fixpoint no_map (e : expr L) : Prop :=
  match e with
  | EVal _ | ENum _ => True
  | EAdd a b | ESub a b | EMul a b | EDiv a b | ERem a b | EMod a b | ERound _ a b => no_map a /\ no_map b
  | ECalc e => no_map e
  | EAbs _ | ESign _ => False
  | EMin es | EMax es => fold_right and True (map no_map es)
  | EHypot es => fold_right and True (map no_map es) /\ match es with _ :: _ :: _ :: _ => False | _ => True end
  | EClamp a b c => no_map a /\ no_map b /\ no_map c
  end.
(** The text is a plain value or starts with the name of a function. *)
Definition closed (e : expr L) : bool :=
  match e with ENum _ | EAdd _ _ | ESub _ _ | EMul _ _ | EDiv _ _ => false | _ => true end.
End Meaning.

(** Two values are the same. *)
Definition same_value (v w : option value) : Prop :=
  match v, w with
  | Some (k, x), Some (k', y) => k = k' /\ x == y
  | None, None => True
  | _, _ => False
  end.

(** Reading [e] gives something with another value. *)
Definition misread (T : vtype) (lval : leaf T -> Q) (root : Q -> Q) (e : expr (leaf T)) : Prop :=
  exists n d, parse_dp T root n e = Ok d /\ eval lval root e <> None /\
    ~ same_value (eval lval root e) (dp_eval lval root d).

(** What is asked of the square root: it does not look at how a fraction is written, and lengths may be measured in any
    unit. *)
Definition good_root (root : Q -> Q) : Prop :=
  (forall x y, x == y -> root x == root y) /\
  (forall x, 0 <= x -> root (x * x) == x) /\
  (forall k x, 0 <= k -> 0 <= x -> root (k * k * x) == k * root x).

(** ** Reading tokens with the precedence of CSS *)
(** sum = product (('+' | '-') product)*, product = value (('*' | '/') value)* *)
Section Reading.
Context {L : Type}.

Definition build (f : fname) (s : strategy) (args : list (expr L)) : option (expr L) :=
  match f, args with
  | NCalc, [e] => Some (ECalc e)
  | NMin, _ :: _ => Some (EMin args)
  | NMax, _ :: _ => Some (EMax args)
  | NClamp, [a; b; c] => Some (EClamp a b c)
  | NRound, [a; b] => Some (ERound s a b)
  | NRem, [a; b] => Some (ERem a b)
  | NMod, [a; b] => Some (EMod a b)
  | NAbs, [e] => Some (EAbs e)
  | NSign, [e] => Some (ESign e)
  | NHypot, _ :: _ => Some (EHypot args)
  | _, _ => None
  end.
Fixpoint rd_sum (n : nat) (ts : list (token L)) : option (expr L * list (token L)) :=
  match n with
  | O => None
  | S n => match rd_product n ts with Some (e, ts) => rd_sum_tail n e ts | None => None end
  end
with rd_sum_tail (n : nat) (acc : expr L) (ts : list (token L)) : option (expr L * list (token L)) :=
  match n with
  | O => None
  | S n =>
      match ts with
      | TPlus :: ts => match rd_product n ts with Some (e, ts) => rd_sum_tail n (EAdd acc e) ts | None => None end
      | TMinus :: ts => match rd_product n ts with Some (e, ts) => rd_sum_tail n (ESub acc e) ts | None => None end
      | _ => Some (acc, ts)
      end
  end
with rd_product (n : nat) (ts : list (token L)) : option (expr L * list (token L)) :=
  match n with
  | O => None
  | S n => match rd_value n ts with Some (e, ts) => rd_product_tail n e ts | None => None end
  end
with rd_product_tail (n : nat) (acc : expr L) (ts : list (token L)) : option (expr L * list (token L)) :=
  match n with
  | O => None
  | S n =>
      match ts with
      | TTimes :: ts => match rd_value n ts with Some (e, ts) => rd_product_tail n (EMul acc e) ts | None => None end
      | TDivide :: ts => match rd_value n ts with Some (e, ts) => rd_product_tail n (EDiv acc e) ts | None => None end
      | _ => Some (acc, ts)
      end
  end
with rd_value (n : nat) (ts : list (token L)) : option (expr L * list (token L)) :=
  match n with
  | O => None
  | S n =>
      match ts with
      | TVal l :: ts => Some (EVal l, ts)
      | TNum q :: ts => Some (ENum q, ts)
      | TParen :: ts => match rd_sum n ts with Some (e, TClose :: ts) => Some (e, ts) | _ => None end
      | TOpen f :: ts =>
          let '(s, ts) := match f, ts with NRound, TStrategy s :: TComma :: ts => (s, ts) | _, _ => (SNearest, ts) end in
          match rd_args n ts with
          | Some (args, ts) => match build f s args with Some e => Some (e, ts) | None => None end
          | None => None
          end
      | _ => None
      end
  end
with rd_args (n : nat) (ts : list (token L)) : option (list (expr L) * list (token L)) :=
  match n with
  | O => None
  | S n =>
      match rd_sum n ts with
      | Some (e, TComma :: ts) => match rd_args n ts with Some (es, ts) => Some (e :: es, ts) | None => None end
      | Some (e, TClose :: ts) => Some ([e], ts)
      | _ => None
      end
  end.
(** The value of a property is one value or one function. *)
Definition reads (ts : list (token L)) (e : expr L) : Prop := exists n, rd_value n ts = Some (e, []).
End Reading.

(** ** The sizes of units *)
(** A pixel is one; the sizes of the relative units, and the length that percentages are of *)
Record sizes := Sizes { relative : string -> Q; percent_base : Q }.
Definition unit_size (s : sizes) (u : unit_name) : Q :=
  match u with
  | Px => 1
  | In => 96
  | Cm => 9600 / 254
  | Mm => 960 / 254
  | QMm => 240 / 254
  | Pt => 4 / 3
  | Pc => 16
  | Rel name => relative s name
  end.
Definition length_px (s : sizes) (l : length_value) : Q := match l with LV u q => q * unit_size s u end.
Definition lp_px (s : sizes) (l : length_percentage) : Q :=
  match l with LPLength l => length_px s l | LPPercent p => p * percent_base s end.
Definition no_negative_size (s : sizes) : Prop := (forall u, 0 <= relative s u) /\ 0 <= percent_base s.
Definition time_seconds (t : time) : Q := match t with Seconds q => q | Milliseconds q => q / 1000 end.
Definition angle_degrees (rad : Q) (a : angle) : Q :=
  match a with Deg q => q | Rad q => q * rad | Grad q => q * (9 / 10) | Turn q => q * 360 end.
Definition percentage_size (base : Q) (p : Q) : Q := p * base.
