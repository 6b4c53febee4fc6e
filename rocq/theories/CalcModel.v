(** * Math functions: src/values/calc.rs, length.rs, percentage.rs, time.rs and angle.rs

    Numbers are exact rationals where the code has 32-bit floats: rounding, infinities, NaN and negative zero are left
    out.  The trigonometric functions, [pow], [log], [sqrt], [exp], [atan2] and identifiers of relative colours are not
    modelled. *)
From Coq Require Import List Bool ZArith QArith Qround Qabs String.
Import ListNotations.
Local Open Scope Q_scope.

(** What a call does: it returns a value, it returns an error, or it calls itself without end (out of fuel). *)
Inductive out (A : Type) : Type := Ok (a : A) | Err | Loop.
Arguments Ok {A} a.
Arguments Err {A}.
Arguments Loop {A}.
Definition bind {A B : Type} (o : out A) (f : A -> out B) : out B :=
  match o with Ok a => f a | Err => Err | Loop => Loop end.

(** ** Arithmetic on floats *)
(** [f32::signum] with zero kept: values/number.rs:89-96 *)
Definition qsign (q : Q) : Q := match q ?= 0 with Lt => -1 | Eq => 0 | Gt => 1 end.
Definition is_neg (q : Q) : bool := match q ?= 0 with Lt => true | _ => false end.
(** [f32::trunc] *)
Definition qtrunc (q : Q) : Z := if is_neg q then Qceiling q else Qfloor q.
(** [f32::round]: halves go away from zero *)
Definition qround (q : Q) : Z := if is_neg q then Qceiling (q - (1#2)) else Qfloor (q + (1#2)).
(** [%] on floats *)
Definition qrem (a b : Q) : Q := a - b * inject_Z (qtrunc (a / b)).

(** calc.rs:90-103 *)
Inductive strategy := SNearest | SUp | SDown | SToZero.
(** calc.rs:111-119 *)
Definition round (s : strategy) (value to : Q) : Q :=
  let v := value / to in
  match s with
  | SDown => inject_Z (Qfloor v) * to
  | SUp => inject_Z (Qceiling v) * to
  | SNearest => inject_Z (qround v) * to
  | SToZero => inject_Z (qtrunc v) * to
  end.
(** calc.rs:121-123 *)
Definition modulo (a b : Q) : Q := qrem (qrem a b + b) b.

(** ** Expression trees *)
(** calc.rs:33-54, 249-263.  [Calc::Function] and the kind of function are one constructor.  [Calc::Value] holds a plain
    value only: the parser looks for a math function before it reads a value (calc.rs:621-631), and turning a value into
    a tree takes the tree out of it (percentage.rs:376-383, length.rs:745-752). *)
Inductive calc (L : Type) : Type :=
| CVal (l : L)
| CNum (n : Q)
| CSum (a b : calc L)
| CProd (n : Q) (c : calc L)
| FCalc (c : calc L)
| FMin (cs : list (calc L))
| FMax (cs : list (calc L))
| FClamp (a b c : calc L)
| FRound (s : strategy) (a b : calc L)
| FRem (a b : calc L)
| FMod (a b : calc L)
| FAbs (c : calc L)
| FSign (c : calc L)
| FHypot (cs : list (calc L)).
Arguments CVal {L} l.
Arguments CNum {L} n.
Arguments CSum {L} a b.
Arguments CProd {L} n c.
Arguments FCalc {L} c.
Arguments FMin {L} cs.
Arguments FMax {L} cs.
Arguments FClamp {L} a b c.
Arguments FRound {L} s a b.
Arguments FRem {L} a b.
Arguments FMod {L} a b.
Arguments FAbs {L} c.
Arguments FSign {L} c.
Arguments FHypot {L} cs.

(** What calc.rs asks of the type of values: the traits [Mul<f32>], [AddInternal] (with [TryAdd]), [PartialOrd], [TryOp],
    [TryMap], [TrySign] and [Zero] on plain values, and whether the type has a [Calc] variant of its own. *)
Record vtype := VType {
  leaf : Type;
  lmul : leaf -> Q -> leaf;
  ladd : leaf -> leaf -> option leaf;
  lcmp : leaf -> leaf -> option comparison;
  lop : leaf -> leaf -> (Q -> Q -> Q) -> option leaf;
  lmap : leaf -> (Q -> Q) -> option leaf;
  lnum : leaf -> Q;
  flexible : bool }.

(** ** [Mul]: calc.rs:902-927 *)
Fixpoint cmul (T : vtype) (k : Q) (c : calc (leaf T)) : calc (leaf T) :=
  if Qeq_bool k 1 then c else
  match c with
  | CVal l => CVal (lmul T l k)
  | CNum n => CNum (n * k)
  | CSum a b => CSum (cmul T k a) (cmul T k b)
  | CProd n c => if Qeq_bool (n * k) 1 then c else CProd (n * k) c
  | FCalc c => FCalc (cmul T k c)
  | f => CProd k f
  end.

(** ** [TrySign]: calc.rs:1009-1070 *)
Definition same_signs (ss : list (option Q)) : option Q :=
  match ss with
  | Some s :: rest =>
      if forallb (fun t => match t with Some t => Qeq_bool t s | None => false end) rest then Some s else None
  | _ => None
  end.
Fixpoint csign (T : vtype) (c : calc (leaf T)) : option Q :=
  match c with
  | CNum n => Some (qsign n)
  | CVal l => Some (qsign (lnum T l))
  | CProd n c => option_map (fun s => s * qsign n) (csign T c)
  | CSum _ _ => None
  | FAbs _ => Some 1
  | FMax cs | FMin cs => same_signs (map (csign T) cs)
  | FClamp a b c => same_signs [csign T a; csign T b; csign T c]
  | FRound _ a b => same_signs [csign T a; csign T b]
  | FSign c => csign T c
  | FCalc c => csign T c
  | FRem _ _ | FMod _ _ | FHypot _ => None
  end.
(** traits.rs:252-261; zero counts as positive *)
Definition sign_negative (s : option Q) : bool := match s with Some s => is_neg s | None => false end.
Definition sign_positive (s : option Q) : bool := match s with Some s => negb (is_neg s) | None => false end.

(** ** Addition *)
(** [Length] (length.rs:541-547) and [DimensionPercentage] (percentage.rs:187-195) *)
Inductive dp (L : Type) : Type := DLeaf (l : L) | DCalc (c : calc L).
Arguments DLeaf {L} l.
Arguments DCalc {L} c.
(** [Into<Calc<_>>]: percentage.rs:376-383, length.rs:745-752 *)
Definition into {L : Type} (d : dp L) : calc L := match d with DLeaf l => CVal l | DCalc c => c end.
Definition dp_zero (T : vtype) (d : dp (leaf T)) : bool := match d with DLeaf l => Qeq_bool (lnum T l) 0 | DCalc _ => false end.
Definition dp_sign (T : vtype) (d : dp (leaf T)) : option Q :=
  match d with DLeaf l => Some (qsign (lnum T l)) | DCalc c => csign T c end.
Definition is_function {L : Type} (c : calc L) : bool :=
  match c with CVal _ | CNum _ | CSum _ _ | CProd _ _ => false | _ => true end.

(** The four functions call each other; the fuel counts nested calls.
    - [cadd]: [Calc::add], calc.rs:929-963.  [V::try_from] fails on a sum for the types without a [Calc] variant.
    - [dadd]: [AddInternal::add], percentage.rs:281-288, length.rs:618-625, and [+] for the other types.
    - [merge]: [add_recursive], percentage.rs:291-335, and [Length::try_add], length.rs:701-743.
    - [plus]: the inherent [add], percentage.rs:337-374, length.rs:642-677. *)
Fixpoint cadd (T : vtype) (n : nat) (a b : calc (leaf T)) {struct n} : out (calc (leaf T)) :=
  match n with
  | O => Loop
  | S n =>
      let values x y := bind (dadd T n x y) (fun d => Ok (into d)) in
      match a, b with
      | CVal a, CVal b => values (DLeaf a) (DLeaf b)
      | CNum a, CNum b => Ok (CNum (a + b))
      | CSum x y, CNum c =>
          match x, y with
          | CNum p, _ => Ok (CSum (CNum (p + c)) y)
          | _, CNum q => Ok (CSum x (CNum (q + c)))
          | _, _ => Ok (CSum (CSum x y) (CNum c))
          end
      | CNum a, CSum x y =>
          match x, y with
          | CNum p, _ => Ok (CSum (CNum (a + p)) y)
          | _, CNum q => Ok (CSum (CNum (a + q)) x)
          | _, _ => Ok (CSum (CNum a) (CSum x y))
          end
      | CNum _, _ | _, CNum _ | CProd _ _, _ | _, CProd _ _ => Ok (CSum a b)
      | CVal l, CSum _ _ => if flexible T then values (DLeaf l) (DCalc b) else Err
      | CSum _ _, CVal l => if flexible T then values (DCalc a) (DLeaf l) else Err
      | CSum _ _, CSum _ _ => if flexible T then values (DCalc a) (DCalc b) else Err
      | _, _ => Ok (CSum a b)
      end
  end
with dadd (T : vtype) (n : nat) (x y : dp (leaf T)) {struct n} : out (dp (leaf T)) :=
  match n with
  | O => Loop
  | S n =>
      bind (merge T n x y) (fun r => match r with Some r => Ok r | None => plus T n x y end)
  end
with merge (T : vtype) (n : nat) (x y : dp (leaf T)) {struct n} : out (option (dp (leaf T))) :=
  match n with
  | O => Loop
  | S n =>
      match x with
      | DLeaf a =>
          match y with
          | DLeaf b => Ok (option_map DLeaf (ladd T a b))
          | DCalc (CVal v) => merge T n x (DLeaf v)
          | DCalc (CSum c d) =>
              bind (merge T n x (DCalc c)) (fun r =>
                match r with
                | Some r => bind (plus T n r (DCalc d)) (fun s => Ok (Some s))
                | None =>
                    bind (merge T n x (DCalc d)) (fun r =>
                      match r with
                      | Some r => bind (plus T n (DCalc c) r) (fun s => Ok (Some s))
                      | None => Ok None
                      end)
                end)
          | DCalc _ => Ok None
          end
      | DCalc (CVal v) => merge T n (DLeaf v) y
      | DCalc (CSum c d) =>
          bind (merge T n (DCalc c) y) (fun r =>
            match r with
            | Some r => bind (plus T n r (DCalc d)) (fun s => Ok (Some s))
            | None =>
                bind (merge T n (DCalc d) y) (fun r =>
                  match r with
                  | Some r => bind (plus T n (DCalc c) r) (fun s => Ok (Some s))
                  | None => Ok None
                  end)
            end)
      | DCalc _ => Ok None
      end
  end
with plus (T : vtype) (n : nat) (x y : dp (leaf T)) {struct n} : out (dp (leaf T)) :=
  match n with
  | O => Loop
  | S n =>
      if dp_zero T x then Ok y else
      if dp_zero T y then Ok x else
      let '(x, y) :=
        if sign_negative (dp_sign T x) && sign_positive (dp_sign T y) then (y, x) else (x, y) in
      match x, y with
      | DCalc a, DCalc b => bind (cadd T n a b) (fun c => Ok (DCalc c))
      | DCalc (CVal a), DLeaf b => plus T n (DLeaf a) y
      | DCalc c, DLeaf b => Ok (DCalc (CSum c (CVal b)))
      | DLeaf a, DCalc (CVal b) => plus T n x (DLeaf b)
      | DLeaf a, DCalc c => Ok (DCalc (CSum (CVal a) c))
      | DLeaf a, DLeaf b => Ok (DCalc (CSum (CVal a) (CVal b)))
      end
  end.

(** ** Math functions *)
(** calc.rs:658-711: [better] is the ordering that lets a new argument take the place of an old one *)
Definition compare_args (T : vtype) (a b : calc (leaf T)) : option comparison :=
  match a, b with
  | CVal a, CVal b => lcmp T a b
  | CNum a, CNum b => Some (a ?= b)
  | _, _ => None
  end.
Definition same_comparison (a b : comparison) : bool :=
  match a, b with Lt, Lt | Eq, Eq | Gt, Gt => true | _, _ => false end.
Fixpoint put_arg (T : vtype) (better : comparison) (arg : calc (leaf T)) (reduced : list (calc (leaf T))) : list (calc (leaf T)) :=
  match reduced with
  | [] => [arg]
  | b :: rest =>
      match compare_args T arg b with
      | Some o => if same_comparison o better then arg :: rest else b :: rest
      | None => b :: put_arg T better arg rest
      end
  end.
Definition reduce_args (T : vtype) (better : comparison) (args : list (calc (leaf T))) : list (calc (leaf T)) :=
  fold_left (fun reduced arg => put_arg T better arg reduced) args [].

(** calc.rs:359-374 *)
Definition min_max (T : vtype) (better : comparison) (f : list (calc (leaf T)) -> calc (leaf T)) (args : list (calc (leaf T))) : calc (leaf T) :=
  match reduce_args T better args with
  | [c] => c
  | reduced => f reduced
  end.

(** calc.rs:375-432 *)
Definition clamp (T : vtype) (min center max : calc (leaf T)) : calc (leaf T) :=
  match compare_args T center max with
  | None => FClamp min center max
  | Some o =>
      let center := match o with Gt => max | _ => center end in
      match compare_args T center min with
      | Some Lt => min
      | Some _ => center
      | None => FMax [min; center]
      end
  end.

(** calc.rs:731-743 *)
Definition apply_op (T : vtype) (a b : calc (leaf T)) (op : Q -> Q -> Q) : option (calc (leaf T)) :=
  match a, b with
  | CVal a, CVal b => option_map CVal (lop T a b op)
  | CNum a, CNum b => Some (CNum (op a b))
  | _, _ => None
  end.
(** calc.rs:745-757 *)
Definition apply_map (T : vtype) (v : calc (leaf T)) (op : Q -> Q) : option (calc (leaf T)) :=
  match v with
  | CNum n => Some (CNum (op n))
  | CVal l => option_map CVal (lmap T l op)
  | _ => None
  end.
(** calc.rs:713-729 *)
Definition math_fn (T : vtype) (op : Q -> Q -> Q) (fallback : calc (leaf T) -> calc (leaf T) -> calc (leaf T)) (a b : calc (leaf T)) : calc (leaf T) :=
  match apply_op T a b op with Some c => c | None => fallback a b end.
(** calc.rs:484-493 *)
Definition abs_fn (T : vtype) (v : calc (leaf T)) : calc (leaf T) :=
  match apply_map T v Qabs with Some c => c | None => FAbs v end.
(** calc.rs:494-513 *)
Definition sign_fn (T : vtype) (v : calc (leaf T)) : calc (leaf T) :=
  match v with
  | CNum n => CNum (qsign n)
  | CVal l => match lmap T l qsign with Some l => CNum (qsign (lnum T l)) | None => FSign v end
  | _ => FSign v
  end.
(** calc.rs:875-899; [root] stands for [f32::sqrt], and [f32::hypot] is the root of the sum of the squares *)
Fixpoint add_squares (T : vtype) (acc : calc (leaf T)) (args : list (calc (leaf T))) : option (calc (leaf T)) :=
  match args with
  | [] => Some acc
  | arg :: args =>
      match apply_op T acc arg (fun a b => a + b * b) with
      | Some acc => add_squares T acc args
      | None => None
      end
  end.
Definition hypot (T : vtype) (root : Q -> Q) (args : list (calc (leaf T))) : option (calc (leaf T)) :=
  match args with
  | [] => None
  | [a] => Some a
  | [a; b] => apply_op T a b (fun a b => root (a * a + b * b))
  | first :: rest =>
      match apply_map T first (fun v => v * v) with
      | None => None
      | Some first => match add_squares T first rest with Some sum => apply_map T sum root | None => None end
      end
  end.

(** ** Reading *)
(** An expression as it is written.  A sum or product inside an operand that binds more tightly stands in parentheses;
    [ECalc] is a nested or outer [calc()].  The loops of [parse_sum] (calc.rs:540-575) and [parse_product]
    (calc.rs:577-614) make operators of one kind group to the left, as the trees do. *)
Inductive expr (L : Type) : Type :=
| EVal (l : L)
| ENum (n : Q)
| EAdd (a b : expr L)
| ESub (a b : expr L)
| EMul (a b : expr L)
| EDiv (a b : expr L)
| ECalc (e : expr L)
| EMin (es : list (expr L))
| EMax (es : list (expr L))
| EClamp (a b c : expr L)
| ERound (s : strategy) (a b : expr L)
| ERem (a b : expr L)
| EMod (a b : expr L)
| EAbs (e : expr L)
| ESign (e : expr L)
| EHypot (es : list (expr L)).
Arguments EVal {L} l.
Arguments ENum {L} n.
Arguments EAdd {L} a b.
Arguments ESub {L} a b.
Arguments EMul {L} a b.
Arguments EDiv {L} a b.
Arguments ECalc {L} e.
Arguments EMin {L} es.
Arguments EMax {L} es.
Arguments EClamp {L} a b c.
Arguments ERound {L} s a b.
Arguments ERem {L} a b.
Arguments EMod {L} a b.
Arguments EAbs {L} e.
Arguments ESign {L} e.
Arguments EHypot {L} es.

(** calc.rs:585-594, 596-605 *)
Definition product (T : vtype) (node rhs : calc (leaf T)) : out (calc (leaf T)) :=
  match rhs with
  | CNum v => Ok (cmul T v node)
  | _ => match node with CNum v => Ok (cmul T v rhs) | _ => Err end
  end.
Definition quotient (T : vtype) (node rhs : calc (leaf T)) : out (calc (leaf T)) :=
  match rhs with
  | CNum v => if Qeq_bool v 0 then Err else Ok (cmul T (1 / v) node)
  | _ => Err
  end.

Definition all_ok {A B : Type} (f : A -> out B) : list A -> out (list B) :=
  fix go l := match l with [] => Ok [] | a :: l => bind (f a) (fun b => bind (go l) (fun bs => Ok (b :: bs))) end.

(** [parse_sum], [parse_product], [parse_value] and the functions of [parse_with] (calc.rs:346-656).  A nested [calc()]
    gives its contents (calc.rs:621-631).  The fuel [n] is that of the additions. *)
Fixpoint simp (T : vtype) (root : Q -> Q) (n : nat) (e : expr (leaf T)) : out (calc (leaf T)) :=
  match e with
  | EVal l => Ok (CVal l)
  | ENum q => Ok (CNum q)
  | EAdd a b => bind (simp T root n a) (fun a => bind (simp T root n b) (fun b => cadd T n a b))
  | ESub a b => bind (simp T root n a) (fun a => bind (simp T root n b) (fun b => cadd T n a (cmul T (-1) b)))
  | EMul a b => bind (simp T root n a) (fun a => bind (simp T root n b) (fun b => product T a b))
  | EDiv a b => bind (simp T root n a) (fun a => bind (simp T root n b) (fun b => quotient T a b))
  | ECalc e => simp T root n e
  | EMin es =>
      bind (all_ok (simp T root n) es) (fun cs => match cs with [] => Err | _ => Ok (min_max T Lt FMin cs) end)
  | EMax es =>
      bind (all_ok (simp T root n) es) (fun cs => match cs with [] => Err | _ => Ok (min_max T Gt FMax cs) end)
  | EClamp a b c =>
      bind (simp T root n a) (fun a => bind (simp T root n b) (fun b => bind (simp T root n c) (fun c => Ok (clamp T a b c))))
  | ERound s a b => bind (simp T root n a) (fun a => bind (simp T root n b) (fun b => Ok (math_fn T (round s) (FRound s) a b)))
  | ERem a b => bind (simp T root n a) (fun a => bind (simp T root n b) (fun b => Ok (math_fn T qrem FRem a b)))
  | EMod a b => bind (simp T root n a) (fun a => bind (simp T root n b) (fun b => Ok (math_fn T modulo FMod a b)))
  | EAbs e => bind (simp T root n e) (fun c => Ok (abs_fn T c))
  | ESign e => bind (simp T root n e) (fun c => Ok (sign_fn T c))
  | EHypot es =>
      bind (all_ok (simp T root n) es) (fun cs =>
        match cs with
        | [] => Err
        | _ => Ok (match hypot T root cs with Some c => c | None => FHypot cs end)
        end)
  end.

(** [Calc::parse]: the text starts with the name of a function; an outer [calc()] stays unless it holds a plain value or
    number (calc.rs:352-358) *)
Definition parse_function (T : vtype) (root : Q -> Q) (n : nat) (e : expr (leaf T)) : out (calc (leaf T)) :=
  match e with
  | EVal _ | ENum _ | EAdd _ _ | ESub _ _ | EMul _ _ | EDiv _ _ => Err
  | ECalc e => bind (simp T root n e) (fun c => Ok (match c with CVal _ | CNum _ => c | _ => FCalc c end))
  | _ => simp T root n e
  end.

(** [Parse] for the types with a [Calc] variant: percentage.rs:213-230, length.rs:549-560.  A bare number is left out. *)
Definition parse_dp (T : vtype) (root : Q -> Q) (n : nat) (e : expr (leaf T)) : out (dp (leaf T)) :=
  match e with
  | EVal l => Ok (DLeaf l)
  | _ => bind (parse_function T root n e) (fun c => Ok (match c with CVal l => DLeaf l | _ => DCalc c end))
  end.
(** [Parse] for times and angles: time.rs:59-80, angle.rs:58-85 *)
Definition parse_flat (T : vtype) (root : Q -> Q) (n : nat) (e : expr (leaf T)) : out (leaf T) :=
  match e with
  | EVal l => Ok l
  | _ => bind (parse_function T root n e) (fun c => match c with CVal l => Ok l | _ => Err end)
  end.
(** [Parse] for percentages: percentage.rs:25-37.  [None] is the [unreachable!()]. *)
Definition parse_percentage (T : vtype) (root : Q -> Q) (n : nat) (e : expr (leaf T)) : out (option (leaf T)) :=
  match e with
  | EVal l => Ok (Some l)
  | _ => bind (parse_function T root n e) (fun c => Ok (match c with CVal l => Some l | _ => None end))
  end.

(** ** Printing *)
Inductive fname := NCalc | NMin | NMax | NClamp | NRound | NRem | NMod | NAbs | NSign | NHypot.
Inductive token (L : Type) : Type :=
| TVal (l : L)
| TNum (n : Q)
| TPlus | TMinus | TTimes | TDivide | TComma
| TOpen (f : fname)
| TParen
| TClose
| TStrategy (s : strategy).
Arguments TVal {L} l.
Arguments TNum {L} n.
Arguments TPlus {L}.
Arguments TMinus {L}.
Arguments TTimes {L}.
Arguments TDivide {L}.
Arguments TComma {L}.
Arguments TOpen {L} f.
Arguments TParen {L}.
Arguments TClose {L}.
Arguments TStrategy {L} s.

Fixpoint commas {L : Type} (args : list (list (token L))) : list (token L) :=
  match args with
  | [] => []
  | [a] => a
  | a :: args => a ++ TComma :: commas args
  end.
Definition call {L : Type} (f : fname) (args : list (list (token L))) : list (token L) :=
  TOpen f :: commas args ++ [TClose].

(** calc.rs:965-1006 and 125-233.  The second operand of a sum is multiplied by -1 when its sign is negative, so the depth
    bounds the recursion and not the tree.  [compile_clamp]: the targets lack [clamp()]. *)
Fixpoint depth {L : Type} (c : calc L) : nat :=
  match c with
  | CVal _ | CNum _ => 1
  | CSum a b => S (S (Nat.max (depth a) (depth b)))
  | CProd _ c | FCalc c | FAbs c | FSign c => S (depth c)
  | FMin cs | FMax cs | FHypot cs => S (list_max (map depth cs))
  | FClamp a b c => S (Nat.max (depth a) (Nat.max (depth b) (depth c)))
  | FRound _ a b | FRem a b | FMod a b => S (Nat.max (depth a) (depth b))
  end.
Fixpoint print (T : vtype) (compile_clamp : bool) (n : nat) (c : calc (leaf T)) : list (token (leaf T)) :=
  match n with
  | O => []
  | S n =>
      let go := print T compile_clamp n in
      match c with
      | CVal l => [TVal l]
      | CNum q => [TNum q]
      | CSum a b =>
          go a ++ (if sign_negative (csign T b) then TMinus :: go (cmul T (-1) b) else TPlus :: go b)
      | CProd q c =>
          match Qabs q ?= 1 with
          | Lt => go c ++ [TDivide; TNum (1 / q)]
          | _ => TNum q :: TTimes :: go c
          end
      | FCalc c => call NCalc [go c]
      | FMin cs => call NMin (map go cs)
      | FMax cs => call NMax (map go cs)
      | FClamp a b c =>
          if compile_clamp then call NMax [go a; call NMin [go b; go c]] else call NClamp [go a; go b; go c]
      | FRound s a b =>
          call NRound ((match s with SNearest => [] | _ => [[TStrategy s]] end) ++ [go a; go b])
      | FRem a b => call NRem [go a; go b]
      | FMod a b => call NMod [go a; go b]
      | FAbs c => call NAbs [go c]
      | FSign c => call NSign [go c]
      | FHypot cs => call NHypot (map go cs)
      end
  end.
Definition print_dp (T : vtype) (compile_clamp : bool) (d : dp (leaf T)) : list (token (leaf T)) :=
  match d with DLeaf l => [TVal l] | DCalc c => print T compile_clamp (depth c) c end.

(** ** The types of values *)
(** length.rs:336-455: the absolute units and, by name, the others *)
Inductive unit_name := Px | In | Cm | Mm | QMm | Pt | Pc | Rel (name : string).
Definition unit_eqb (u v : unit_name) : bool :=
  match u, v with
  | Px, Px | In, In | Cm, Cm | Mm, Mm | QMm, QMm | Pt, Pt | Pc, Pc => true
  | Rel a, Rel b => String.eqb a b
  | _, _ => false
  end.
(** length.rs:77-82, 513-533 *)
Definition px_per_in : Q := 96.
Definition px_per_cm : Q := px_per_in / (254#100).
Definition to_px (u : unit_name) (q : Q) : option Q :=
  match u with
  | Px => Some q
  | In => Some (q * px_per_in)
  | Cm => Some (q * px_per_cm)
  | Mm => Some (q * (px_per_cm / 10))
  | QMm => Some (q * (px_per_cm / 40))
  | Pt => Some (q * (px_per_in / 72))
  | Pc => Some (q * (px_per_in / 6))
  | Rel _ => None
  end.
Inductive length_value := LV (u : unit_name) (q : Q).
(** length.rs:177-192, 195-205, 208-223, 226-258, 260-269, 271-280, 286-293 *)
Definition len_both {A : Type} (a b : length_value) (f : unit_name -> Q -> Q -> A) : option A :=
  match a, b with
  | LV u x, LV v y =>
      if unit_eqb u v then Some (f u x y) else
      match to_px u x, to_px v y with Some x, Some y => Some (f Px x y) | _, _ => None end
  end.
Definition len_mul (a : length_value) (k : Q) : length_value := match a with LV u x => LV u (x * k) end.
Definition len_add (a b : length_value) : option length_value := len_both a b (fun u x y => LV u (x + y)).
Definition len_cmp (a b : length_value) : option comparison := len_both a b (fun _ x y => x ?= y).
Definition len_op (a b : length_value) (f : Q -> Q -> Q) : option length_value := len_both a b (fun u x y => LV u (f x y)).
Definition len_map (a : length_value) (f : Q -> Q) : option length_value := match a with LV u x => Some (LV u (f x)) end.
Definition len_num (a : length_value) : Q := match a with LV _ x => x end.

(** [Length]: length.rs:541-801 *)
Definition length_type : vtype := VType length_value len_mul len_add len_cmp len_op len_map len_num true.

(** [LengthPercentage]: percentage.rs:174-514 over lengths *)
Inductive length_percentage := LPLength (l : length_value) | LPPercent (p : Q).
Definition lp_mul (a : length_percentage) (k : Q) : length_percentage :=
  match a with LPLength l => LPLength (len_mul l k) | LPPercent p => LPPercent (p * k) end.
Definition lp_add (a b : length_percentage) : option length_percentage :=
  match a, b with
  | LPLength a, LPLength b => option_map LPLength (len_add a b)
  | LPPercent a, LPPercent b => Some (LPPercent (a + b))
  | _, _ => None
  end.
Definition lp_cmp (a b : length_percentage) : option comparison :=
  match a, b with
  | LPLength a, LPLength b => len_cmp a b
  | LPPercent a, LPPercent b => Some (a ?= b)
  | _, _ => None
  end.
Definition lp_op (a b : length_percentage) (f : Q -> Q -> Q) : option length_percentage :=
  match a, b with
  | LPLength a, LPLength b => option_map LPLength (len_op a b f)
  | LPPercent a, LPPercent b => Some (LPPercent (f a b))
  | _, _ => None
  end.
Definition lp_map (a : length_percentage) (f : Q -> Q) : option length_percentage :=
  match a with LPLength l => option_map LPLength (len_map l f) | LPPercent _ => None end.
Definition lp_num (a : length_percentage) : Q := match a with LPLength l => len_num l | LPPercent p => p end.
Definition lp_type : vtype := VType length_percentage lp_mul lp_add lp_cmp lp_op lp_map lp_num true.

(** [Percentage]: percentage.rs:23-146 *)
Definition percentage_type : vtype :=
  VType Q Qmult (fun a b => Some (a + b)) (fun a b => Some (a ?= b)) (fun a b f => Some (f a b)) (fun _ _ => None)
    (fun q => q) false.

(** [Time]: time.rs:28-205 *)
Inductive time := Seconds (q : Q) | Milliseconds (q : Q).
Definition to_ms (t : time) : Q := match t with Seconds s => s * 1000 | Milliseconds ms => ms end.
Definition time_op (a b : time) (f : Q -> Q -> Q) : time :=
  match a, b with
  | Seconds a, Seconds b => Seconds (f a b)
  | Milliseconds a, Milliseconds b => Milliseconds (f a b)
  | Seconds a, Milliseconds b => Seconds (f a (b / 1000))
  | Milliseconds a, Seconds b => Milliseconds (f a (b * 1000))
  end.
Definition time_map (t : time) (f : Q -> Q) : time :=
  match t with Seconds s => Seconds (f s) | Milliseconds ms => Milliseconds (f ms) end.
Definition time_num (t : time) : Q := match t with Seconds q | Milliseconds q => q end.
Definition time_type : vtype :=
  VType time (fun t k => time_map t (fun q => q * k)) (fun a b => Some (time_op a b Qplus))
    (fun a b => Some (to_ms a ?= to_ms b)) (fun a b f => Some (time_op a b f)) (fun t f => Some (time_map t f)) time_num false.

(** [Angle]: angle.rs:33-302.  [rad] is the constant [DEG_PER_RAD], 180 over pi as a float. *)
Inductive angle := Deg (q : Q) | Rad (q : Q) | Grad (q : Q) | Turn (q : Q).
Definition to_degrees (rad : Q) (a : angle) : Q :=
  match a with Deg q => q | Rad q => q * rad | Grad q => q * 180 / 200 | Turn q => q * 360 end.
Definition angle_op (rad : Q) (a b : angle) (f : Q -> Q -> Q) : angle :=
  match a, b with
  | Deg a, Deg b => Deg (f a b)
  | Rad a, Rad b => Rad (f a b)
  | Grad a, Grad b => Grad (f a b)
  | Turn a, Turn b => Turn (f a b)
  | a, b => Deg (f (to_degrees rad a) (to_degrees rad b))
  end.
Definition angle_map (a : angle) (f : Q -> Q) : angle :=
  match a with Deg q => Deg (f q) | Rad q => Rad (f q) | Grad q => Grad (f q) | Turn q => Turn (f q) end.
Definition angle_num (a : angle) : Q := match a with Deg q | Rad q | Grad q | Turn q => q end.
Definition angle_type (rad : Q) : vtype :=
  VType angle (fun a k => angle_map a (fun q => q * k)) (fun a b => Some (angle_op rad a b Qplus))
    (fun a b => Some (to_degrees rad a ?= to_degrees rad b)) (fun a b f => Some (angle_op rad a b f))
    (fun a f => Some (angle_map a f)) angle_num false.
