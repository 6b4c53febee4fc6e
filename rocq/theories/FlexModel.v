(** * Flexible boxes: the shorthands [flex] and [flex-flow] and their handler

    Model of properties/flex.rs.  The first half reads and prints the two
    shorthands as lists of tokens; the second half is [FlexHandler], which
    collects the flex declarations of a block and writes them out merged. *)

From Coq Require Import List String Bool ZArith Arith.
Import ListNotations.
Local Open Scope nat_scope.
Local Open Scope string_scope.

(** ** Values *)

(** flex.rs:24-43 [FlexDirection] *)
Inductive direction := Row | RowReverse | Column | ColumnReverse.

(** flex.rs:44-58 [FlexWrap] *)
Inductive wrap := NoWrap | WrapOn | WrapReverse.

(** A flex factor, an f32 in the code (values/number.rs [CSSNumber]).  The
    code of this file only compares factors with 0, with 1 and with each
    other, so an integer stands for the number.  [CSSNumber::parse] accepts
    negative numbers. *)
Definition factor := Z.

(** values/length.rs [LengthPercentageOrAuto], as far as flex.rs:200-209
    looks at it: [auto]; a length that is zero; the percentage zero; any
    other length, percentage or calculation, named by a number. *)
Inductive basis := Auto | ZeroLength | ZeroPercent | Size (n : nat).

(** A token of a value: an identifier (in lower case, as the keywords are
    compared without regard to case), a number, a zero with a unit of
    length, a zero percentage, or any other size.  A function such as
    [calc()] counts as one token here. *)
Inductive token :=
| Word (w : string)
| Num (z : factor)
| ZeroUnit
| ZeroPct
| Measure (n : nat).

(** ** Keywords *)

(** flex.rs:24-43, the keywords made by [enum_property!] *)
Definition parse_direction (t : token) : option direction :=
  match t with
  | Word w =>
      if w =? "row" then Some Row
      else if w =? "row-reverse" then Some RowReverse
      else if w =? "column" then Some Column
      else if w =? "column-reverse" then Some ColumnReverse
      else None
  | _ => None
  end.

Definition print_direction (d : direction) : token :=
  match d with
  | Row => Word "row"
  | RowReverse => Word "row-reverse"
  | Column => Word "column"
  | ColumnReverse => Word "column-reverse"
  end.

(** flex.rs:44-58 *)
Definition parse_wrap (t : token) : option wrap :=
  match t with
  | Word w =>
      if w =? "nowrap" then Some NoWrap
      else if w =? "wrap" then Some WrapOn
      else if w =? "wrap-reverse" then Some WrapReverse
      else None
  | _ => None
  end.

Definition print_wrap (w : wrap) : token :=
  match w with
  | NoWrap => Word "nowrap"
  | WrapOn => Word "wrap"
  | WrapReverse => Word "wrap-reverse"
  end.

Definition direction_eqb (a b : direction) : bool :=
  match a, b with
  | Row, Row | RowReverse, RowReverse | Column, Column
  | ColumnReverse, ColumnReverse => true
  | _, _ => false
  end.

Definition wrap_eqb (a b : wrap) : bool :=
  match a, b with
  | NoWrap, NoWrap | WrapOn, WrapOn | WrapReverse, WrapReverse => true
  | _, _ => false
  end.

Definition basis_eqb (a b : basis) : bool :=
  match a, b with
  | Auto, Auto | ZeroLength, ZeroLength | ZeroPercent, ZeroPercent => true
  | Size n, Size m => Nat.eqb n m
  | _, _ => false
  end.

(** ** [flex-flow] *)

(** flex.rs:79-103 [FlexFlow::parse], the loop: the first branch that reads
    the next token is taken, until none does; what is left is returned. *)
Fixpoint flow_loop (d : option direction) (w : option wrap) (l : list token)
  : option direction * option wrap * list token :=
  match l with
  | [] => (d, w, [])
  | t :: rest =>
      match (match d with None => parse_direction t | Some _ => None end) with
      | Some v => flow_loop (Some v) w rest
      | None =>
          match (match w with None => parse_wrap t | Some _ => None end) with
          | Some v => flow_loop d (Some v) rest
          | None => (d, w, l)
          end
      end
  end.

(** flex.rs:79-103, and properties/mod.rs:700-724: a value with something
    left over is not this property's (it is kept as tokens). *)
Definition parse_flow (l : list token) : option (direction * wrap) :=
  match flow_loop None None l with
  | (d, w, []) =>
      Some (match d with Some v => v | None => Row end,
            match w with Some v => v | None => NoWrap end)
  | _ => None
  end.

(** flex.rs:105-126 [FlexFlow::to_css] *)
Definition print_flow (d : direction) (w : wrap) : list token :=
  let shown := negb (direction_eqb d Row) || wrap_eqb w NoWrap in
  (if shown then [print_direction d] else [])
    ++ (if negb (wrap_eqb w NoWrap) then [print_wrap w] else []).

(** ** [flex] *)

(** values/number.rs [CSSNumber::parse] *)
Definition parse_number (t : token) : option factor :=
  match t with Num z => Some z | _ => None end.

(** values/length.rs [LengthPercentageOrAuto::parse]: [auto], a percentage,
    a length, where the number zero is a length as well. *)
Definition parse_basis (t : token) : option basis :=
  match t with
  | Word w => if w =? "auto" then Some Auto else None
  | Num z => if Z.eqb z 0 then Some ZeroLength else None
  | ZeroUnit => Some ZeroLength
  | ZeroPct => Some ZeroPercent
  | Measure n => Some (Size n)
  end.

(** values/length.rs [LengthPercentageOrAuto::to_css]: a zero length is
    printed without a unit. *)
Definition print_basis (b : basis) : token :=
  match b with
  | Auto => Word "auto"
  | ZeroLength => Num 0%Z
  | ZeroPercent => ZeroPct
  | Size n => Measure n
  end.

(** flex.rs:154-171 [Flex::parse], the loop.  After the grow factor the
    next token is tried as the shrink factor at once.  The code's loop is
    bounded here by the number of tokens, of which every turn takes one. *)
Fixpoint flex_loop (fuel : nat) (g s : option factor) (b : option basis)
  (l : list token) : option factor * option factor * option basis * list token :=
  match fuel with
  | O => (g, s, b, l)
  | S fuel =>
      match l with
      | [] => (g, s, b, [])
      | t :: rest =>
          match (match g with None => parse_number t | Some _ => None end) with
          | Some v =>
              match rest with
              | u :: rest' =>
                  match parse_number u with
                  | Some k => flex_loop fuel (Some v) (Some k) b rest'
                  | None => flex_loop fuel (Some v) None b rest
                  end
              | [] => flex_loop fuel (Some v) None b rest
              end
          | None =>
              match (match b with None => parse_basis t | Some _ => None end) with
              | Some v => flex_loop fuel g s (Some v) rest
              | None => (g, s, b, l)
              end
          end
      end
  end.

Definition or_one (f : option factor) : factor :=
  match f with Some z => z | None => 1%Z end.

(** flex.rs:142-181 [Flex::parse], and properties/mod.rs:700-724 for what
    is left over. *)
Definition parse_flex (l : list token) : option (factor * factor * basis) :=
  if match l with Word w :: _ => w =? "none" | _ => false end then
    match l with [_] => Some (0%Z, 0%Z, Auto) | _ => None end
  else
      match flex_loop (S (List.length l)) None None None l with
      | (g, s, b, []) =>
          Some (or_one g, or_one s,
                match b with Some v => v | None => ZeroPercent end)
      | _ => None
      end.

(** flex.rs:194-209 [ZeroKind] *)
Inductive zero_kind := NonZero | KLength | KPercentage.

Definition kind (b : basis) : zero_kind :=
  match b with
  | ZeroLength => KLength
  | ZeroPercent => KPercentage
  | _ => NonZero
  end.

Definition kind_eqb (a b : zero_kind) : bool :=
  match a, b with
  | NonZero, NonZero | KLength, KLength | KPercentage, KPercentage => true
  | _, _ => false
  end.

(** flex.rs:184-227 [Flex::to_css].  Where the code writes a space before a
    part, the part is a token of its own; the space before the basis
    (flex.rs:221-223) is written exactly if a factor was. *)
Definition print_flex (g s : factor) (b : basis) : list token :=
  if (Z.eqb g 0 && Z.eqb s 0 && basis_eqb b Auto)%bool then [Word "none"]
  else
    (if negb (Z.eqb g 1) || negb (Z.eqb s 1) || negb (kind_eqb (kind b) NonZero)
     then Num g ::
          (if negb (Z.eqb s 1) || kind_eqb (kind b) KLength then [Num s] else [])
     else [])
    ++ (if negb (kind_eqb (kind b) KPercentage) then [print_basis b] else []).

(** ** The handler *)

Local Open Scope list_scope.

(** vendor_prefix.rs:22-33 [VendorPrefix], the flags ([NoPrefix] is the flag
    called [None]), and a set of them. *)
Inductive prefix := NoPrefix | WebKit | Moz | Ms | Opera.

Definition pset := prefix -> bool.

Definition all_prefixes : list prefix := [NoPrefix; WebKit; Moz; Ms; Opera].

Definition prefix_eqb (a b : prefix) : bool :=
  match a, b with
  | NoPrefix, NoPrefix | WebKit, WebKit | Moz, Moz | Ms, Ms | Opera, Opera => true
  | _, _ => false
  end.

Definition only (p : prefix) : pset := prefix_eqb p.
Definition none_of : pset := fun _ => false.
Definition add_prefix (s : pset) (p : prefix) : pset := fun q => s q || prefix_eqb p q.
Definition inter (s t : pset) : pset := fun q => s q && t q.
Definition minus (s t : pset) : pset := fun q => s q && negb (t q).
Definition empty (s : pset) : bool := negb (existsb s all_prefixes).

(** flex.rs:474-489 the fields of [FlexHandler]: the six standard longhands
    and the nine legacy properties of the drafts of 2009 and 2012. *)
Inductive slot :=
| Direction | Wrap | Grow | Shrink | Basis | Order
| BoxOrient | BoxDirection | BoxOrdinalGroup | BoxFlex | BoxLines
| FlexPositive | FlexNegative | PreferredSize | FlexOrder.

Definition slot_eqb (a b : slot) : bool :=
  match a, b with
  | Direction, Direction | Wrap, Wrap | Grow, Grow | Shrink, Shrink
  | Basis, Basis | Order, Order | BoxOrient, BoxOrient
  | BoxDirection, BoxDirection | BoxOrdinalGroup, BoxOrdinalGroup
  | BoxFlex, BoxFlex | BoxLines, BoxLines | FlexPositive, FlexPositive
  | FlexNegative, FlexNegative | PreferredSize, PreferredSize
  | FlexOrder, FlexOrder => true
  | _, _ => false
  end.

(** The value of a longhand.  [Other] stands for the keywords of the legacy
    properties that have no counterpart here. *)
Inductive value :=
| VDirection (d : direction)
| VWrap (w : wrap)
| VNumber (z : Z)
| VBasis (b : basis)
| Other (n : nat).

Definition value_eqb (a b : value) : bool :=
  match a, b with
  | VDirection x, VDirection y => direction_eqb x y
  | VWrap x, VWrap y => wrap_eqb x y
  | VNumber x, VNumber y => Z.eqb x y
  | VBasis x, VBasis y => basis_eqb x y
  | Other x, Other y => Nat.eqb x y
  | _, _ => false
  end.

(** A property of this group: a longhand or one of the two shorthands. *)
Inductive property := Long (s : slot) | FlowP | FlexP.

(** properties/mod.rs:1331-1374 the declarations, with one prefix (as read)
    or a set of prefixes (as written).  [DRaw] is a value kept as tokens
    ([Property::Unparsed]). *)
Inductive decl (P : Type) :=
| DFlow (a b : value) (p : P)
| DFlex (a b c : value) (p : P)
| DOne (s : slot) (v : value) (p : P)
| DRaw (k : property) (raw : nat) (p : P).
Arguments DFlow {P}. Arguments DFlex {P}. Arguments DOne {P}. Arguments DRaw {P}.

(** The state: flex.rs:474-491.  [has_any] (flex.rs:490) is left out: it is
    set with the first field, and a flush of empty fields writes nothing. *)
Definition fields := slot -> option (value * pset).

Definition no_fields : fields := fun _ => None.

Definition put (h : fields) (s : slot) (x : option (value * pset)) : fields :=
  fun t => if slot_eqb s t then x else h t.

(** What the targets answer: whether browsers are given, whether one of them
    knows only the draft of 2009 (prefixes.rs:2244 [is_flex_2009]), and
    targets.rs:243-253 [Targets::prefixes]. *)
Record targets := {
  browsers : bool;
  flex_2009 : bool;
  prefixes : pset -> property -> pset }.

Section Handler.
  Variable T : targets.

  (** flex.rs:683-691 [legacy_property!] *)
  Definition legacy (h : fields) (s : slot) : list (decl pset) :=
    match h s with
    | Some (v, p) => if empty p then [] else [DOne s v p]
    | None => []
    end.

  (** flex.rs:648-654, 706-713, 745-752: the prefixes of the draft of 2009 *)
  Definition prefixes_2009 (p : pset) : pset :=
    fun q => (prefix_eqb q WebKit && flex_2009 T) || (prefix_eqb q Moz && p Moz).

  (** flex.rs:639-681 [single_property!], with the property of the draft of
      2012 and of 2009, if any.  [from_standard] is flex.rs:343-359. *)
  Definition single (x : option (value * pset)) (s : slot) (d2012 d2009 : option slot)
    (from_standard : value -> option value) : list (decl pset) :=
    match x with
    | None => []
    | Some (v, p) =>
        if empty p then []
        else
          let p := prefixes T p (Long s) in
          (if p NoPrefix then
             match d2009 with
             | Some o =>
                 if browsers T then
                   if empty (prefixes_2009 p) then []
                   else match from_standard v with
                        | Some w => [DOne o w (prefixes_2009 p)]
                        | None => []
                        end
                 else []
             | None => []
             end
           else [])
          ++ (match d2012 with
              | Some o => if p Ms then [DOne o v (only Ms)] else []
              | None => []
              end)
          ++ [DOne s v
               (minus (match d2012 with Some _ => minus p (only Ms) | None => p end)
                      (only Moz))]
    end.

  (** flex.rs:704-719 and 743-758: the properties of 2009 for the direction
      and the grow factor.  [to_2009] (flex.rs:246-255) gives the keywords. *)
  Definition old_ones (x : option (value * pset)) (s : slot)
    (olds : value -> list (slot * value)) : list (decl pset) :=
    match x with
    | None => []
    | Some (v, _) =>
        if browsers T then
          let p := prefixes_2009 (prefixes T (only NoPrefix) (Long s)) in
          if empty p then []
          else map (fun o => DOne (fst o) (snd o) p) (olds v)
        else []
    end.

  (** flex.rs:246-255 [FlexDirection::to_2009]; [Other 0] is horizontal,
      [Other 1] vertical, [Other 2] normal, [Other 3] reverse. *)
  Definition to_2009 (v : value) : list (slot * value) :=
    match v with
    | VDirection Row => [(BoxOrient, Other 0); (BoxDirection, Other 2)]
    | VDirection Column => [(BoxOrient, Other 1); (BoxDirection, Other 2)]
    | VDirection RowReverse => [(BoxOrient, Other 0); (BoxDirection, Other 3)]
    | VDirection ColumnReverse => [(BoxOrient, Other 1); (BoxDirection, Other 3)]
    | _ => []
    end.

  (** flex.rs:343-351 [BoxLines::from_standard]: [Other 4] is single,
      [Other 5] multiple. *)
  Definition lines_2009 (v : value) : option value :=
    match v with
    | VWrap NoWrap => Some (Other 4)
    | VWrap WrapOn => Some (Other 5)
    | _ => None
    end.

  Definition drop_prefixes (x : option (value * pset)) (i : pset) :=
    match x with Some (v, p) => Some (v, minus p i) | None => None end.

  (** flex.rs:616-637, 693-785 [FlexHandler::flush] *)
  Definition flush (h : fields) : list (decl pset) :=
    legacy h BoxOrient ++ legacy h BoxDirection ++ legacy h BoxOrdinalGroup
    ++ legacy h BoxFlex ++ legacy h BoxLines ++ legacy h FlexPositive
    ++ legacy h FlexNegative ++ legacy h PreferredSize ++ legacy h FlexOrder
    ++ old_ones (h Direction) Direction to_2009
    ++ (let i := match h Direction, h Wrap with
                 | Some (_, p), Some (_, q) => inter p q
                 | _, _ => none_of
                 end in
        (match h Direction, h Wrap with
         | Some (d, _), Some (w, _) =>
             if empty i then []
             else [DFlow d w (minus (prefixes T i FlowP) (only Moz))]
         | _, _ => []
         end)
        ++ single (drop_prefixes (h Direction) i) Direction None None (fun _ => None)
        ++ single (drop_prefixes (h Wrap) i) Wrap None (Some BoxLines) lines_2009)
    ++ old_ones (h Grow) Grow (fun v => [(BoxFlex, v)])
    ++ (let i := match h Grow, h Shrink, h Basis with
                 | Some (_, p), Some (_, q), Some (_, r) => inter (inter p q) r
                 | _, _, _ => none_of
                 end in
        (match h Grow, h Shrink, h Basis with
         | Some (g, _), Some (s, _), Some (b, _) =>
             if empty i then []
             else [DFlex g s b (minus (prefixes T i FlexP) (only Moz))]
         | _, _, _ => []
         end)
        ++ single (drop_prefixes (h Grow) i) Grow (Some FlexPositive) None (fun _ => None)
        ++ single (drop_prefixes (h Shrink) i) Shrink (Some FlexNegative) None (fun _ => None)
        ++ single (drop_prefixes (h Basis) i) Basis (Some PreferredSize) None (fun _ => None))
    ++ single (h Order) Order (Some FlexOrder) (Some BoxOrdinalGroup) (fun v => Some v).

  (** The handler and the list of declarations it pushes to. *)
  Definition state : Type := fields * list (decl pset).

  (** flex.rs:502-512 [maybe_flush!] *)
  Definition maybe_flush (st : state) (s : slot) (v : value) (p : prefix) : state :=
    match fst st s with
    | Some (w, ps) =>
        if negb (value_eqb w v) && negb (ps p)
        then (no_fields, snd st ++ flush (fst st)) else st
    | None => st
    end.

  (** flex.rs:514-527 [property!] *)
  Definition set_field (st : state) (s : slot) (v : value) (p : prefix) : state :=
    let st := maybe_flush st s v p in
    match fst st s with
    | Some (_, ps) => (put (fst st) s (Some (v, add_prefix ps p)), snd st)
    | None => (put (fst st) s (Some (v, only p)), snd st)
    end.

  (** flex.rs:531-534, 541-543, 548-551, 556-559 and the like: with browsers the old fields are reset *)
  Definition reset (st : state) (olds : list slot) : state :=
    if browsers T
    then (fold_left (fun h s => put h s None) olds (fst st), snd st) else st.

  Definition resets (s : slot) : list slot :=
    match s with
    | Direction => [BoxDirection; BoxOrient]
    | Wrap => [BoxLines]
    | Grow => [BoxFlex; FlexPositive]
    | Shrink => [FlexNegative]
    | Basis => [PreferredSize]
    | Order => [BoxOrdinalGroup; FlexOrder]
    | _ => []
    end.

  (** flex.rs:494-608 [FlexHandler::handle_property] *)
  Definition handle (st : state) (d : decl prefix) : state :=
    match d with
    | DOne s v p => set_field (reset st (resets s)) s v p
    | DFlow a b p =>
        let st := reset st [BoxDirection; BoxOrient] in
        let st := set_field st Direction a p in
        set_field st Wrap b p
    | DFlex a b c p =>
        let st := reset st [BoxFlex; FlexPositive; FlexNegative; PreferredSize] in
        let st := maybe_flush st Grow a p in
        let st := maybe_flush st Shrink b p in
        let st := maybe_flush st Basis c p in
        let st := set_field st Grow a p in
        let st := set_field st Shrink b p in
        set_field st Basis c p
    | DRaw k raw p =>
        (no_fields, snd st ++ flush (fst st) ++ [DRaw k raw (only p)])
    end.

  (** flex.rs:610-612 [finalize]; declaration.rs:522-577 feeds the
      declarations of a block in order. *)
  Definition run (l : list (decl prefix)) : list (decl pset) :=
    let st := fold_left handle l (no_fields, []) in
    snd st ++ flush (fst st).
End Handler.

(** Without browsers and features to compile, targets.rs:243-253 gives the
    prefixes back as they are. *)
Definition no_targets : targets :=
  {| browsers := false; flex_2009 := false; prefixes := fun p _ => p |}.

(** targets.rs:243-253 [Targets::prefixes]: the targets made of whether
    [Features::VendorPrefixes] is excluded or included, and of the answers of
    prefixes.rs:195 [Feature::prefixes_for] and 2244 [is_flex_2009] for the
    browsers, if any are given. *)
Definition given_targets (exclude include : bool)
  (answers : option ((property -> pset) * bool)) : targets :=
  {| browsers := match answers with Some _ => true | None => false end;
     flex_2009 := match answers with Some (_, b) => b | None => false end;
     prefixes := fun p k =>
       if p NoPrefix && negb exclude then
         if include then (fun _ => true)
         else match answers with Some (f, _) => f k | None => p end
       else p |}.
