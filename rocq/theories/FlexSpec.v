(** * What flex declarations mean *)

From Coq Require Import List String Bool ZArith.
From Verif Require Import FlexModel.
Import ListNotations.
Local Open Scope string_scope.

(** ** The grammars (CSS Flexible Box Layout, sections 5.3 and 7.1) *)

(** [flex-flow: <flex-direction> || <flex-wrap>]: one or both, in any order;
    what is missing has its initial value. *)
Inductive keyword_direction : token -> direction -> Prop :=
| kd_row : keyword_direction (Word "row") Row
| kd_row_reverse : keyword_direction (Word "row-reverse") RowReverse
| kd_column : keyword_direction (Word "column") Column
| kd_column_reverse : keyword_direction (Word "column-reverse") ColumnReverse.

Inductive keyword_wrap : token -> wrap -> Prop :=
| kw_nowrap : keyword_wrap (Word "nowrap") NoWrap
| kw_wrap : keyword_wrap (Word "wrap") WrapOn
| kw_wrap_reverse : keyword_wrap (Word "wrap-reverse") WrapReverse.

Inductive flow_value : list token -> direction -> wrap -> Prop :=
| fv_direction t d : keyword_direction t d -> flow_value [t] d NoWrap
| fv_wrap u w : keyword_wrap u w -> flow_value [u] Row w
| fv_both t d u w :
    keyword_direction t d -> keyword_wrap u w -> flow_value [t; u] d w
| fv_swapped t d u w :
    keyword_direction t d -> keyword_wrap u w -> flow_value [u; t] d w.

(** [flex: none | [ <'flex-grow'> <'flex-shrink'>? || <'flex-basis'> ]].
    Factors are not negative.  The factors left out are 1, and the basis
    left out is [0%], as browsers have it. *)
Inductive factors : list token -> factor -> factor -> Prop :=
| f_grow g : (0 <= g)%Z -> factors [Num g] g 1%Z
| f_both g s : (0 <= g)%Z -> (0 <= s)%Z -> factors [Num g; Num s] g s.

(** A basis that cannot be taken for a factor *)
Inductive clear_basis : token -> basis -> Prop :=
| cb_auto : clear_basis (Word "auto") Auto
| cb_zero : clear_basis ZeroUnit ZeroLength
| cb_percent : clear_basis ZeroPct ZeroPercent
| cb_size n : clear_basis (Measure n) (Size n).

(** "A unitless zero that is not already preceded by two flex factors must
    be interpreted as a flex factor." *)
Inductive flex_value : list token -> factor -> factor -> basis -> Prop :=
| xv_none : flex_value [Word "none"] 0%Z 0%Z Auto
| xv_factors l g s : factors l g s -> flex_value l g s ZeroPercent
| xv_basis t b : clear_basis t b -> flex_value [t] 1%Z 1%Z b
| xv_factors_basis l g s t b :
    factors l g s -> clear_basis t b -> flex_value (l ++ [t])%list g s b
| xv_basis_factors l g s t b :
    factors l g s -> clear_basis t b -> flex_value (t :: l) g s b
| xv_zero g s :
    (0 <= g)%Z -> (0 <= s)%Z -> flex_value [Num g; Num s; Num 0%Z] g s ZeroLength.

(** ** The cascade inside a block *)

(** What a longhand is given: a value, or tokens that are only read when the
    page is shown. *)
Inductive cell := Given (v : value) | Tokens (k : property) (raw : nat).

(** The longhands of a property *)
Definition belongs (s : slot) (k : property) : bool :=
  match k with
  | Long t => slot_eqb s t
  | FlowP => match s with Direction | Wrap => true | _ => false end
  | FlexP => match s with Grow | Shrink | Basis => true | _ => false end
  end.

Definition gives {P} (d : decl P) (s : slot) : option cell :=
  match d with
  | DFlow a b _ =>
      match s with
      | Direction => Some (Given a) | Wrap => Some (Given b) | _ => None
      end
  | DFlex a b c _ =>
      match s with
      | Grow => Some (Given a) | Shrink => Some (Given b)
      | Basis => Some (Given c) | _ => None
      end
  | DOne t v _ => if slot_eqb s t then Some (Given v) else None
  | DRaw k raw _ => if belongs s k then Some (Tokens k raw) else None
  end.

Definition prefix_of {P} (d : decl P) : P :=
  match d with
  | DFlow _ _ p | DFlex _ _ _ p | DOne _ _ p | DRaw _ _ p => p
  end.

(** A browser knows the properties under some of the prefixes: an old one
    only under its own, a current one without a prefix and, as an alias,
    under [-webkit-].  [knows] says under which.  The declarations it does
    not know are skipped, and the last of the others counts. *)
Definition written_with (d : decl prefix) (knows : pset) : bool := knows (prefix_of d).

Definition printed_with (d : decl pset) (knows : pset) : bool :=
  existsb (fun q => prefix_of d q && knows q) all_prefixes.

Fixpoint last_value {D : Type} (known : D -> bool) (at_slot : D -> option cell)
  (l : list D) (before : option cell) : option cell :=
  match l with
  | [] => before
  | d :: rest =>
      last_value known at_slot rest
        (if known d then match at_slot d with Some c => Some c | None => before end
         else before)
  end.

Definition source_value (knows : pset) (l : list (decl prefix)) (s : slot) : option cell :=
  last_value (fun d => written_with d knows) (fun d => gives d s) l None.

Definition result_value (knows : pset) (l : list (decl pset)) (s : slot) : option cell :=
  last_value (fun d => printed_with d knows) (fun d => gives d s) l None.

(** ** Blocks *)

Definition standard (s : slot) : bool :=
  match s with Direction | Wrap | Grow | Shrink | Basis | Order => true | _ => false end.

(** properties/mod.rs:1331-1374: the prefixes under which a property is
    known to the parser at all *)
Definition allowed (k : property) (p : prefix) : bool :=
  match k, p with
  | (Long Direction | Long Wrap | FlowP | FlexP), (NoPrefix | WebKit | Ms) => true
  | (Long Grow | Long Shrink | Long Basis | Long Order), (NoPrefix | WebKit) => true
  | (Long BoxOrient | Long BoxDirection | Long BoxOrdinalGroup | Long BoxFlex
     | Long BoxLines), (WebKit | Moz) => true
  | (Long FlexPositive | Long FlexNegative | Long PreferredSize | Long FlexOrder), Ms => true
  | _, _ => false
  end.

Definition kind_of {P} (d : decl P) : property :=
  match d with
  | DFlow _ _ _ => FlowP | DFlex _ _ _ _ => FlexP
  | DOne s _ _ => Long s | DRaw k _ _ => k
  end.

Definition readable (l : list (decl prefix)) : Prop :=
  Forall (fun d => allowed (kind_of d) (prefix_of d) = true) l.

(** The values one longhand is given under a prefix *)
Definition given_under (l : list (decl prefix)) (s : slot) (p : prefix) (v : value) : Prop :=
  exists d, In d l /\ prefix_of d = p /\ gives d s = Some (Given v).

(** The block does not change its mind about a longhand under one prefix
    while it also uses a prefix the browser treats differently: all prefixes
    used for the longhand are known to the browser, or none is, or only one
    is used, or no prefix has two values. *)
Definition steady (knows : pset) (l : list (decl prefix)) (s : slot) : Prop :=
  (forall p q v w, given_under l s p v -> given_under l s q w -> knows p = knows q)
  \/ (forall p v w, given_under l s p v -> given_under l s p w -> v = w).

(** Internet Explorer 10 calls the grow factor [-ms-flex-positive]; its
    [-ms-flex] is the shorthand of that property and two more. *)
Definition ie10_grow {P} (ms : P -> bool) (l : list (decl P)) : option cell :=
  last_value (fun d => ms (prefix_of d))
    (fun d => match d with
              | DFlex a _ _ _ => Some (Given a)
              | DOne FlexPositive v _ => Some (Given v)
              | _ => None
              end) l None.

(** The draft of 2009: [box-orient] is the axis and [box-direction] the way
    along it ([Other 0] horizontal, [Other 1] vertical, [Other 2] normal,
    [Other 3] reverse). *)
Definition axis (d : direction) : value :=
  match d with Row | RowReverse => Other 0 | Column | ColumnReverse => Other 1 end.
Definition way (d : direction) : value :=
  match d with Row | Column => Other 2 | RowReverse | ColumnReverse => Other 3 end.
