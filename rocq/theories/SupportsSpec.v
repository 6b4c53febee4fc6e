(** * Specification of [@supports] conditions: css-conditional-3, independent of the parser *)
From Coq Require Import List Bool String.
From Verif Require Import MediaModel VendorPrefixModel SupportsModel.
Import ListNotations.
Local Open Scope string_scope.
Local Open Scope list_scope.

(** What a browser answers to single feature tests *)
Record browser := Browser {
  b_decl : string -> list cv -> bool;    (* property name, value *)
  b_selector : list cv -> bool;
  b_unknown : cv -> bool                 (* anything else in brackets *)
}.

(** Property names are case-insensitive, custom property names are not. *)
Definition canonical_name (n : string) : string :=
  match strip_prefix "--" n with Some _ => n | None => lower n end.

(** ** Meaning of the text of a condition *)
Section Text.
Variable B : browser.

(** [<supports-decl>] without its parentheses *)
Definition declaration (l : list cv) : option (string * list cv) :=
  match l with
  | CIdent n :: CColon :: v => if no_error v then Some (n, v) else None
  | _ => None
  end.

(** [kw <in-parens>] repeated; each component value comes with its meaning as [<in-parens>] *)
Fixpoint chain (kw : string) (f : bool -> bool -> bool) (acc : bool) (l : list (cv * option bool))
  : option bool :=
  match l with
  | [] => Some acc
  | (CIdent s, _) :: (_, Some b) :: r => if ieq s kw then chain kw f (f acc b) r else None
  | _ => None
  end.

(** [<supports-condition>] *)
Definition condition (l : list (cv * option bool)) : option bool :=
  match l with
  | [(CIdent s, _); (_, Some b)] => if ieq s "not" then Some (negb b) else None
  | (_, Some b) :: r =>
      match chain "and" andb b r with Some v => Some v | None => chain "or" orb b r end
  | _ => None
  end.

(** [<supports-in-parens>]: a condition, a declaration or a selector; else [<general-enclosed>] *)
Fixpoint in_parens (t : cv) : option bool :=
  match t with
  | CFun f body =>
      if no_error body
      then Some (if ieq f "selector" then b_selector B body else b_unknown B t)
      else None
  | CParen body =>
      match condition (map (fun x => (x, in_parens x)) body) with
      | Some b => Some b
      | None =>
          match declaration body with
          | Some (n, v) => Some (b_decl B (canonical_name n) v)
          | None => if no_error body then Some (b_unknown B t) else None
          end
      end
  | _ => None
  end.

(** The meaning of a whole condition; [None] when the text is not a condition *)
Definition text_holds (l : list cv) : option bool :=
  condition (map (fun x => (x, in_parens x)) l).

(** ** Meaning of a parsed condition *)
Definition id_name (p : pid) : string :=
  match p with PVp n _ => n | PPlain n => n | PAll => "all" | PCustom n => n end.

(** A declaration with several prefixes asks for one of them. *)
Definition decl_holds (p : pid) (v : list cv) : bool :=
  let test q := b_decl B (canonical_name (pfx_text q ++ id_name p)%string) v in
  match p with
  | PVp _ (VSet false false false false false) => test Unprefixed
  | PVp _ (VSet w m s o n) =>
      (w && test WebKit) || (m && test Moz) || (s && test Ms) || (o && test Opera)
      || (n && test Unprefixed)
  | _ => test Unprefixed
  end.

Fixpoint holds (c : scond) : bool :=
  match c with
  | SNot x => negb (holds x)
  | SAnd l => forallb holds l
  | SOr l => existsb holds l
  | SDecl p v => decl_holds p v
  | SSelector s => b_selector B s
  | SUnknown t => b_unknown B t
  end.
End Text.

(** Conditions that denote a text: no empty list, no error tokens, and what is kept as unknown is
    something a browser also reads as unknown. *)
Fixpoint printable (c : scond) : Prop :=
  match c with
  | SNot x => printable x
  | SAnd l | SOr l => l <> [] /\ (fix all m := match m with [] => True | x :: r => printable x /\ all r end) l
  | SDecl _ v => no_error v = true
  | SSelector s => no_error s = true
  | SUnknown t => forall B, in_parens B t = Some (b_unknown B t)
  end.

(** ** Vendor prefixes in a text *)
Section Prefixes.
Variable table : list entry.

(** The name has a vendor prefix and names a table property that carries prefixes. *)
Definition vendor_name (n : string) : bool :=
  match split_prefix n with
  | (Unprefixed, _) => false
  | (_, r) => existsb (fun e => ieq r (e_name e) && e_vp e) table
  end.

(** [-webkit-all] and the like *)
Definition prefixed_all (n : string) : bool :=
  match split_prefix n with
  | (Unprefixed, _) => false
  | (_, r) => ieq r "all"
  end.

(** Some declaration at some depth has a name with property [f]. *)
Fixpoint mentions (f : string -> bool) (t : cv) : bool :=
  match t with
  | CParen body =>
      match body with CIdent n :: CColon :: _ => f n | _ => false end || existsb (mentions f) body
  | _ => false
  end.

(** An operand without vendor-prefixed declarations, or a negation *)
Definition plain_operand (t : cv) : bool :=
  negb (mentions vendor_name t)
  || match t with CParen (CIdent s :: _) => ieq s "not" | _ => false end.

(** The component values at even positions: the operands of a chain *)
Fixpoint evens {A} (l : list A) : list A :=
  match l with
  | [] => []
  | [x] => [x]
  | x :: _ :: r => x :: evens r
  end.

(** Vendor-prefixed declarations stand alone, under [not], or first in an [or]. *)
Definition separate (l : list cv) : bool :=
  match l with
  | [x] => true
  | CIdent s :: _ => true
  | x :: r =>
      forallb plain_operand (tl (evens l))
      && (plain_operand x || match r with CIdent s :: _ => negb (ieq s "and") | _ => true end)
  | [] => true
  end.
Fixpoint separated (t : cv) : bool :=
  match t with
  | CParen body => separate body && forallb separated body
  | _ => true
  end.
Definition separated_text (l : list cv) : bool := separate l && forallb separated l.
End Prefixes.

(** No declaration of the condition carries a vendor prefix or is an [all] *)
Fixpoint unprefixed (c : scond) : bool :=
  match c with
  | SNot x => unprefixed x
  | SAnd l | SOr l => forallb unprefixed l
  | SDecl (PVp _ p) _ => vs_eqb p (vs_one Unprefixed)
  | SDecl _ _ => true
  | _ => true
  end.

(** The property table has lower-case names that differ from [all] and do not start with two
    dashes. *)
Definition table_ok (table : list entry) : bool :=
  forallb (fun e => String.eqb (lower (e_name e)) (e_name e)
                    && negb (String.eqb (e_name e) "all")
                    && match strip_prefix "--" (e_name e) with Some _ => false | None => true end
                    && (e_vp e || match e_prefixes e with [] => e_unprefixed e | _ => false end)) table.
