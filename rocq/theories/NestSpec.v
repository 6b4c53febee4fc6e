(** * What nested selectors, rules and printed selectors mean

    Written from Selectors 4 and CSS Nesting, without reference to the printer. *)
From Coq Require Import List Bool PeanoNat NArith.
From Verif Require Import SelectorModel SelectorSpec NestModel.
Import ListNotations.
Local Open Scope list_scope.

(** A document: how elements (and pseudo-elements) are related, what is true of each, and which it is that
    [:scope] stands for.  [nth n S e]: [:nth-child(n of S)]. *)
Record world (E : Type) := {
  related : comb -> E -> E -> Prop;
  local : nat -> E -> Prop;
  atom : nat -> E -> Prop;
  pseudo : nat -> E -> Prop;
  host : E -> Prop;
  slotted : E -> Prop;
  root : E -> Prop;
  nth : nat -> (E -> Prop) -> E -> Prop
}.
Arguments related {E}. Arguments local {E}. Arguments atom {E}. Arguments pseudo {E}. Arguments host {E}. Arguments slotted {E}.
Arguments root {E}. Arguments nth {E}.
(** [:nth-child(n of S)] depends on what [S] matches. *)
Definition extensional {E} (w : world E) : Prop :=
  forall n A B e, (forall x, A x <-> B x) -> nth w n A e -> nth w n B e.

Section Meaning.
Context {E : Type} (w : world E).
(** [text]: printed selectors, where relative selectors begin with a combinator and [:scope] is always the
    scoping root.  Otherwise a relative selector with a combinator begins with an implicit [:scope]. *)
Variable text : bool.
(** What [&] stands for. *)
Variable amp : E -> Prop.

(** A selector is read from left to right: [P] is true of the elements where what was read so far can end. *)
Definition moved (k : comb) (P : E -> Prop) : E -> Prop := fun e => exists x, related w k x e /\ P x.
Section Run.
Variable sem : part -> E -> Prop.
Definition read_part (P : E -> Prop) (c : part) : E -> Prop :=
  match c with
  | Comb k => moved k P
  | Pseudo _ => fun e => moved PseudoElement P e /\ sem c e
  | Slotted _ => fun e => moved SlotAssignment P e /\ sem c e
  | _ => fun e => P e /\ sem c e
  end.
Definition run (P : E -> Prop) (s : list part) : E -> Prop := fold_left read_part s P.
Definition ends (s : list part) : E -> Prop := run (fun _ => True) s.
Fixpoint some (l : list (list part)) (e : E) : Prop :=
  match l with [] => False | s :: t => ends s e \/ some t e end.
(** A relative selector, from the element [e]; without a combinator it is about descendants. *)
Definition from (s : list part) (e x : E) : Prop :=
  match s with
  | Scope :: ((Comb _ :: _) as r) => if text then run (moved Descendant (eq e)) s x else run (eq e) r x
  | Comb _ :: _ => run (eq e) s x
  | _ => run (moved Descendant (eq e)) s x
  end.
Fixpoint somewhere (l : list (list part)) (e : E) : Prop :=
  match l with [] => False | s :: t => (exists x, from s e x) \/ somewhere t e end.
End Run.
Fixpoint sem (c : part) (e : E) {struct c} : Prop :=
  match c with
  | Comb _ => False
  | Univ => True
  | Local n => local w n e
  | Atom n => atom w n e
  | Pseudo n => pseudo w n e
  | Scope => root w e
  | Nesting => amp e
  | Is l | Where l | Any l => some sem l e
  | Not l => ~ some sem l e
  | Has l => somewhere sem l e
  | NthOf n l => nth w n (some sem l) e
  | Host s => host w e /\ ends sem s e
  | Slotted s => slotted w e /\ ends sem s e
  end.
End Meaning.

(** What [&] stands for inside rules with the selectors [ctx], the nearest first. *)
Fixpoint enclosing {E} (w : world E) (ctx : list (list selector)) : E -> Prop :=
  match ctx with
  | [] => root w
  | l :: r => some w (sem w false (enclosing w r)) l
  end.
(** A selector inside of rules. *)
Definition nested {E} (w : world E) (ctx : list (list selector)) (s : selector) : E -> Prop :=
  ends w (sem w false (enclosing w ctx)) s.
(** A printed selector. *)
Definition printed {E} (w : world E) (t : list part) : E -> Prop := ends w (sem w true (fun _ => False)) t.

(** ** Printed selectors that can be read *)
(** [start]: at the start of a compound, the only place for a type selector. *)
Definition next (start : bool) (c : part) : option bool :=
  match c with
  | Comb _ => if start then None else Some true
  | Univ | Local _ => if start then Some false else None
  | Nesting => None
  | _ => Some false
  end.
Fixpoint scan (start : bool) (t : list part) : option bool :=
  match t with [] => Some start | c :: r => match next start c with Some b => scan b r | None => None end end.
Definition complete (t : list part) : bool := match scan true t with Some false => true | _ => false end.
Definition plain (t : list part) : bool := forallb (fun c => match c with Pseudo _ | Slotted _ => false | _ => true end) t.
Definition one_compound (t : list part) : bool := forallb (fun c => match c with Comb _ => false | _ => true end) t.
Definition after_comb (t : list part) : list part := match t with Comb _ :: r => r | _ => t end.
(** Arguments are selectors without pseudo-elements. *)
Fixpoint well_argued (c : part) : bool :=
  match c with
  | Is l | Where l | Any l | Not l | NthOf _ l => forallb (fun s => complete s && plain s && forallb well_argued s) l
  | Has l => forallb (fun s => complete (after_comb s) && plain s && forallb well_argued s) l
  | Host s | Slotted s => complete s && plain s && one_compound s && forallb well_argued s
  | _ => true
  end.
Definition readable (t : list part) : bool := complete t && forallb well_argued t.

(** ** Specificity *)
Section Specificity.
Variable weight : nat -> triple.
Variable text : bool.
Variable amp : triple.
Local Open Scope N_scope.
Section Sum.
Variable spec : part -> triple.
Fixpoint total (s : list part) : triple := match s with [] => (0, 0, 0) | c :: r => t_add (spec c) (total r) end.
Fixpoint most (l : list (list part)) : triple := match l with [] => (0, 0, 0) | s :: r => t_max (total s) (most r) end.
(** The implicit [:scope] does not count. *)
Fixpoint most_relative (l : list (list part)) : triple :=
  match l with
  | [] => (0, 0, 0)
  | s :: r => t_max (match s with Scope :: ((Comb _ :: _) as x) => if text then total s else total x | _ => total s end) (most_relative r)
  end.
End Sum.
Fixpoint specificity (c : part) : triple :=
  match c with
  | Comb _ | Univ => (0, 0, 0)
  | Local _ | Pseudo _ => (0, 0, 1)
  | Atom n => weight n
  | Scope => (0, 1, 0)
  | Nesting => amp
  | Is l | Any l | Not l => most specificity l
  | Has l => most_relative specificity l
  | Where _ => (0, 0, 0)
  | NthOf _ l => t_add (0, 1, 0) (most specificity l)
  | Host s => t_add (0, 1, 0) (total specificity s)
  | Slotted s => t_add (0, 0, 1) (total specificity s)
  end.
End Specificity.
(** The specificity of [&]; nothing without an enclosing rule. *)
Fixpoint enclosing_spec (weight : nat -> triple) (ctx : list (list selector)) : triple :=
  match ctx with
  | [] => (0, 0, 0)%N
  | l :: r => most (specificity weight false (enclosing_spec weight r)) l
  end.
Definition nested_spec (weight : nat -> triple) (ctx : list (list selector)) (s : selector) : triple :=
  total (specificity weight false (enclosing_spec weight ctx)) s.
Definition printed_spec (weight : nat -> triple) (t : list part) : triple := total (specificity weight true (0, 0, 0)%N) t.

(** ** Rules *)
(** A block of declarations as an element sees it: the conditions around it, the declarations, and with which
    specificity they apply to which elements. *)
Record applied (E : Type) := { conditions : list nat; declarations : list nat; applies : E -> triple -> Prop }.
Arguments conditions {E}. Arguments declarations {E}. Arguments applies {E}.
Definition by_selectors {E} (w : world E) (weight : nat -> triple) (ctx : list (list selector)) (l : list selector) (e : E) (x : triple) : Prop :=
  exists s, In s l /\ nested w ctx s e /\ nested_spec weight ctx s = x.
Definition block {E} (qs : list nat) (b : list nat) (A : E -> triple -> Prop) : list (applied E) :=
  if is_nil b then [] else [{| conditions := qs; declarations := b; applies := A |}].
Fixpoint nested_blocks {E} (w : world E) (weight : nat -> triple) (ctx : list (list selector)) (qs : list nat) (r : nrule) : list (applied E) :=
  match r with
  | Style l b rules => block qs b (by_selectors w weight ctx l) ++ flat_map (nested_blocks w weight (l :: ctx) qs) rules
  | Decls b => match ctx with l :: up => block qs b (by_selectors w weight up l) | [] => [] end
  | Cond q rules => flat_map (nested_blocks w weight ctx (q :: qs)) rules
  end.
(** A printed rule with a selector that cannot be read is ignored. *)
Fixpoint printed_blocks {E} (w : world E) (weight : nat -> triple) (qs : list nat) (r : prule) : list (applied E) :=
  match r with
  | PStyle l b =>
    block qs b (fun e x => forallb readable l = true /\ exists t, In t l /\ printed w t e /\ printed_spec weight t = x)
  | PCond q rules => flat_map (printed_blocks w weight (q :: qs)) rules
  end.
Definition same_block {E} (a b : applied E) : Prop :=
  conditions a = conditions b /\ declarations a = declarations b /\ forall e x, applies a e x <-> applies b e x.

(** ** Selectors for which printing is right *)
(** Types are at the start of compounds, or after the [&] at the start of the selector. *)
Definition step (n : nat) (c : part) : option nat :=
  match n, c with
  | (0 | 3), Comb _ => None
  | _, Comb _ => Some 3
  | 2, (Univ | Local _) => None
  | _, (Univ | Local _) => Some 2
  | 0, Nesting => Some 1
  | _, _ => Some 2
  end.
Fixpoint steps (n : nat) (s : selector) : option nat :=
  match s with [] => Some n | c :: r => match step n c with Some m => steps m r | None => None end end.
Definition shaped (s : selector) : bool := match steps 0 s with Some (1 | 2) => true | _ => false end.
Definition starts_with (p : part -> bool) (s : selector) : bool := match s with c :: _ => p c | [] => false end.

(** A selector that is one compound, also when the [&] at its start is replaced. *)
Fixpoint single (ctx : list (list selector)) (s : selector) : Prop :=
  is_simple s = true /\
  (starts_with is_nesting s = true -> match ctx with [p] :: r => single r p | _ => True end).
(** And no type selector comes first. *)
Fixpoint typeless (ctx : list (list selector)) (s : selector) : Prop :=
  has_type s = false /\
  (starts_with is_nesting s = true -> has_type (tl s) = false /\ match ctx with [p] :: r => typeless r p | _ => True end).
(** What replaces [&] inside of a selector is one compound without a type. *)
Definition replaceable (ctx : list (list selector)) : Prop :=
  match ctx with
  | [p] :: r => has_type p = false -> is_simple p = true -> single r p /\ typeless r p
  | _ => True
  end.
(** What replaces a leading [&] is one compound. *)
Definition leads_single (ctx : list (list selector)) (s : selector) : Prop :=
  starts_with is_nesting s = true -> has_type (tl s) = false -> match ctx with [p] :: r => single r p | _ => True end.
Definition drop_scope (s : selector) : selector := match s with Scope :: ((Comb _ :: r)) => r | _ => s end.
Fixpoint nest_free (c : part) : bool :=
  match c with
  | Nesting => false
  | Is l | Where l | Any l | Not l | NthOf _ l | Has l => forallb (forallb nest_free) l
  | Host s | Slotted s => forallb nest_free s
  | _ => true
  end.

Section Fine.
Variable ctx : list (list selector).
Section In.
Variable fine : part -> Prop.
Fixpoint fine_parts (s : list part) : Prop := match s with [] => True | c :: r => fine c /\ fine_parts r end.
(** A leading [&] may be replaced by any selector, except before a type. *)
Definition fine_selector (s : selector) : Prop :=
  match s with
  | Nesting :: r => (has_type r = true -> replaceable ctx) /\ fine_parts r
  | _ => fine_parts s
  end.
Fixpoint fine_args (l : list selector) : Prop :=
  match l with [] => True | s :: t => (shaped s = true /\ plain s = true /\ fine_selector s) /\ fine_args t end.
Definition fine_relative (s : selector) : Prop :=
  match s with
  | Scope :: (Comb _ :: r) => shaped r = true /\ plain r = true /\ fine_selector r /\ forallb (fun c => negb (is_scope c)) r = true /\ leads_single ctx r
  | _ => shaped s = true /\ plain s = true /\ fine_selector s /\ forallb (fun c => negb (is_scope c)) s = true /\ leads_single ctx s
  end.
Fixpoint fine_relatives (l : list selector) : Prop :=
  match l with [] => True | s :: t => fine_relative s /\ fine_relatives t end.
Fixpoint no_scopes (l : list selector) : Prop :=
  match l with [] => True | s :: t => forallb (fun c => negb (is_scope c)) s = true /\ no_scopes t end.
End In.
Fixpoint fine (c : part) : Prop :=
  match c with
  | Nesting => replaceable ctx
  | Is l => fine_args fine l /\ (unwraps l = true -> single ctx (hd [] l) /\ typeless ctx (hd [] l))
  | Where l | Any l | Not l => fine_args fine l
  | NthOf _ l => fine_args fine l /\ no_scopes l
  | Has l => fine_relatives fine l
  | Host s | Slotted s => fine_args fine [s] /\ forallb nest_free s = true /\ one_compound s = true
  | _ => True
  end.
End Fine.
Definition fine_in (ctx : list (list selector)) (s : selector) : Prop := shaped s = true /\ fine_selector ctx (fine ctx) s.
(** The selectors of the enclosing rules. *)
Fixpoint fine_context (ctx : list (list selector)) : Prop :=
  match ctx with
  | [] => True
  | l :: r => Forall (fun s => fine_in r s /\ plain s = true) l /\ fine_context r
  end.
(** No [&] is outside of all rules. *)
Fixpoint rooted (ctx : list (list selector)) : Prop :=
  match ctx with
  | [] => False
  | [l] => Forall (fun s => forallb nest_free s = true) l
  | _ :: r => rooted r
  end.
Definition closed_in (ctx : list (list selector)) (s : selector) : Prop :=
  match ctx with [] => forallb nest_free s = true | _ => rooted ctx end.
(** Rules whose selectors, and those of the rules around them, are like that. *)
Fixpoint fine_rule (ctx : list (list selector)) (r : nrule) : Prop :=
  match r with
  | Style l _ rules =>
    Forall (fun s => fine_in ctx s /\ closed_in ctx s) l
    /\ (rules = [] \/ Forall (fun s => plain s = true) l)
    /\ (fix fine_rules (rs : list nrule) : Prop := match rs with [] => True | r :: t => fine_rule (l :: ctx) r /\ fine_rules t end) rules
  | Decls _ => True
  | Cond _ rules =>
    (fix fine_rules (rs : list nrule) : Prop := match rs with [] => True | r :: t => fine_rule ctx r /\ fine_rules t end) rules
  end.

(** ** Selectors that can be printed at all *)
(** No [&] is inside of [:host()] or [::slotted()]. *)
Fixpoint hosts_free (c : part) : bool :=
  match c with
  | Is l | Where l | Any l | Not l | NthOf _ l | Has l => forallb (forallb hosts_free) l
  | Host s | Slotted s => forallb nest_free s && forallb hosts_free s
  | _ => true
  end.

(** ** Removed blocks *)
(** The second list is the first without blocks that apply to nothing. *)
Inductive trimmed {E} : list (applied E) -> list (applied E) -> Prop :=
| trimmed_nil : trimmed [] []
| trimmed_keep : forall a b l r, same_block a b -> trimmed l r -> trimmed (a :: l) (b :: r)
| trimmed_drop : forall a l r, (forall e x, ~ applies a e x) -> trimmed l r -> trimmed (a :: l) r.
(** No element has one of the symbols. *)
Definition absent {E} (w : world E) (gone : list nat) : Prop := forall n e, In n gone -> ~ atom w n e.
(** Selectors that match nothing if the enclosing ones match nothing: they have [&], or an absent symbol, in a
    place where it must match. *)
Section Bound.
Variable gone : list nat.
Fixpoint needs (c : part) : bool :=
  match c with
  | Atom n => existsb (Nat.eqb n) gone
  | Nesting => true
  | Is l | Where l | Any l => forallb (existsb needs) l
  | _ => false
  end.
Fixpoint bound (r : nrule) : bool :=
  match r with
  | Style l _ rules => forallb (existsb needs) l && forallb bound rules
  | Decls _ => true
  | Cond _ rules => forallb bound rules
  end.
(** Every selector without such a symbol: rules inside of unused rules are bound to them. *)
Fixpoint lacks (c : part) : bool :=
  match c with
  | Atom n => existsb (Nat.eqb n) gone
  | Is l | Where l | Any l => forallb (existsb lacks) l
  | _ => false
  end.
Fixpoint bound_inside (r : nrule) : bool :=
  match r with
  | Style l _ rules => if forallb (existsb lacks) l then forallb bound rules else forallb bound_inside rules
  | Decls _ => true
  | Cond _ rules => forallb bound_inside rules
  end.
(** No selector list has absent symbols only. *)
Fixpoint live (r : nrule) : bool :=
  match r with
  | Style l _ rules => negb (forallb (existsb lacks) l) && forallb live rules
  | Decls _ => true
  | Cond _ rules => forallb live rules
  end.
End Bound.

(** ** Chains of elements, each inside the one before it, with their classes *)
Definition chain (classes : list (list nat)) : world nat := {|
  related k x e := match k with Child => e = S x | Descendant => x < e | _ => False end;
  local _ _ := False;
  atom n e := In n (List.nth e classes []);
  pseudo _ _ := False;
  host _ := False;
  slotted _ := False;
  root e := e = 0;
  nth _ _ _ := False
|}.
