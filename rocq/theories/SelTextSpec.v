(** * What selectors mean (Selectors 4): the elements they match and their specificity *)
From Coq Require Import List Bool ZArith Ascii String.
Import ListNotations.
From Verif Require Import SelTextModel.
Local Open Scope list_scope.

(** ** Matching *)
(** A document: its elements with their pseudo elements, how combinators relate them, which of them the simple selectors without
    arguments hold for, and how the matching siblings are counted.  Counting only depends on which elements match. *)
Record document := Document {
  element : Type;
  related : combinator -> element -> element -> Prop;
  basic : comp -> element -> Prop;
  counted : nth_type -> Z -> Z -> (element -> Prop) -> element -> Prop;
  counted_same : forall t a b P Q, (forall e, P e <-> Q e) -> forall e, counted t a b P e <-> counted t a b Q e
}.
Section Meaning.
Variable d : document.
Implicit Types e scope : element d.
(** Walking through a selector from left to right: [P] holds for the elements that the part read so far matches *)
Definition step (holds : comp -> element d -> Prop) (P : element d -> Prop) (c : comp) : element d -> Prop :=
  match c with
  | Comb k => fun e => exists e', P e' /\ related d k e' e
  | _ => fun e => P e /\ holds c e
  end.
(** [scope] is the element that [:scope] stands for.  In [:has()] a selector that starts with [:scope] and a combinator is one that
    starts with the combinator; without a combinator it is about descendants. *)
Fixpoint holds (scope : element d) (c : comp) {struct c} : element d -> Prop :=
  let matches_in (sc : element d) (s : sel) := fold_left (fun (P : element d -> Prop) c e => match c with Comb k => exists e', P e' /\ related d k e' e | _ => P e /\ holds sc c e end) s (fun _ => True) in
  let some (sc : element d) (l : list sel) e := fold_right (fun s (r : Prop) => matches_in sc s e \/ r) False l in
  match c with
  | AnyNs | Univ => fun _ => True
  | Scope => fun e => e = scope
  | Is l | Where l | Any _ l => fun e => some scope l e
  | Not l => fun e => ~ some scope l e
  | Has l => fun e => exists e', fold_right (fun s (r : Prop) =>
      (match s with Scope :: Comb _ :: _ => matches_in e s e'
       | _ => fold_left (fun (P : element d -> Prop) c x => match c with Comb k => exists y, P y /\ related d k y x | _ => P x /\ holds e c x end) s (fun x => exists y, y = e /\ related d Descendant y x) e'
       end) \/ r) False l
  | NthOf t a b l => fun e => counted d t a b (some scope l) e
  | Host (Some s) => fun e => basic d (Host None) e /\ matches_in scope s e
  | Slotted s => matches_in scope s
  | CueFn region s => fun e => basic d (PElement (if region then CueRegion else Cue)) e /\ matches_in scope s e
  | _ => fun e => basic d c e
  end.
Definition walk_from (scope : element d) (s : sel) (P : element d -> Prop) : element d -> Prop := fold_left (step (holds scope)) s P.
Definition matches (scope : element d) (s : sel) : element d -> Prop := walk_from scope s (fun _ => True).
End Meaning.

(** ** Specificity *)
Record spec := Spec { ids : nat; classes : nat; types : nat }.
Definition add (x y : spec) : spec := Spec (ids x + ids y) (classes x + classes y) (types x + types y).
Definition leb (x y : spec) : bool :=
  Nat.ltb (ids x) (ids y) || (Nat.eqb (ids x) (ids y) && (Nat.ltb (classes x) (classes y) || (Nat.eqb (classes x) (classes y) && Nat.leb (types x) (types y)))).
Definition larger (x y : spec) : spec := if leb x y then y else x.
Definition zero : spec := Spec 0 0 0.
Fixpoint comp_spec (c : comp) {struct c} : spec :=
  let sum (s : sel) := fold_right (fun c r => add (comp_spec c) r) zero s in
  let most (l : list sel) := fold_right (fun s r => larger (sum s) r) zero l in
  let anchored (l : list sel) := fold_right (fun s r => larger (match s with Scope :: Comb _ :: x => sum x | _ => sum s end) r) zero l in
  match c with
  | Comb _ | AnyNs | NoNs | Ns _ | Univ | Where _ | Nesting => zero
  | Local _ => Spec 0 0 1
  | Id _ => Spec 1 0 0
  | Class _ | AttrExists _ | AttrValue _ _ _ _ _ | AttrOther _ _ _ | Root | Empty | Scope | NthComp _ _ _ | PClass _ | Host None => Spec 0 1 0
  | Not l | Is l | Any _ l => most l
  | Has l => anchored l
  | NthOf _ _ _ l => add (Spec 0 1 0) (most l)
  | Host (Some s) => add (Spec 0 1 0) (sum s)
  | Slotted s | CueFn _ s => add (Spec 0 0 1) (sum s)
  | Part _ | PElement _ => Spec 0 0 1
  end.
Definition specificity (s : sel) : spec := fold_right (fun c r => add (comp_spec c) r) zero s.

(** ** Two selectors mean the same *)
Definition same_meaning (s s' : sel) : Prop :=
  (forall d scope e, matches d scope s e <-> matches d scope s' e) /\ specificity s = specificity s'.

(** ** Selectors that are written so that they can be read back *)
Definition leads_with_scope (s : sel) : bool := match s with Scope :: _ => true | _ => false end.
(** [:scope] does not stand first in a compound *)
Fixpoint scope_leads (start : bool) (s : sel) : bool :=
  match s with
  | [] => false
  | Comb _ :: r => scope_leads true r
  | Scope :: r => start || scope_leads false r
  | _ :: r => scope_leads false r
  end.
(** What [:has()] may hold: [:scope], if it stands first, is alone before a combinator that relative selectors know *)
Definition fine_relative (s : sel) : Prop :=
  match s with
  | Scope :: Comb (Child | NextSibling | LaterSibling | Descendant) :: r => scope_leads true r = false
  | _ => scope_leads true s = false
  end.
(** A [:scope] that stands first once what can be left out is left out: [*:scope > a] and [:is(:scope) > a] *)
Fixpoint unwraps_scope (c : comp) : bool := match c with Scope => true | Is [s] => existsb unwraps_scope s | _ => false end.
Fixpoint hidden_scope (s : sel) : bool := match s with [] | Comb _ :: _ => false | c :: r => unwraps_scope c || hidden_scope r end.
Definition no_hidden_scope (s : sel) : Prop :=
  match s with Scope :: Comb Descendant :: r => hidden_scope r = false | Scope :: Comb _ :: _ => True | _ => hidden_scope s = false end.
(** A namespace and [*] come after [&] only at the start of the selector *)
Definition fine_namespaces (s : sel) : Prop := forall a n b, s = a ++ Nesting :: n :: Univ :: b -> is_namespace n = true -> a = [].
(** The names that are written without escapes need none *)
Definition fine_class (cfg : config) (c : pclass) : Prop :=
  match c with
  | PlaceholderShown Moz | PlaceholderShown Ms => False
  | Lang l => Forall (fun s => s <> ""%string) l
  | CustomClass n | CustomClassFn n _ => cfg.(raw) n = [Ident n]
  | _ => True
  end.
Definition fine_element (cfg : config) (e : pelement) : Prop :=
  match e with CustomElement n | CustomElementFn n _ => cfg.(raw) n = [Ident n] | _ => True end.
Definition no_type (s : sel) : Prop := Forall (fun c => is_type c = false /\ is_namespace c = false) s.
(** [:is(p.x)] and [:is(svg|p)] *)
Definition starts_with_type (s : sel) : bool :=
  match s with
  | Local _ :: _ | Univ :: _ => true
  | (AnyNs | NoNs | Ns _) :: (Local _ | Univ) :: _ => true
  | _ => false
  end.
(** Only [:is(&div)] has a type behind something else *)
Definition types_first (l : list sel) : Prop :=
  forall s, l = [s] -> existsb is_comb s = false -> starts_with_type s = false -> no_type s.
Inductive fine_comp (cfg : config) : comp -> Prop :=
| fine_not l : Forall (fine_sel cfg) l -> fine_comp cfg (Not l)
| fine_is l : Forall (fine_sel cfg) l -> types_first l -> fine_comp cfg (Is l)
| fine_where l : Forall (fine_sel cfg) l -> fine_comp cfg (Where l)
| fine_any p l : Forall (fine_sel cfg) l -> fine_comp cfg (Any p l)
| fine_has l : Forall (fine_sel cfg) l -> Forall fine_relative l -> Forall no_hidden_scope l -> fine_comp cfg (Has l)
| fine_nth t a b : ((t = NthCol \/ t = NthLastCol) -> ~ (a = 0%Z /\ b = 1%Z)) -> fine_comp cfg (NthComp t a b)
| fine_nth_of t a b l : Forall (fine_sel cfg) l -> Forall (fun s => scope_leads true s = false) l -> fine_comp cfg (NthOf t a b l)
| fine_host s : fine_sel cfg s -> fine_comp cfg (Host (Some s))
| fine_slotted s : fine_sel cfg s -> fine_comp cfg (Slotted s)
| fine_cue r s : fine_sel cfg s -> fine_comp cfg (CueFn r s)
| fine_pclass c : fine_class cfg c -> fine_comp cfg (PClass c)
| fine_pelement e : fine_element cfg e -> fine_comp cfg (PElement e)
| fine_other c : (match c with Not _ | Is _ | Where _ | Any _ _ | Has _ | NthComp _ _ _ | NthOf _ _ _ _ | Host (Some _) | Slotted _ | CueFn _ _ | PClass _ | PElement _ => False | _ => True end) ->
    fine_comp cfg c
with fine_sel (cfg : config) : sel -> Prop :=
| fine_comps s : Forall (fine_comp cfg) s -> fine_namespaces s -> fine_sel cfg s.

(** The nesting selector stands in the selector itself or in the arguments of [:is()] and the like *)
Fixpoint nests (c : comp) : bool :=
  match c with
  | Nesting => true
  | Not l | Is l | Where l | Any _ l | Has l => existsb (existsb nests) l
  | Host (Some s) | Slotted s => existsb nests s
  | _ => false
  end.
