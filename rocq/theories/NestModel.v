(** * Model of the printing of nested selectors and rules for targets without nesting, and of the removal of
    rules with unused symbols (src/selector.rs 1398-1800 and 2186-2221, src/rules/style.rs, nesting.rs)

    Selectors are lists of components in source order; C29 shows how they are stored.  Names and conditions on
    one element are numbers.  Namespaces and vendor prefixes are left out.  A pseudo-element is one component
    instead of a combinator and a component.  The printed text is the list of the printed components; those
    that print nothing are not in it. *)
From Coq Require Import List Bool PeanoNat.
From Verif Require Import SelectorModel.
Import ListNotations.
Local Open Scope list_scope.

(** src/selector.rs, [Component].  [Atom]: classes, ids, attributes and pseudo-classes without selectors. *)
Inductive part :=
| Comb (k : comb)
| Univ
| Local (n : nat)
| Atom (n : nat)
| Pseudo (n : nat)
| Scope
| Nesting
| Is (l : list (list part))
| Where (l : list (list part))
| Any (l : list (list part))
| Not (l : list (list part))
| Has (l : list (list part))
| NthOf (n : nat) (l : list (list part))
| Host (s : list part)
| Slotted (s : list part).
Definition selector := list part.

(** selector.rs 1738-1771 *)
Definition is_type (c : part) : bool := match c with Univ | Local _ => true | _ => false end.
Definition has_type (s : selector) : bool := match s with c :: _ => is_type c | [] => false end.
Definition is_simple (s : selector) : bool :=
  forallb (fun c => match c with Comb _ | Pseudo _ | Slotted _ => false | _ => true end) s.
(** selector.rs 1693-1703 *)
Definition unwraps (l : list selector) : bool :=
  match l with [s] => negb (has_type s) && is_simple s | _ => false end.
Definition is_nesting (c : part) : bool := match c with Nesting => true | _ => false end.
Definition is_scope (c : part) : bool := match c with Scope => true | _ => false end.

(** selector.rs 1422-1423: the compounds and the combinators between them. *)
Fixpoint split (s : selector) : list (list part) * list comb :=
  match s with
  | [] => ([[]], [])
  | Comb k :: t => let (cs, ks) := split t in ([] :: cs, k :: ks)
  | c :: t => let (cs, ks) := split t in ((c :: hd [] cs) :: tl cs, ks)
  end.

Definition bind {A B} (x : option A) (f : A -> option B) : option B := match x with Some a => f a | None => None end.
Fixpoint map_opt {A B} (f : A -> option B) (l : list A) : option (list B) :=
  match l with [] => Some [] | x :: t => bind (f x) (fun y => bind (map_opt f t) (fun r => Some (y :: r))) end.
Definition app_opt {A} (x y : option (list A)) : option (list A) := bind x (fun a => bind y (fun b => Some (a ++ b))).

Section Compound.
(** [nest first]: what [serialize_nesting] prints; [one]: what [serialize_component] prints. *)
Variable nest : bool -> option (list part).
Variable one : part -> option (list part).

Definition all (l : list part) : option (list part) := option_map (@List.concat part) (map_opt one l).
(** selector.rs 1519-1527: universal selectors are not printed. *)
Definition elided (l : list part) : option (list part) := all (filter (fun c => match c with Univ => false | _ => true end) l).

(** selector.rs 1445-1529: one compound; [first]: no compound was printed before. *)
Definition compound (first : bool) (c : list part) : option (list part) :=
  let lead := first && match c with x :: _ => is_nesting x | [] => false end in
  let rest := if lead then tl c else c in
  match rest with
  | [Univ] => if lead then app_opt (one Univ) (nest false) else one Univ
  | _ =>
    if lead && match rest with x :: _ => is_type x | [] => false end
    then app_opt (all (firstn 1 rest)) (app_opt (one Nesting) (elided (skipn 1 rest)))
    else if lead then app_opt (nest true) (elided rest)
    else elided c
  end.

(** selector.rs 1425-1543.  [relative]: a leading [:scope] is not printed. *)
Fixpoint compounds (relative first : bool) (cs : list (list part)) (ks : list comb) : option (list part) :=
  match cs with
  | [] => Some []
  | c :: t =>
    let cut := relative && match c with x :: _ => is_scope x | [] => false end in
    let '(before, ks, c, relative) :=
      if cut then (match ks with k :: _ => [Comb k] | [] => [] end, tl ks, tl c, false) else ([], ks, c, relative) in
    match c with
    | [] => app_opt (Some before) (compounds relative first t ks)
    | _ =>
      app_opt (Some before)
        (app_opt (compound first c)
          (app_opt (Some (match ks with k :: _ => [Comb k] | [] => [] end)) (compounds relative false t (tl ks))))
    end
  end.
End Compound.

(** selector.rs 1398-1543, 1566-1691, 1705-1736.  [ctx] are the selector lists of the enclosing rules,
    the nearest first, [dest] those that the printer has; they differ inside of the selectors of the
    enclosing rules.  [None]: the stack overflows (for every fuel). *)
Fixpoint serialize (fuel : nat) (dest ctx : list (list selector)) (relative : bool) (s : selector) : option (list part) :=
  match fuel with
  | O => None
  | S f =>
    let nest first :=
      match ctx with
      | [] => Some [Scope]
      | l :: r =>
        match l with
        | [p] => if first || (negb (has_type p) && is_simple p) then serialize f dest r false p
                 else option_map (fun x => [Is x]) (map_opt (serialize f dest r false) l)
        | _ => option_map (fun x => [Is x]) (map_opt (serialize f dest r false) l)
        end
      end in
    let one c :=
      match c with
      | Is l => if unwraps l then serialize f dest ctx false (hd [] l)
                else option_map (fun x => [Is x]) (map_opt (serialize f dest ctx false) l)
      | Where l => option_map (fun x => [Where x]) (map_opt (serialize f dest ctx false) l)
      | Any l => option_map (fun x => [Any x]) (map_opt (serialize f dest ctx false) l)
      | Not l => option_map (fun x => [Not x]) (map_opt (serialize f dest ctx false) l)
      | Has l => option_map (fun x => [Has x]) (map_opt (serialize f dest ctx true) l)
      | NthOf n l => option_map (fun x => [NthOf n x]) (map_opt (serialize f dest ctx true) l)
      | Host x => option_map (fun x => [Host x]) (serialize f dest dest false x)
      | Slotted x => option_map (fun x => [Slotted x]) (serialize f dest dest false x)
      | Nesting => nest false
      | _ => Some [c]
      end in
    let (cs, ks) := split s in compounds nest one relative true cs ks
  end.
Definition serialize_list (fuel : nat) (ctx : list (list selector)) (l : list selector) : option (list (list part)) :=
  map_opt (serialize fuel ctx ctx false) l.

(** ** Rules *)
(** [Style]: selectors, declarations, nested rules; [Decls]: declarations after nested rules; [Cond]: a
    conditional group rule.  Declarations are numbers. *)
Inductive nrule :=
| Style (l : list selector) (b : list nat) (rules : list nrule)
| Decls (b : list nat)
| Cond (q : nat) (rules : list nrule).
(** What is printed. *)
Inductive prule :=
| PStyle (l : list (list part)) (b : list nat)
| PCond (q : nat) (rules : list prule).
Definition is_nil {A} (l : list A) : bool := match l with [] => true | _ => false end.

(** style.rs 243-303 and nesting.rs 83-120, where nesting is compiled.  Declarations without a style rule
    around them are not printed here. *)
Fixpoint print (fuel : nat) (ctx : list (list selector)) (r : nrule) : option (list prule) :=
  match r with
  | Style l b rules =>
    app_opt (if negb (is_nil b) || is_nil rules then bind (serialize_list fuel ctx l) (fun x => Some [PStyle x b]) else Some [])
            ((fix prints (rs : list nrule) : option (list prule) :=
                match rs with [] => Some [] | r :: t => app_opt (print fuel (l :: ctx) r) (prints t) end) rules)
  | Decls b =>
    match ctx with
    | l :: up => if is_nil b then Some [] else bind (serialize_list fuel up l) (fun x => Some [PStyle x b])
    | [] => Some []
    end
  | Cond q rules =>
    option_map (fun x => [PCond q x])
            ((fix prints (rs : list nrule) : option (list prule) :=
                match rs with [] => Some [] | r :: t => app_opt (print fuel ctx r) (prints t) end) rules)
  end.
Fixpoint prints (fuel : nat) (ctx : list (list selector)) (rs : list nrule) : option (list prule) :=
  match rs with [] => Some [] | r :: t => app_opt (print fuel ctx r) (prints fuel ctx t) end.

(** ** Unused symbols *)
(** selector.rs 2188-2221; [gone]: the unused symbols. *)
Section Unused.
Variable gone : list nat.
Variable parent : bool.
Fixpoint dead (c : part) : bool :=
  match c with
  | Atom n => existsb (Nat.eqb n) gone
  | Is l | Where l | Any l => forallb (fun s => existsb dead s) l
  | Nesting => parent
  | _ => false
  end.
Definition is_unused (l : list selector) : bool := negb (is_nil gone) && forallb (fun s => existsb dead s) l.
End Unused.

(** style.rs 56-105 and mod.rs 667-670, 836-848: what of a rule is left.  Only the removal is modelled here;
    [MinifyModel] has the rest. *)
Fixpoint prune (gone : list nat) (parent : bool) (r : nrule) : list nrule :=
  match r with
  | Style l b rules =>
    if parent then []
    else
      let un := is_unused gone parent l in
      if un && is_nil rules then []
      else
        let rules' := flat_map (prune gone un) rules in
        if un && is_nil rules' then [] else [Style l (if un then [] else b) rules']
  | Decls b => if parent then [] else [r]
  | Cond q rules =>
    match flat_map (prune gone parent) rules with [] => [] | x => [Cond q x] end
  end.
