(** * Minifying a whole declaration block (src/declaration.rs:238-262, 540-737) *)
From Coq Require Import List Bool PeanoNat.
Import ListNotations.

Section Block.
(** Declarations of ordinary properties, the tokens of unparsed values and custom properties, and
    [@supports] conditions *)
Variable A R Cond : Type.

(** [direction], [unicode-bidi] and [all] *)
Inductive special := SDirection | SBidi | SAll.
(** Declarations.  [Custom] has a name that starts with two dashes; other unknown names are [Plain].
    Names and keywords are numbers. *)
Inductive decl :=
| Plain (a : A)
| Direction (v : nat)
| Bidi (v : nat)
| All (kw : nat)
| Unparsed (p : special) (u : R)
| Custom (name : nat) (u : R).

(** Where declarations are added besides the block (context.rs:83-90, 156-181) *)
Inductive place := Ltr | Rtl | If (c : Cond).
Definition rules := list (place * decl).

(** One of the handlers (traits.rs, [PropertyHandler]): it reads and writes the list of declarations
    that all handlers share.  [None] means that it did not handle the property, and then it changed
    nothing. *)
Record handler := Handler {
  hstate : Type;
  hstart : hstate;
  hhandle : hstate -> list decl -> A -> option (hstate * list decl * rules);
  hfinish : hstate -> list decl -> hstate * list decl * rules
}.
Record running := Running { rhandler : handler; rstate : hstate rhandler }.
Definition restart (r : running) : running := Running (rhandler r) (hstart (rhandler r)).

(** context.rs:27-33 [DeclarationContext] *)
Inductive context := InRule | InAttribute | InKeyframes | Elsewhere.
Variable ctx : context.
(** [unused_symbols] (declaration.rs:619) *)
Variable unused : nat -> bool.
(** Equality of token lists *)
Variable req : R -> R -> bool.
(** [TokenList::get_fallbacks] (custom.rs:1052-1085): declarations for [@supports] rules, and the
    tokens that remain *)
Variable raw_fallbacks : R -> list (Cond * R) * R.

(** declaration.rs:543-575.  [customs] is the index map [custom_properties]. *)
Record state := State {
  handlers : list running;
  direction : option nat;
  bidi : option nat;
  customs : list (nat * nat);
  decls : list decl
}.
Definition set_decls (s : state) (hs : list running) (ds : list decl) : state :=
  State hs (direction s) (bidi s) (customs s) ds.

(** declaration.rs:583-609: the first handler that handles the property *)
Fixpoint try (hs : list running) (ds : list decl) (a : A) : option (list running * list decl * rules) :=
  match hs with
  | [] => None
  | Running h s :: r =>
      match hhandle h s ds a with
      | Some (s', ds', x) => Some (Running h s' :: r, ds', x)
      | None => match try r ds a with Some (r', ds', x) => Some (Running h s :: r', ds', x) | None => None end
      end
  end.

(** declaration.rs:676-693 [add_conditional_fallbacks] and context.rs:156-159 *)
Definition custom_fallbacks (name : nat) (u : R) : rules * R :=
  match ctx with
  | InKeyframes => ([], u)
  | _ =>
      let (l, u') := raw_fallbacks u in
      (match ctx with InRule => map (fun cu => (If (fst cu), Custom name (snd cu))) l | _ => [] end, u')
  end.
Definition lookup (name : nat) (m : list (nat * nat)) : option nat :=
  match find (fun p => Nat.eqb (fst p) name) m with Some p => Some (snd p) | None => None end.
Definition replace (l : list decl) (i : nat) (d : decl) : list decl := firstn i l ++ d :: skipn (S i) l.
(** declaration.rs:613-642 [handle_custom_property] *)
Definition same_custom (ds : list decl) (i : nat) (name : nat) (u : R) : bool :=
  match nth_error ds i with Some (Custom name' u') => Nat.eqb name' name && req u' u | _ => false end.
Definition handle_custom (s : state) (name : nat) (u : R) : state * rules :=
  if unused name then (s, [])
  else match lookup name (customs s) with
  | Some i =>
      if same_custom (decls s) i name u then (s, [])
      else let (x, u') := custom_fallbacks name u in (set_decls s (handlers s) (replace (decls s) i (Custom name u')), x)
  | None =>
      let (x, u') := custom_fallbacks name u in
      (State (handlers s) (direction s) (bidi s) (customs s ++ [(name, length (decls s))]) (decls s ++ [Custom name u']), x)
  end.
(** declaration.rs:656-670: the custom properties in the order of the map, with their new indices.  An
    index is always in the list (BlockProofs.v, [customs_ok]). *)
Definition kept_customs (m : list (nat * nat)) (ds : list decl) : list decl :=
  flat_map (fun p => match nth_error ds (snd p) with Some d => [d] | None => [] end) m.
Definition reset (s : state) (kw : nat) : state :=
  State (map restart (handlers s)) (direction s) (bidi s)
        (combine (map fst (customs s)) (seq 0 (length (customs s))))
        (kept_customs (customs s) (decls s) ++ [All kw]).

(** declaration.rs:577-611 [handle_property], and the push of what nothing handles
    (declaration.rs:246-250).  Simplification: the handlers know none of the special properties and
    custom properties. *)
Definition handle (s : state) (d : decl) : state * rules :=
  match d with
  | Plain a =>
      match try (handlers s) (decls s) a with
      | Some (hs, ds, x) => (set_decls s hs ds, x)
      | None => (set_decls s (handlers s) (decls s ++ [d]), [])
      end
  | Direction v => (State (handlers s) (Some v) (bidi s) (customs s) (decls s), [])
  | Bidi v => (State (handlers s) (direction s) (Some v) (customs s) (decls s), [])
  | All kw => (reset s kw, [])
  | Unparsed _ _ => (set_decls s (handlers s) (decls s ++ [d]), [])
  | Custom name u => handle_custom s name u
  end.
Fixpoint handle_all (s : state) (l : list decl) : state * rules :=
  match l with
  | [] => (s, [])
  | d :: r => let (s1, x) := handle s d in let (s2, y) := handle_all s1 r in (s2, x ++ y)
  end.

(** declaration.rs:695-736 [finalize] *)
Fixpoint finish_all (hs : list running) (ds : list decl) : list running * list decl * rules :=
  match hs with
  | [] => ([], ds, [])
  | Running h s :: r =>
      let '(s', ds1, x) := hfinish h s ds in
      let '(r', ds2, y) := finish_all r ds1 in
      (Running h s' :: r', ds2, x ++ y)
  end.
Definition opt {B C} (f : B -> C) (o : option B) : list C := match o with Some b => [f b] | None => [] end.
Definition finish (s : state) : list running * list decl * rules :=
  finish_all (handlers s) (decls s ++ opt Direction (direction s) ++ opt Bidi (bidi s)).

(** One list of declarations, with handlers that may have been used before *)
Definition begin (hs : list running) : state := State hs None None [] [].
Definition minify (hs : list running) (l : list decl) : list running * list decl * rules :=
  let (s, x) := handle_all (begin hs) l in
  let '(hs', ds, y) := finish s in (hs', ds, x ++ y).

(** declaration.rs:238-262 [DeclarationBlock::minify]: two sets of handlers share the additional rules *)
Record minified := Minified { m_normal : list decl; m_important : list decl; m_rules : rules }.
Definition minify_block (hs hi : list running) (normal important : list decl) : minified :=
  let (si, xi) := handle_all (begin hi) important in
  let (s, x) := handle_all (begin hs) normal in
  let '(_, ds, y) := finish s in
  let '(_, di, yi) := finish si in
  Minified ds di (xi ++ x ++ y ++ yi).
End Block.
Arguments Plain {A R}. Arguments Direction {A R}. Arguments Bidi {A R}. Arguments All {A R}. Arguments Unparsed {A R}. Arguments Custom {A R}.
Arguments Ltr {Cond}. Arguments Rtl {Cond}. Arguments If {Cond}.
Arguments Handler {A R Cond}. Arguments hstate {A R Cond}. Arguments hstart {A R Cond}. Arguments hhandle {A R Cond}. Arguments hfinish {A R Cond}.
Arguments Running {A R Cond}. Arguments rhandler {A R Cond}. Arguments rstate {A R Cond}. Arguments restart {A R Cond}.
Arguments State {A R Cond}. Arguments handlers {A R Cond}. Arguments direction {A R Cond}. Arguments bidi {A R Cond}. Arguments customs {A R Cond}. Arguments decls {A R Cond}.
Arguments set_decls {A R Cond}. Arguments try {A R Cond}. Arguments replace {A R}. Arguments finish_all {A R Cond}. Arguments finish {A R Cond}. Arguments begin {A R Cond}.
Arguments kept_customs {A R}. Arguments reset {A R Cond}. Arguments Minified {A R Cond}. Arguments m_normal {A R Cond}. Arguments m_important {A R Cond}. Arguments m_rules {A R Cond}.
Arguments same_custom {A R}. Arguments custom_fallbacks {A R Cond}. Arguments handle_custom {A R Cond}. Arguments handle {A R Cond}. Arguments handle_all {A R Cond}.
Arguments minify {A R Cond}. Arguments minify_block {A R Cond}.
