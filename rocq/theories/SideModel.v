(** * The handlers of box sides: margin, padding, scroll-margin, scroll-padding and inset
    (src/properties/margin_padding.rs) *)
From Coq Require Import List Bool.
Import ListNotations.

Inductive side := Top | Bottom | Left | Right.
Inductive lside := BlockStart | BlockEnd | InlineStart | InlineEnd.
(** logical.rs:1-12 *)
Inductive category := Logical | Physical.
Definition cat_eqb (a b : category) : bool :=
  match a, b with Logical, Logical | Physical, Physical => true | _, _ => false end.
Definition side_eqb (a b : side) : bool :=
  match a, b with Top, Top | Bottom, Bottom | Left, Left | Right, Right => true | _, _ => false end.
Definition lside_eqb (a b : lside) : bool :=
  match a, b with
  | BlockStart, BlockStart | BlockEnd, BlockEnd | InlineStart, InlineStart | InlineEnd, InlineEnd => true
  | _, _ => false
  end.

(** The eleven properties of one handler: sides, logical sides, [margin-block], [margin-inline],
    [margin] *)
Inductive sid := ISide (s : side) | ILog (l : lside) | IBlock | IInline | IAll.

Section Values.
(** Parsed values, and the tokens of unparsed values *)
Variable V R : Type.
Variable veq : V -> V -> bool.
(** [is_compatible] with the targets; always true without targets *)
Variable compat : V -> bool.
(** The macro's [$shorthand_category]: Logical for [inset] only (margin_padding.rs:395-485) *)
Variable shorthand_category : category.
(** [should_compile_logical] of the two features; constant while a block is minified *)
Variable logical_supported block_supported : bool.

Inductive sdecl :=
| DSide (s : side) (v : V)
| DLog (l : lside) (v : V)
| DBlock (a b : V)
| DInline (a b : V)
| DAll (top right bottom left : V)
| DRaw (i : sid) (u : R).

(** A logical field holds a property that is parsed or unparsed *)
Inductive lval := LVal (v : V) | LRaw (u : R).
(** margin_padding.rs:167-179 *)
Record state := State {
  phys : side -> option V;
  log : lside -> option lval;
  has_any : bool;
  cat : category
}.

(** What the handler pushes, in order: a declaration to the block, or a pair of declarations to the
    [:dir(ltr)] and [:dir(rtl)] rules (context.rs:83-86) *)
Inductive event := Main (d : sdecl) | Dir (l r : sdecl).

Definition is_some {A} (o : option A) : bool := match o with Some _ => true | None => false end.
Definition none_phys : side -> option V := fun _ => None.
Definition none_log : lside -> option lval := fun _ => None.
Definition ldecl (l : lside) (x : lval) : sdecl := match x with LVal v => DLog l v | LRaw u => DRaw (ILog l) u end.
Definition pdecl (s : side) (x : lval) : sdecl := match x with LVal v => DSide s v | LRaw u => DRaw (ISide s) u end.
Definition opt {A} (f : A -> event) (o : option A) : list event := match o with Some x => [f x] | None => [] end.

(** margin_padding.rs:303-325: the physical sides *)
Definition flush_phys (s : state) : list event :=
  match phys s Top, phys s Right, phys s Bottom, phys s Left with
  | Some t, Some r, Some b, Some l =>
      if negb (cat_eqb shorthand_category Logical) || logical_supported then [Main (DAll t r b l)]
      else [Main (DSide Top t); Main (DSide Bottom b); Main (DSide Left l); Main (DSide Right r)]
  | t, r, b, l =>
      opt (fun v => Main (DSide Top v)) t ++ opt (fun v => Main (DSide Bottom v)) b
      ++ opt (fun v => Main (DSide Left v)) l ++ opt (fun v => Main (DSide Right v)) r
  end.
(** margin_padding.rs:332-352 [logical_side!] *)
Definition logical_side (s : state) (start end_ : lside) (shorthand : V -> V -> sdecl) : list event :=
  match log s start, log s end_, block_supported with
  | Some (LVal a), Some (LVal b), true => [Main (shorthand a b)]
  | a, b, _ => opt (fun x => Main (ldecl start x)) a ++ opt (fun x => Main (ldecl end_ x)) b
  end.
(** margin_padding.rs:368-412: the block and inline sides *)
Definition flush_block (s : state) : list event :=
  if logical_supported then logical_side s BlockStart BlockEnd DBlock
  else opt (fun x => Main (pdecl Top x)) (log s BlockStart) ++ opt (fun x => Main (pdecl Bottom x)) (log s BlockEnd).
Definition same_inline (s : state) : bool :=
  match log s InlineStart, log s InlineEnd with
  | Some (LVal a), Some (LVal b) => veq a b
  | _, _ => false
  end.
Definition flush_inline (s : state) : list event :=
  if logical_supported then logical_side s InlineStart InlineEnd DInline
  else if same_inline s then
    opt (fun x => Main (pdecl Left x)) (log s InlineStart) ++ opt (fun x => Main (pdecl Right x)) (log s InlineEnd)
  else
    opt (fun x => Dir (pdecl Left x) (pdecl Right x)) (log s InlineStart)
    ++ opt (fun x => Dir (pdecl Right x) (pdecl Left x)) (log s InlineEnd).
(** margin_padding.rs:289-415 [flush] *)
Definition flush (s : state) : state * list event :=
  if has_any s then (State none_phys none_log false (cat s), flush_phys s ++ flush_block s ++ flush_inline s)
  else (s, []).

Definition then_ (p : state * list event) (f : state -> state * list event) : state * list event :=
  let (s, e) := p in let (s', e') := f s in (s', e ++ e').

(** margin_padding.rs:186-195 [flush!] *)
Definition flush_for (some : state -> bool) (v : V) (c : category) (s : state) : state * list event :=
  if negb (cat_eqb c (cat s)) || (some s && negb (compat v)) then flush s else (s, []).
Definition set_phys (k : side) (v : V) (s : state) : side -> option V :=
  fun x => if side_eqb k x then Some v else phys s x.
Definition set_log (k : lside) (v : lval) (s : state) : lside -> option lval :=
  fun x => if lside_eqb k x then Some v else log s x.
(** margin_padding.rs:197-204 [property!] *)
Definition property (k : side) (v : V) (s : state) : state * list event :=
  then_ (flush_for (fun s => is_some (phys s k)) v Physical s)
        (fun s => (State (set_phys k v s) (log s) true Physical, [])).
(** margin_padding.rs:206-217 [logical_property!] *)
Definition is_raw (x : lval) : bool := match x with LRaw _ => true | LVal _ => false end.
Definition logical_property (k : lside) (x : lval) (s : state) : state * list event :=
  then_ (if negb (cat_eqb (cat s) Logical) || (is_some (log s k) && is_raw x) then flush s else (s, []))
        (fun s => (State (phys s) (set_log k x s) true Logical, [])).
Definition flush_log (k : lside) (v : V) (s : state) : state * list event :=
  flush_for (fun s => is_some (log s k)) v Logical s.
Definition flush_side (k : side) (v : V) (s : state) : state * list event :=
  flush_for (fun s => is_some (phys s k)) v shorthand_category s.

(** margin_padding.rs:183-285 [handle_property], for the properties of the handler *)
Definition handle (s : state) (d : sdecl) : state * list event :=
  match d with
  | DSide k v => property k v s
  | DLog k v => then_ (flush_log k v s) (logical_property k (LVal v))
  | DBlock a b =>
      then_ (then_ (then_ (flush_log BlockStart a s) (flush_log BlockEnd b))
              (logical_property BlockStart (LVal a)))
            (logical_property BlockEnd (LVal b))
  | DInline a b =>
      then_ (then_ (then_ (flush_log InlineStart a s) (flush_log InlineEnd b))
              (logical_property InlineStart (LVal a)))
            (logical_property InlineEnd (LVal b))
  | DAll t r b l =>
      then_ (then_ (then_ (then_ (flush_side Top t s) (flush_side Right r)) (flush_side Bottom b)) (flush_side Left l))
            (fun s => (State (fun x => Some (match x with Top => t | Right => r | Bottom => b | Left => l end))
                             none_log true (cat s), []))
  | DRaw (ILog k) u => logical_property k (LRaw u) s
  | DRaw _ _ => then_ (flush s) (fun s => (s, [Main d]))
  end.
Fixpoint handle_all (s : state) (l : list sdecl) : state * list event :=
  match l with
  | [] => (s, [])
  | d :: r => then_ (handle s d) (fun s => handle_all s r)
  end.
(** A whole block: [handle_property] for each, then [finalize] (margin_padding.rs:283-285).  The
    category is left over from the block before (the handlers are reused, rules/mod.rs). *)
Definition minify (c : category) (l : list sdecl) : state * list event :=
  then_ (handle_all (State none_phys none_log false c) l) flush.

Definition mains (e : list event) : list sdecl := flat_map (fun x => match x with Main d => [d] | Dir _ _ => [] end) e.
Definition ltrs (e : list event) : list sdecl := flat_map (fun x => match x with Main _ => [] | Dir l _ => [l] end) e.
Definition rtls (e : list event) : list sdecl := flat_map (fun x => match x with Main _ => [] | Dir _ r => [r] end) e.

(** declaration.rs:237-262 [DeclarationBlock::minify] and context.rs:92-131 [get_additional_rules]:
    the important declarations are handled first but flushed last, and both handlers push to the
    same rules, whose declarations are all normal *)
Record minified := Minified { m_normal : list sdecl; m_important : list sdecl; m_ltr : list sdecl; m_rtl : list sdecl }.
Definition minify_block (c ci : category) (normal important : list sdecl) : minified :=
  let (si, ei) := handle_all (State none_phys none_log false ci) important in
  let (s, e) := handle_all (State none_phys none_log false c) normal in
  let f := snd (flush s) in
  let fi := snd (flush si) in
  Minified (mains (e ++ f)) (mains (ei ++ fi)) (ltrs (ei ++ e ++ f ++ fi)) (rtls (ei ++ e ++ f ++ fi)).
End Values.
Arguments DSide {V R}. Arguments DLog {V R}. Arguments DBlock {V R}. Arguments DInline {V R}. Arguments DAll {V R}. Arguments DRaw {V R}.
Arguments Main {V R}. Arguments Dir {V R}. Arguments State {V R}. Arguments phys {V R}. Arguments log {V R}. Arguments has_any {V R}. Arguments cat {V R}.
Arguments LVal {V R}. Arguments LRaw {V R}. Arguments mains {V R}. Arguments ltrs {V R}. Arguments rtls {V R}.
Arguments m_normal {V R}. Arguments m_important {V R}. Arguments m_ltr {V R}. Arguments m_rtl {V R}.
Arguments opt {V R A}.
