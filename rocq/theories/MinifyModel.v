(** * Model of the minification of rule lists (src/rules/mod.rs 534-1018, src/rules/style.rs 56-180)

    Selectors, declaration values, conditions and the bodies of keyframes are opaque and known by a
    number; two are equal exactly if their numbers are.  What the code asks about them (compatibility,
    vendor prefixes, minification of a declaration block, ...) is a field of [config].
    Left out: the extra rules that the declaration handlers create for logical properties and
    [@supports] (mod.rs 737-738, 807-813), [@nest], [@font-feature-values], [@custom-media], the
    fallbacks of keyframes and palettes, and errors. *)
From Coq Require Import List Bool String PeanoNat NArith.
Import ListNotations.
Local Open Scope list_scope.

(** src/vendor_prefix.rs 21-34 *)
Inductive prefix := PNone | PWebKit | PMoz | PMs | PO.
Record vp := { v_none : bool; v_webkit : bool; v_moz : bool; v_ms : bool; v_o : bool }.
Definition vp_empty : vp := {| v_none := false; v_webkit := false; v_moz := false; v_ms := false; v_o := false |}.
Definition vp_only_none : vp := {| v_none := true; v_webkit := false; v_moz := false; v_ms := false; v_o := false |}.
Definition vp_union (a b : vp) : vp :=
  {| v_none := v_none a || v_none b; v_webkit := v_webkit a || v_webkit b; v_moz := v_moz a || v_moz b;
     v_ms := v_ms a || v_ms b; v_o := v_o a || v_o b |}.
Definition vp_eqb (a b : vp) : bool :=
  Bool.eqb (v_none a) (v_none b) && Bool.eqb (v_webkit a) (v_webkit b) && Bool.eqb (v_moz a) (v_moz b)
  && Bool.eqb (v_ms a) (v_ms b) && Bool.eqb (v_o a) (v_o b).
Definition vp_is_empty (a : vp) : bool := vp_eqb a vp_empty.

(** A declaration: its property id and its value (src/properties/mod.rs, [Property]). *)
Record decl := { d_id : nat; d_val : nat }.
Definition decl_eqb (a b : decl) : bool := (d_id a =? d_id b)%nat && (d_val a =? d_val b)%nat.

(** src/declaration.rs 52-64: normal and important declarations. *)
Definition block : Type := list decl * list decl.

(** src/rules/style.rs 31-48 without the nested rules; [source] is [loc.source_index]. *)
Record style := { sels : list nat; vpx : vp; blk : block; source : nat }.

(** The conditions of [@media], [@supports] and [@container] (with its name). *)
Inductive cond := CMedia (q : nat) | CSupports (q : nat) | CContainer (q : nat).
Definition cond_eqb (a b : cond) : bool :=
  match a, b with
  | CMedia x, CMedia y | CSupports x, CSupports y | CContainer x, CContainer y => (x =? y)%nat
  | _, _ => false
  end.
(** Blocks that are not merged: [@scope], [@-moz-document], [@starting-style]. *)
Inductive wrapper := WScope (q : nat) | WDocument | WStarting.

(** src/rules/layer.rs 22 *)
Definition lname := list string.

(** src/rules/mod.rs, [CssRule]. *)
Inductive rule :=
| Style (s : style) (nested : list rule)
| NestedDecls (b : block)
| Cond (c : cond) (l : list rule)
| Wrap (k : wrapper) (l : list rule)
| LayerB (name : option lname) (l : list rule)
| LayerS (names : list lname)
| Keyf (name : string) (p : vp) (body : nat)
| Prop_ (name : string) (body : nat)
| Import (layer : option (option lname)) (id : nat)
| Other (id : nat)
| Ignored.

(** What happened to style rules during a run.  The code keeps no such record; it is here so that
    theorems can speak about it. *)
Inductive note :=
| Removed (i j : nat) (old : style) (old_nested : list rule) (new : style)
| Popped.
Definition log := list note.

Record config := {
  compat : list nat -> bool;                    (* is_compatible, src/selector.rs 1801-1985 *)
  upd_prefix : list nat -> list nat * vp;       (* update_prefix, src/rules/style.rs 174-179 *)
  equiv : list nat -> list nat -> bool;         (* is_equivalent, src/selector.rs *)
  split_sels : list nat -> list nat * list nat; (* mod.rs 674-708: the selectors that stay, and the others *)
  compile_sel : bool;                           (* should_compile_selectors *)
  mdecl : block -> block;                       (* DeclarationBlock::minify *)
  mkf : nat -> nat;                             (* KeyframesRule::minify *)
  tr : cond -> cond;                            (* media.rs 39-43, supports.rs 52 *)
  never : cond -> bool;                         (* MediaList::never_matches, media.rs 44 *)
  unused : list nat -> bool;                    (* is_unused, src/selector.rs *)
  unused_name : string -> bool;                 (* unused_symbols.contains *)
  css_modules : bool
}.

Definition is_nil {A} (l : list A) : bool := match l with [] => true | _ => false end.
Fixpoint list_eqb {A} (eqb : A -> A -> bool) (a b : list A) : bool :=
  match a, b with
  | [], [] => true
  | x :: a', y :: b' => eqb x y && list_eqb eqb a' b'
  | _, _ => false
  end.
Definition sels_eqb := list_eqb Nat.eqb.
Definition block_eqb (a b : block) : bool :=
  list_eqb decl_eqb (fst a) (fst b) && list_eqb decl_eqb (snd a) (snd b).
Definition name_eqb : lname -> lname -> bool := list_eqb String.eqb.

(** [Vec] operations. *)
Fixpoint set_nth {A} (i : nat) (x : A) (l : list A) : list A :=
  match l, i with
  | [], _ => []
  | _ :: t, O => x :: t
  | y :: t, S i' => y :: set_nth i' x t
  end.

(** [HashMap] with string or layer name keys, as an association list. *)
Fixpoint lookup {K} (eqb : K -> K -> bool) (k : K) (m : list (K * nat)) : option nat :=
  match m with
  | [] => None
  | (k', v) :: t => if eqb k k' then Some v else lookup eqb k t
  end.
Fixpoint insert {K} (eqb : K -> K -> bool) (k : K) (v : nat) (m : list (K * nat)) : list (K * nat) :=
  match m with
  | [] => [(k, v)]
  | (k', v') :: t => if eqb k k' then (k', v) :: t else (k', v') :: insert eqb k v t
  end.

(** src/rules/style.rs 152-172: what [hash_key] hashes and [is_duplicate] compares.  The hash is taken
    to be injective: it is the key itself. *)
Definition key : Type := list nat * list nat.
Definition key_of (s : style) : key := (sels s, map d_id (fst (blk s) ++ snd (blk s))).
Definition key_eqb (a b : key) : bool := sels_eqb (fst a) (fst b) && sels_eqb (snd a) (snd b).

(** mod.rs 1126-1161: an entry of [style_rules]: the hash taken when the key was made, the index the key
    reads the rule at, and the value of the entry.  Keys compare what the list holds {e now}. *)
Definition entry : Type := key * nat * nat.
Definition entry_matches (rules : list rule) (idx : nat) (h : key) (e : entry) : bool :=
  let '(h', k, _) := e in
  key_eqb h' h &&
  match nth_error rules k, nth_error rules idx with
  | Some (Style a _), Some (Style b _) => key_eqb (key_of a) (key_of b)
  | _, _ => false
  end.
Fixpoint entry_remove (rules : list rule) (idx : nat) (h : key) (m : list entry) : option (nat * list entry) :=
  match m with
  | [] => None
  | e :: t => if entry_matches rules idx h e then Some (snd e, t)
              else match entry_remove rules idx h t with Some (v, t') => Some (v, e :: t') | None => None end
  end.
Fixpoint entry_insert (rules : list rule) (idx : nat) (h : key) (m : list entry) : list entry :=
  match m with
  | [] => [(h, idx, idx)]
  | e :: t => if entry_matches rules idx h e then (fst e, idx) :: t else e :: entry_insert rules idx h t
  end.

(** The variables of [CssRuleList::minify] (mod.rs 539-546). *)
Record state := {
  rules : list rule;
  kmap : list (string * nat);
  lmap : list (lname * nat);
  pmap : list (string * nat);
  smap : list entry;
  has_layers : bool;
  notes : log
}.
Definition init : state :=
  {| rules := []; kmap := []; lmap := []; pmap := []; smap := []; has_layers := false; notes := [] |}.
Definition with_rules (st : state) (l : list rule) : state :=
  {| rules := l; kmap := kmap st; lmap := lmap st; pmap := pmap st; smap := smap st; has_layers := has_layers st; notes := notes st |}.
Definition add_notes (st : state) (n : log) : state :=
  {| rules := rules st; kmap := kmap st; lmap := lmap st; pmap := pmap st; smap := smap st; has_layers := has_layers st; notes := notes st ++ n |}.
Definition push (st : state) (r : rule) : state := with_rules st (rules st ++ [r]).
Definition last_rule (l : list rule) : option (list rule * rule) :=
  match rev l with [] => None | r :: t => Some (rev t, r) end.

Section Minify.
Variable c : config.

(** mod.rs 549-589 *)
Definition step_keyframes (st : state) (name : string) (p : vp) (body : nat) : state :=
  if unused_name c name then st
  else
    let body := mkf c body in
    let fresh :=
      {| rules := rules st ++ [Keyf name p body]; kmap := insert String.eqb name (List.length (rules st)) (kmap st);
         lmap := lmap st; pmap := pmap st; smap := smap st; has_layers := has_layers st; notes := notes st |} in
    match lookup String.eqb name (kmap st) with
    | Some i =>
      match nth_error (rules st) i with
      | Some (Keyf name' p' body') =>
        if vp_eqb p' p then with_rules st (set_nth i (Keyf name p body) (rules st))
        else if (body' =? body)%nat then with_rules st (set_nth i (Keyf name' (vp_union p' p) body') (rules st))
        else fresh
      | _ => fresh
      end
    | None => fresh
    end.

(** mod.rs 878-889 *)
Definition step_property (st : state) (name : string) (body : nat) : state :=
  if unused_name c name then st
  else match lookup String.eqb name (pmap st) with
       | Some i => with_rules st (set_nth i (Prop_ name body) (rules st))
       | None =>
         {| rules := rules st ++ [Prop_ name body]; kmap := kmap st; lmap := lmap st;
            pmap := insert String.eqb name (List.length (rules st)) (pmap st);
            smap := smap st; has_layers := has_layers st; notes := notes st |}
       end.

(** mod.rs 635-649: a new named block is recorded and pushed. *)
Definition push_layer (st : state) (name : lname) (l : list rule) : state :=
  {| rules := rules st ++ [LayerB (Some name) l]; kmap := kmap st;
     lmap := insert name_eqb name (List.length (rules st)) (lmap st);
     pmap := pmap st; smap := smap st; has_layers := true; notes := notes st |}.
Definition step_layer_block (st : state) (name : option lname) (l : list rule) : state :=
  match name with
  | None => push st (LayerB None l)
  | Some n =>
    match lookup name_eqb n (lmap st) with
    | Some i =>
      match nth_error (rules st) i with
      | Some (LayerB n' l') => with_rules st (set_nth i (LayerB n' (l' ++ l)) (rules st))
      | _ => push_layer st n l
      end
    | None => push_layer st n l
    end
  end.

(** mod.rs 650-665 *)
Definition step_layer_name (st : state) (n : lname) : state :=
  match lookup name_eqb n (lmap st) with
  | Some _ => st
  | None => push_layer st n []
  end.
Definition step_layer_statement (st : state) (names : list lname) : state := fold_left step_layer_name names st.

(** mod.rs 890-893 *)
Definition step_import (st : state) (layer : option (option lname)) (id : nat) : state :=
  {| rules := rules st ++ [Import layer id]; kmap := kmap st; lmap := []; pmap := pmap st; smap := smap st;
     has_layers := has_layers st; notes := notes st |}.

(** mod.rs 961-1018 [merge_style_rules]: [style] is merged into [last]; the result holds both after the
    call, since the declarations or the selectors of [style] were drained. *)
Definition merged_prefix (s last : vp) : vp := if v_none s && compile_sel c then s else vp_union last s.
Definition merge (s : style) (sn : list rule) (last : style) (ln : list rule) : option (style * style) :=
  if sels_eqb (sels s) (sels last) && compat c (sels s) && compat c (sels last) && is_nil sn && is_nil ln
     && (negb (css_modules c) || (source s =? source last)%nat)
  then Some ({| sels := sels s; vpx := vpx s; blk := ([], []); source := source s |},
             {| sels := sels last; vpx := vpx last;
                blk := mdecl c (fst (blk last) ++ fst (blk s), snd (blk last) ++ snd (blk s)); source := source last |})
  else if block_eqb (blk s) (blk last) && is_nil sn && is_nil ln then
    if negb (vp_is_empty (vpx s)) && negb (vp_is_empty (vpx last)) && equiv c (sels s) (sels last)
    then Some (s, {| sels := sels last; vpx := merged_prefix (vpx s) (vpx last); blk := blk last; source := source last |})
    else if compat c (sels s) && compat c (sels last)
    then Some ({| sels := []; vpx := vpx s; blk := blk s; source := source s |},
               {| sels := sels last ++ sels s; vpx := merged_prefix (vpx s) (vpx last); blk := blk last; source := source last |})
    else None
  else None.

(** mod.rs 719-731: the last rule is merged into the one before it as long as possible.  The rules before
    the last one are given from the last to the first. *)
Fixpoint squeeze (s : style) (sn : list rule) (before : list rule) : list rule * log :=
  match before with
  | Style p pn :: t =>
    match merge s sn p pn with
    | Some (_, p') => let (r, n) := squeeze p' pn t in (r, Popped :: n)
    | None => (Style s sn :: before, [])
    end
  | _ => (Style s sn :: before, [])
  end.

(** mod.rs 712-734 *)
Definition try_merge (s : style) (sn : list rule) (l : list rule) : option (style * list rule * log) :=
  match rev l with
  | Style p pn :: t =>
    match merge s sn p pn with
    | Some (s', p') => let (r, n) := squeeze p' pn t in Some (s', rev r, n)
    | None => None
    end
  | _ => None
  end.

(** src/rules/style.rs 110-112 *)
Definition style_is_empty (s : style) (sn : list rule) : bool :=
  is_nil (sels s) || (is_nil (fst (blk s)) && is_nil (snd (blk s)) && is_nil sn).

(** mod.rs 779-805: the rule is added, and the rule that the table finds under its key is ignored. *)
Definition push_style (st : state) (s : style) (sn : list rule) : state :=
  let idx := List.length (rules st) in
  let l := rules st ++ [Style s sn] in
  if negb (is_nil sn) then with_rules st l
  else
    let h := key_of s in
    let '(l1, m1, n1) :=
      if (0 <? idx)%nat then
        match entry_remove l idx h (smap st) with
        | Some (i, m) =>
          match nth_error l i with
          | Some (Style o on) =>
            if negb (css_modules c) || (source s =? source o)%nat
            then (set_nth i Ignored l, m, [Removed i idx o on s])
            else (l, m, [])
          | _ => (l, m, [])
          end
        | None => (l, smap st, [])
        end
      else (l, smap st, []) in
    {| rules := l1; kmap := kmap st; lmap := lmap st; pmap := pmap st; smap := entry_insert l1 idx h m1;
       has_layers := has_layers st; notes := notes st ++ n1 |}.

(** A clone of the rule for one selector that is not compatible (mod.rs 740-754). *)
Definition clone_for (s : style) (x : nat) : style :=
  let '(ss, v) := upd_prefix c [x] in {| sels := ss; vpx := v; blk := blk s; source := source s |}.

(** mod.rs 672-831, after the rule itself was minified; [nested] are its rules. *)
Definition add_style (st : state) (s : style) (nested : list rule) : state :=
  let '(keep, rest) := split_sels c (sels s) in
  let '(ss, v) := upd_prefix c keep in
  let s := {| sels := ss; vpx := v; blk := blk s; source := source s |} in
  let '(merged, s, st) :=
    match try_merge s nested (rules st) with
    | Some (s', l, n) => (true, s', add_notes (with_rules st l) n)
    | None => (false, s, st)
    end in
  let clones := map (clone_for s) rest in
  let divide := negb (is_nil nested) && negb (is_nil (sels s)) && negb (is_nil clones) in
  let own := if divide then [] else nested in
  let st := if merged || style_is_empty s own then st else push_style st s own in
  let st := with_rules st (rules st ++ map (fun x => Style x nested) (filter (fun x => negb (style_is_empty x nested)) clones)) in
  if divide
  then push st (Style {| sels := sels s; vpx := vpx s; blk := ([], []); source := source s |} nested)
  else st.

Section Step.
(** [rec parent l] minifies an inner list. *)
Variable rec : bool -> list rule -> option (list rule * log).

(** mod.rs 667-670 and style.rs 56-105 *)
Definition step_style (parent : bool) (st : state) (s : style) (nested : list rule) : option state :=
  if parent then Some st
  else
    let un := unused c (sels s) in
    if un && is_nil nested then Some st
    else
      let s := {| sels := sels s; vpx := vpx s; blk := mdecl c (if un then ([], []) else blk s); source := source s |} in
      match (if is_nil nested then Some ([], []) else rec un nested) with
      | None => None
      | Some (nested', n) =>
        if un && is_nil nested' then Some (add_notes st n)
        else Some (add_style (add_notes st n) s nested')
      end.

(** mod.rs 595-634 *)
Definition step_cond (parent : bool) (st : state) (q : cond) (l : list rule) : option state :=
  let alone :=
    match rec parent l with
    | None => None
    | Some (l', n) =>
      let q' := tr c q in
      if is_nil l' || never c q' then Some (add_notes st n)
      else Some (push (add_notes st n) (Cond q' l'))
    end in
  match last_rule (rules st) with
  | Some (before, Cond q0 l0) =>
    if cond_eqb q0 q then
      match rec parent (l0 ++ l) with
      | None => None
      | Some (l', n) => Some (add_notes (with_rules st (before ++ [Cond (tr c q0) l'])) n)
      end
    else alone
  | _ => alone
  end.

(** scope.rs 41-64, document.rs 31-33, starting_style.rs 28-35 *)
Definition step_wrap (parent : bool) (st : state) (k : wrapper) (l : list rule) : option state :=
  match rec (match k with WStarting => parent | _ => false end) l with
  | None => None
  | Some (l', n) =>
    match k with
    | WStarting => if is_nil l' then Some (add_notes st n) else Some (push (add_notes st n) (Wrap k l'))
    | _ => Some (push (add_notes st n) (Wrap k l'))
    end
  end.

(** mod.rs 547-898 *)
Definition step (parent : bool) (st : state) (r : rule) : option state :=
  match r with
  | Keyf name p body => Some (step_keyframes st name p body)
  | Cond q l => step_cond parent st q l
  | LayerB name l => Some (step_layer_block st name l)
  | LayerS names => Some (step_layer_statement st names)
  | Wrap k l => step_wrap parent st k l
  | Style s nested => step_style parent st s nested
  | NestedDecls b => if parent then Some st else Some (push st (NestedDecls (mdecl c b)))
  | Prop_ name body => Some (step_property st name body)
  | Import layer id => Some (step_import st layer id)
  | Other _ | Ignored => Some (push st r)
  end.
Fixpoint steps (parent : bool) (st : state) (l : list rule) : option state :=
  match l with
  | [] => Some st
  | r :: t => match step parent st r with Some st' => steps parent st' t | None => None end
  end.

(** mod.rs 900-954: [todo] are the rules from the current index on, [done] the ones before it. *)
Fixpoint finish (parent : bool) (todo done : list rule) (declared : list lname) (statement : option nat) (n : log)
  : option (list rule * log) :=
  match todo with
  | [] => Some (done, n)
  | LayerB name l :: t =>
    match rec parent l with
    | None => None
    | Some (l', n') =>
      let n := n ++ n' in
      if is_nil l' then
        match name with
        | Some nm =>
          if existsb (name_eqb nm) declared then finish parent t (done ++ [Ignored]) declared statement n
          else
            match statement with
            | Some j =>
              match nth_error done j with
              | Some (LayerS names) =>
                finish parent t (set_nth j (LayerS (names ++ [nm])) done ++ [Ignored]) (nm :: declared) statement n
              | _ => finish parent t (done ++ [LayerB name []]) (nm :: declared) statement n
              end
            | None => finish parent t (done ++ [LayerS [nm]]) (nm :: declared) (Some (List.length done)) n
            end
        | None => finish parent t (done ++ [Ignored]) declared statement n
        end
      else finish parent t (done ++ [LayerB name l']) declared None n
    end
  | Import layer id :: t =>
    match layer with
    | Some (Some nm) => finish parent t (done ++ [Import layer id]) (nm :: declared) None n
    | Some None => finish parent t (done ++ [Import layer id]) declared None n
    | None => finish parent t (done ++ [Import layer id]) declared statement n
    end
  | r :: t => finish parent t (done ++ [r]) declared statement n
  end.
End Step.

(** mod.rs 534-958.  [None]: out of fuel. *)
Fixpoint minify (fuel : nat) (parent : bool) (l : list rule) : option (list rule * log) :=
  match fuel with
  | O => None
  | S f =>
    match steps (minify f) parent init l with
    | None => None
    | Some st =>
      if has_layers st then finish (minify f) parent (rules st) [] [] None (notes st)
      else Some (rules st, notes st)
    end
  end.
End Minify.
