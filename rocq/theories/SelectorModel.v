(** Model of selectors, their storage, their specificity and selector matching:
    /repo/selectors/parser.rs, builder.rs, matching.rs, nth_index_cache.rs. *)
From Coq Require Import ZArith NArith List Bool String Ascii.
From Verif Require Import BloomModel.
Import ListNotations.
Local Open Scope nat_scope.
Local Open Scope bool_scope.

(** * Components *)

(** [Combinator], parser.rs:1138-1167. *)
Inductive comb :=
  | Child | Descendant | NextSibling | LaterSibling
  | PseudoElement | SlotAssignment | Part | DeepDescendant | Deep.

(** [NthType], parser.rs:1205-1214. *)
Inductive nth_type :=
  | NChild | NLastChild | NOnlyChild | NOfType | NLastOfType | NOnlyOfType | NCol | NLastCol.

(** [Component], parser.rs.  A selector is its stored specificity
    ([SpecificityAndFlags], without the flags) and its components in match
    order; it is the pair [N * list comp] wherever it occurs.
    Simplifications: [CAttr] stands for the attribute selectors and the
    [NonTSPseudoClass]es, which are conditions on a single element that the
    embedding program answers; the number names the condition.  [CPseudo]
    stands for [PseudoElement] and [Part].  [CUniv] stands for
    [ExplicitUniversalType] and [ExplicitAnyNamespace]; [CNs] for [Namespace]
    and [DefaultNamespace]. *)
Inductive comp :=
  | CComb (k : comb)
  | CUniv
  | CNs (url : string)
  | CNoNs
  | CLocal (name lower : string)
  | CId (s : string)
  | CClass (s : string)
  | CAttr (k : nat)
  | CPseudo (k : nat)
  | CRoot
  | CEmpty
  | CScope
  | CNth (ty : nth_type) (a b : Z)
  | CNthOf (ty : nth_type) (a b : Z) (l : list (N * list comp))
  | CNot (l : list (N * list comp))
  | CIs (l : list (N * list comp))
  | CAny (l : list (N * list comp))
  | CWhere (l : list (N * list comp))
  | CHas (l : list (N * list comp))
  | CSlotted (s : N * list comp)
  | CHost (s : option (N * list comp))
  | CNesting.

Definition sel : Type := N * list comp.

(** * The builder: builder.rs:40-190 *)

(** [SelectorBuilder], builder.rs:40-53. *)
Record builder := mkb {
  b_simples : list comp;
  b_combs : list (comb * nat);
  b_len : nat }.

(** [SelectorBuilder::default], builder.rs:57-63. *)
Definition b_new : builder := mkb [] [] 0.

(** [push_simple_selector], builder.rs:75-79.  The assertion that the
    component is not a combinator is the caller's duty ([push], below). *)
Definition b_push (b : builder) (c : comp) : builder :=
  mkb (b_simples b ++ [c]) (b_combs b) (S (b_len b)).

(** [push_combinator], builder.rs:84-87. *)
Definition b_push_comb (b : builder) (k : comb) : builder :=
  mkb (b_simples b) (b_combs b ++ [(k, b_len b)]) 0.

(** [add_nesting_prefix], builder.rs:95-98. *)
Definition b_nesting_prefix (b : builder) : builder :=
  mkb (CNesting :: b_simples b) ((Descendant, 1) :: b_combs b) (b_len b).

(** [split_from_end], builder.rs:181-183; [None] is the panic of the
    subtraction or of [split_at]. *)
Definition split_from_end {A} (s : list A) (at_ : nat) : option (list A * list A) :=
  if Nat.leb at_ (List.length s)
  then Some (firstn (List.length s - at_) s, skipn (List.length s - at_) s)
  else None.

(** [SelectorBuilderIter::next], builder.rs:157-173, run to the end: the
    current compound, then for each combinator from the last to the first the
    combinator and the compound to its left. *)
Fixpoint b_iter (rest : list comp) (combs : list (comb * nat)) : option (list comp) :=
  match combs with
  | [] => Some []
  | (k, len) :: r =>
      match split_from_end rest len with
      | None => None
      | Some (rest', cur) =>
          match b_iter rest' r with
          | None => None
          | Some tl => Some (CComb k :: cur ++ tl)
          end
      end
  end.

(** [build_with_specificity_and_flags], builder.rs:121-145. *)
Definition b_build (b : builder) : option (list comp) :=
  match split_from_end (b_simples b) (b_len b) with
  | None => None
  | Some (rest, cur) =>
      match b_iter rest (rev (b_combs b)) with
      | None => None
      | Some tl => Some (cur ++ tl)
      end
  end.

(** [Selector::from(Vec<Component>)], parser.rs:1006-1019, and
    [Selector::from_vec], parser.rs:916-928: one push per component. *)
Fixpoint b_push_all (b : builder) (l : list comp) : builder :=
  match l with
  | [] => b
  | CComb k :: r => b_push_all (b_push_comb b k) r
  | c :: r => b_push_all (b_push b c) r
  end.

(** [iter_raw_parse_order_from], parser.rs:910-912, from offset 0. *)
Definition parse_order (items : list comp) : list comp := rev items.

(** * Specificity: builder.rs:225-360 *)

(** [Specificity], builder.rs:227-232. *)
Record spec3 := mks { s_id : N; s_class : N; s_elem : N }.

(** [MAX_10BIT], builder.rs:225. *)
Definition max10 : N := 1023.

(** [Add]/[AddAssign], builder.rs:233-250. *)
Definition s_add (x y : spec3) : spec3 :=
  mks (s_id x + s_id y) (s_class x + s_class y) (s_elem x + s_elem y).

Definition s_zero : spec3 := mks 0 0 0.

(** [From<u32> for Specificity], builder.rs:252-262.  The assertion that the
    value fits in 30 bits holds of every packed value. *)
Definition s_unpack (v : N) : spec3 :=
  mks (N.shiftr v 20) (N.land (N.shiftr v 10) max10) (N.land v max10).

(** [From<Specificity> for u32], builder.rs:264-271. *)
Definition s_pack (s : spec3) : N :=
  N.lor (N.lor (N.shiftl (N.min (s_id s) max10) 20)
               (N.shiftl (N.min (s_class s) max10) 10))
        (N.min (s_elem s) max10).

(** The largest stored specificity of a selector list, builder.rs:322-326 and
    :337-341. *)
Definition max_spec (l : list sel) : N :=
  fold_left (fun m s => N.max (fst s) m) l 0%N.

(** [simple_selector_specificity], builder.rs:284-352.  A combinator is
    unreachable there; it counts nothing here. *)
Definition simple_spec (c : comp) : spec3 :=
  match c with
  | CComb _ => s_zero
  | CPseudo _ | CLocal _ _ => mks 0 0 1
  | CSlotted s => s_add (mks 0 0 1) (s_unpack (fst s))
  | CHost None => mks 0 1 0
  | CHost (Some s) => s_add (mks 0 1 0) (s_unpack (fst s))
  | CId _ => mks 1 0 0
  | CClass _ | CAttr _ | CRoot | CEmpty | CScope | CNth _ _ _ => mks 0 1 0
  | CNthOf _ _ _ l => s_add (mks 0 1 0) (s_unpack (max_spec l))
  | CNot l | CIs l | CAny l => s_unpack (max_spec l)
  | CWhere _ | CHas _ | CUniv | CNoNs | CNs _ | CNesting => s_zero
  end.

(** [complex_selector_specificity], builder.rs:279-360, over the builder's
    simple selectors. *)
Definition complex_spec (l : list comp) : spec3 :=
  fold_left (fun s c => s_add s (simple_spec c)) l s_zero.

(** [SelectorBuilder::build], builder.rs:102-118: the stored specificity and
    the components. *)
Definition b_build_sel (b : builder) : option sel :=
  match b_build b with
  | None => None
  | Some items => Some (s_pack (complex_spec (b_simples b)), items)
  end.

Definition selector_from (l : list comp) : option sel := b_build_sel (b_push_all b_new l).

(** * Elements: the trait of tree.rs *)

(** What the embedding program knows about one element.  [n_other] lists the
    [CAttr] conditions that hold; [n_empty] answers [is_empty]. *)
Record ndata := mknode {
  n_html : bool;
  n_name : string;
  n_ns : string;
  n_id : option string;
  n_classes : list string;
  n_other : list nat;
  n_empty : bool }.

(** An element of a document: its data, the siblings before it (nearest
    first), the siblings after it (nearest first) and its parent.  The value
    is a position: inside one document two elements are equal exactly when they
    are the same node, so it also plays [OpaqueElement], tree.rs:14-30.
    Shadow trees are left out. *)
Inductive elem := Elem (d : ndata) (prevs nexts : list ndata) (parent : option elem).

Definition e_data (e : elem) : ndata := let (d, _, _, _) := e in d.
Definition e_prevs (e : elem) : list ndata := let (_, p, _, _) := e in p.
Definition e_nexts (e : elem) : list ndata := let (_, _, n, _) := e in n.

(** [Element::parent_element], tree.rs. *)
Definition parent_element (e : elem) : option elem := let (_, _, _, p) := e in p.

(** [Element::prev_sibling_element] and [next_sibling_element], tree.rs. *)
Definition prev_sibling (e : elem) : option elem :=
  match e with
  | Elem d [] _ _ => None
  | Elem d (p :: ps) ns par => Some (Elem p ps (d :: ns) par)
  end.
Definition next_sibling (e : elem) : option elem :=
  match e with
  | Elem d _ [] _ => None
  | Elem d ps (n :: ns) par => Some (Elem n (d :: ps) ns par)
  end.

(** The elements met by calling [prev_sibling_element] (resp.
    [next_sibling_element], [parent_element]) until it answers [None]. *)
Fixpoint prevs_from (d : ndata) (ps ns : list ndata) (par : option elem) : list elem :=
  match ps with
  | [] => []
  | p :: ps' => Elem p ps' (d :: ns) par :: prevs_from p ps' (d :: ns) par
  end.
Definition prev_list (e : elem) : list elem :=
  match e with Elem d ps ns par => prevs_from d ps ns par end.

Fixpoint nexts_from (d : ndata) (ps ns : list ndata) (par : option elem) : list elem :=
  match ns with
  | [] => []
  | n :: ns' => Elem n (d :: ps) ns' par :: nexts_from n (d :: ps) ns' par
  end.
Definition next_list (e : elem) : list elem :=
  match e with Elem d ps ns par => nexts_from d ps ns par end.

Fixpoint anc_list (e : elem) : list elem :=
  match e with
  | Elem _ _ _ None => []
  | Elem _ _ _ (Some p) => p :: anc_list p
  end.

(** [Element::is_root]: no parent element. *)
Definition is_root (e : elem) : bool :=
  match parent_element e with None => true | Some _ => false end.

(** [Element::is_same_type], tree.rs: same local name and namespace. *)
Definition is_same_type (x y : elem) : bool :=
  String.eqb (n_name (e_data x)) (n_name (e_data y))
  && String.eqb (n_ns (e_data x)) (n_ns (e_data y)).

(** Equality of [OpaqueElement]s. *)
Definition opt_string_dec (x y : option string) : {x = y} + {x <> y}.
Proof. decide equality. apply string_dec. Defined.
Definition ndata_dec (x y : ndata) : {x = y} + {x <> y}.
Proof.
  decide equality; try apply bool_dec; try apply string_dec; try apply opt_string_dec;
    apply list_eq_dec; [apply PeanoNat.Nat.eq_dec | apply string_dec].
Defined.
Fixpoint elem_dec (x y : elem) : {x = y} + {x <> y}.
Proof.
  decide equality; try apply ndata_dec; try (apply list_eq_dec; apply ndata_dec).
  decide equality.
Defined.
Definition elem_eqb (x y : elem) : bool := if elem_dec x y then true else false.

(** * The matching context, context.rs *)

(** [quirks]: [QuirksMode::Quirks]; [scope]: [scope_element]. *)
Record ctx := mkctx { c_quirks : bool; c_scope : option elem }.

(** ASCII lower-casing, used by [CaseSensitivity::AsciiCaseInsensitive]. *)
Definition lower_ascii (c : ascii) : ascii :=
  let n := nat_of_ascii c in
  if Nat.leb 65 n && Nat.leb n 90 then ascii_of_nat (n + 32) else c.
Fixpoint lower_string (s : string) : string :=
  match s with
  | EmptyString => EmptyString
  | String c r => String (lower_ascii c) (lower_string r)
  end.

(** [classes_and_ids_case_sensitivity], context.rs:84-89, and
    [CaseSensitivity::eq], attr.rs. *)
Definition name_eq (cx : ctx) (x y : string) : bool :=
  if c_quirks cx then String.eqb (lower_string x) (lower_string y) else String.eqb x y.

Definition has_id (cx : ctx) (e : elem) (s : string) : bool :=
  match n_id (e_data e) with None => false | Some i => name_eq cx i s end.
Definition has_class (cx : ctx) (e : elem) (s : string) : bool :=
  existsb (fun x => name_eq cx x s) (n_classes (e_data e)).

(** [matches_local_name], matching.rs:548-560, with [select_name],
    matching.rs:787-793. *)
Definition matches_local_name (e : elem) (name lower : string) : bool :=
  String.eqb (n_name (e_data e)) (if n_html (e_data e) then lower else name).

(** * The index cache, nth_index_cache.rs *)

(** [NthIndexCacheInner], nth_index_cache.rs:34-53: a hash map; the first
    entry for an element wins here because [icache_insert] puts the newest
    first. *)
Definition icache := list (elem * Z).
Fixpoint icache_lookup (c : icache) (e : elem) : option Z :=
  match c with
  | [] => None
  | (x, i) :: r => if elem_eqb x e then Some i else icache_lookup r e
  end.
Definition icache_insert (c : icache) (e : elem) (i : Z) : icache := (e, i) :: c.
Definition icache_is_empty (c : icache) : bool := match c with [] => true | _ => false end.

(** [NthIndexCache] and [get], nth_index_cache.rs:13-32. *)
Record ncache := mkc { k_nth : icache; k_last : icache; k_type : icache; k_last_type : icache }.
Definition ncache_get (c : ncache) (of_type from_end : bool) : icache :=
  match of_type, from_end with
  | false, false => k_nth c
  | false, true => k_last c
  | true, false => k_type c
  | true, true => k_last_type c
  end.
Definition ncache_set (c : ncache) (of_type from_end : bool) (i : icache) : ncache :=
  match of_type, from_end with
  | false, false => mkc i (k_last c) (k_type c) (k_last_type c)
  | false, true => mkc (k_nth c) i (k_type c) (k_last_type c)
  | true, false => mkc (k_nth c) (k_last c) i (k_last_type c)
  | true, true => mkc (k_nth c) (k_last c) (k_type c) i
  end.
Definition ncache_empty : ncache := mkc [] [] [] [].

(** * :nth-child and friends, matching.rs:795-925 *)

Local Open Scope Z_scope.

Definition in_i32 (z : Z) : bool := (-2147483648 <=? z) && (z <=? 2147483647).

(** [i32::checked_sub]. *)
Definition checked_sub (x y : Z) : option Z :=
  if in_i32 (x - y) then Some (x - y) else None.

(** [i32::checked_div]: truncating; [None] on division by zero or overflow. *)
Definition checked_div (x y : Z) : option Z :=
  if y =? 0 then None
  else if in_i32 (Z.quot x y) then Some (Z.quot x y) else None.

(** "Is there a non-negative integer n such that An+B=index?",
    matching.rs:841-848.  [a * n] cannot overflow: it is no further from zero
    than [an]. *)
Definition nth_hit (a b index : Z) : bool :=
  match checked_sub index b with
  | None => false
  | Some an =>
      match checked_div an a with
      | Some n => (0 <=? n) && (a * n =? an)
      | None => an =? 0
      end
  end.

(** The loop over the siblings in [nth_child_index], matching.rs:897-914 and
    :877-888: [skip] elements of another type, stop at the first cached
    element, count otherwise.  The inner result is [inl] for a cache hit and
    [inr] for the final count.  Indices are unbounded integers here: fewer than
    2^31 siblings. *)
Fixpoint nth_walk (e : elem) (of_type : bool) (look : elem -> option Z)
    (cands : list elem) (index : Z) : (Z * Z) + Z :=
  match cands with
  | [] => inr index
  | c :: r =>
      if negb of_type || is_same_type e c then
        match look c with
        | Some i => inl (i, index)
        | None => nth_walk e of_type look r (index + 1)
        end
      else nth_walk e of_type look r index
  end.

(** [nth_child_index], matching.rs:852-917. *)
Definition nth_child_index (e : elem) (of_type from_end : bool) (cache : option icache) : Z :=
  let plain :=
    match nth_walk e of_type
            (fun c => if from_end then None
                      else match cache with None => None | Some k => icache_lookup k c end)
            (if from_end then next_list e else prev_list e) 1 with
    | inl (i, index) => i + index
    | inr index => index
    end in
  match cache with
  | Some k =>
      if from_end && negb (icache_is_empty k) then
        match nth_walk e of_type (icache_lookup k) (prev_list e) 1 with
        | inl (i, index) => i - index
        | inr _ => plain
        end
      else plain
  | None => plain
  end.

(** The state of a matching run: the index cache of the context, if there is
    one.  [None] as a result is a panic ([todo!], [unreachable!]) or a
    component that the model leaves out. *)
Definition st := option ncache.
Definition M (A : Type) : Type := st -> option (A * st).
Definition ret {A} (a : A) : M A := fun s => Some (a, s).
Definition bind {A B} (m : M A) (f : A -> M B) : M B :=
  fun s => match m s with None => None | Some (a, s') => f a s' end.

(** [matches_generic_nth_child], matching.rs:795-849.
    [ignores_nth_child_selectors] keeps its default, false (tree.rs). *)
Definition generic_nth (e : elem) (a b : Z) (of_type from_end : bool) : M bool :=
  fun s =>
    match s with
    | None => Some (nth_hit a b (nth_child_index e of_type from_end None), None)
    | Some k =>
        let c := ncache_get k of_type from_end in
        match icache_lookup c e with
        | Some i => Some (nth_hit a b i, Some k)
        | None =>
            let i := nth_child_index e of_type from_end (Some c) in
            Some (nth_hit a b i, Some (ncache_set k of_type from_end (icache_insert c e i)))
        end
    end.

(** [matches_first_child] and [matches_last_child], matching.rs:919-937. *)
Definition first_child (e : elem) : bool :=
  match prev_sibling e with None => true | Some _ => false end.
Definition last_child (e : elem) : bool :=
  match next_sibling e with None => true | Some _ => false end.

(** The [Component::Nth] arm, matching.rs:732-752. *)
Definition match_nth (ty : nth_type) (a b : Z) (e : elem) : M bool :=
  match ty with
  | NChild =>
      if (a =? 0) && (b =? 1) then ret (first_child e) else generic_nth e a b false false
  | NLastChild =>
      if (a =? 0) && (b =? 1) then ret (last_child e) else generic_nth e a b false true
  | NOnlyChild => ret (first_child e && last_child e)
  | NOfType => generic_nth e a b true false
  | NLastOfType => generic_nth e a b true true
  | NOnlyOfType =>
      bind (generic_nth e 0 1 true false)
        (fun r => if r then generic_nth e 0 1 true true else ret false)
  | NCol | NLastCol => fun _ => None
  end.

(** * Complex selectors, matching.rs:446-545 *)

(** [SelectorMatchingResult], matching.rs:157-163. *)
Inductive mres := Matched | RestartLaterSibling | RestartDescendant | NotMatchedGlobally.

(** The elements [next_element_for_combinator] (matching.rs:389-445) produces
    when it is called again and again.  Shadow trees, slots, parts and
    pseudo-elements are left out. *)
Definition candidates (k : comb) (e : elem) : option (list elem) :=
  match k with
  | NextSibling | LaterSibling => Some (prev_list e)
  | Child | Descendant | Deep | DeepDescendant => Some (anc_list e)
  | PseudoElement | SlotAssignment | Part => None
  end.

(** [candidate_not_found], matching.rs:480-490. *)
Definition not_found (k : comb) : mres :=
  match k with
  | NextSibling | LaterSibling => RestartDescendant
  | _ => NotMatchedGlobally
  end.

(** The decision after one candidate, matching.rs:512-541: [Some] returns,
    [None] goes on to the next candidate. *)
Definition after_candidate (r : mres) (k : comb) : option mres :=
  match r, k with
  | Matched, _ => Some Matched
  | NotMatchedGlobally, _ => Some NotMatchedGlobally
  | _, NextSibling => Some r
  | _, PseudoElement | _, Child => Some RestartDescendant
  | RestartDescendant, LaterSibling => Some RestartDescendant
  | _, _ => None
  end.

Section Complex.

(** [matches_simple_selector] on one component. *)
Variable simple : comp -> elem -> M bool.

(** The loop over the candidates, matching.rs:503-544; [k_rest] matches the
    rest of the selector. *)
Fixpoint try_candidates (k_rest : elem -> M mres) (k : comb) (cands : list elem) : M mres :=
  fun s =>
    match cands with
    | [] => Some (not_found k, s)
    | e' :: r =>
        match k_rest e' s with
        | None => None
        | Some (res, s') =>
            match after_candidate res k with
            | Some out => Some (out, s')
            | None => try_candidates k_rest k r s'
            end
        end
    end.

(** [matches_complex_selector_internal], matching.rs:446-545, over the
    components in match order.  [ok] says that every component of the current
    compound met so far matched ([matches_compound_selector],
    matching.rs:562-612, stops at the first that does not; its special cases
    for a leading local name, id and classes test the same components in the
    same order). *)
Fixpoint match_items (items : list comp) (ok : bool) (e : elem) {struct items} : M mres :=
  fun s =>
    match items with
    | [] => Some (if ok then Matched else RestartLaterSibling, s)
    | CComb k :: r =>
        if ok then
          match candidates k e with
          | None => None
          | Some cands => try_candidates (match_items r true) k cands s
          end
        else Some (RestartLaterSibling, s)
    | c :: r =>
        if ok then
          match simple c e s with
          | None => None
          | Some (b, s') => match_items r b e s'
          end
        else match_items r false e s
    end.

(** [matches_complex_selector], matching.rs:296-339, in
    [MatchingMode::Normal]. *)
Definition match_complex (items : list comp) (e : elem) : M bool :=
  bind (match_items items true e)
    (fun r => ret (match r with Matched => true | _ => false end)).

(** The loops over a selector list: matching.rs:75-90 and :757-765. *)
Fixpoint match_any (l : list sel) (e : elem) : M bool :=
  match l with
  | [] => ret false
  | (_, items) :: r =>
      bind (match_complex items e) (fun b => if b then ret true else match_any r e)
  end.

End Complex.

(** [matches_simple_selector], matching.rs:615-785. *)
Fixpoint match_simple (cx : ctx) (c : comp) (e : elem) {struct c} : M bool :=
  match c with
  | CUniv => ret true
  | CNs url => ret (String.eqb (n_ns (e_data e)) url)
  | CNoNs => ret (String.eqb (n_ns (e_data e)) EmptyString)
  | CLocal name lower => ret (matches_local_name e name lower)
  | CId s => ret (has_id cx e s)
  | CClass s => ret (has_class cx e s)
  | CAttr k => ret (existsb (Nat.eqb k) (n_other (e_data e)))
  | CRoot => ret (is_root e)
  | CEmpty => ret (n_empty (e_data e))
  | CScope => ret (match c_scope cx with Some x => elem_eqb e x | None => is_root e end)
  | CNth ty a b => match_nth ty a b e
  | CIs l | CWhere l | CAny l => match_any (match_simple cx) l e
  | CNot l => bind (match_any (match_simple cx) l e) (fun b => ret (negb b))
  | CNthOf _ _ _ _ | CHas _ | CNesting | CComb _ => fun _ => None
  | CPseudo _ | CSlotted _ | CHost _ => fun _ => None
  end.

(** * Ancestor hashes, parser.rs:604-700 *)

(** [Child | Descendant] as tested by [AncestorIter], parser.rs:1100-1130. *)
Definition is_anc_comb (k : comb) : bool :=
  match k with Child | Descendant => true | _ => false end.

(** Where [AncestorIter] stands: yielding components of an ancestor compound;
    just after a combinator, where an empty compound ends the iteration;
    skipping towards an ancestor combinator from [new] or from [next]. *)
Inductive amode := Yielding | Fresh | SkippingNew | SkippingNext.

Local Open Scope N_scope.

Section Hashes.

Variable hash : string -> N.
Variable quirks : bool.

(** What [collect_ancestor_hashes] carries: the hashes collected so far, and
    whether to go on ([false] once four are there). *)
Definition acc : Type := list N * bool.

Definition add_hash (h : N) (a : acc) : acc :=
  let l := (fst a ++ [N.land h hash_mask])%list in
  (l, Nat.ltb (List.length l) 4).

(** One component, parser.rs:619-650. *)
Definition collect_leaf (c : comp) (a : acc) : acc :=
  match c with
  | CLocal name lower => if String.eqb name lower then add_hash (hash name) a else a
  | CNs url => add_hash (hash url) a
  | CId s => if quirks then a else add_hash (hash s) a
  | CClass s => if quirks then a else add_hash (hash s) a
  | _ => a
  end.

(** [AncestorIter], parser.rs:1085-1133, fused with the loop of
    [collect_ancestor_hashes], parser.rs:608-657. *)
Section Iter.
Variable f : comp -> acc -> acc.
Fixpoint collect_items (m : amode) (items : list comp) (a : acc)
    {struct items} : acc :=
  match items with
  | [] => a
  | CComb k :: r =>
      match m with
      | Yielding =>
          if is_anc_comb k then collect_items Fresh r a else collect_items SkippingNext r a
      | Fresh => a
      | SkippingNew =>
          if is_anc_comb k then collect_items Yielding r a else collect_items SkippingNew r a
      | SkippingNext =>
          if is_anc_comb k then collect_items Fresh r a else collect_items SkippingNext r a
      end
  | c :: r =>
      match m with
      | Yielding | Fresh =>
          let a' := f c a in
          if snd a' then collect_items Yielding r a' else a'
      | _ => collect_items m r a
      end
  end.
End Iter.

(** The [Is]/[Where] arm, parser.rs:638-646: only a list of one selector. *)
Fixpoint collect_comp (c : comp) (a : acc) {struct c} : acc :=
  match c with
  | CIs [(_, items)] | CWhere [(_, items)] => collect_items collect_comp SkippingNew items a
  | _ => collect_leaf c a
  end.

Definition collect_hashes (items : list comp) : list N :=
  fst (collect_items collect_comp SkippingNew items ([], true)).

(** [AncestorHashes::new], parser.rs:660-685: three words, the fourth hash in
    their upper bytes. *)
Definition ancestor_hashes (items : list comp) : N * N * N :=
  let h := collect_hashes items in
  let h0 := nth 0 h 0 in
  let h1 := nth 1 h 0 in
  let h2 := nth 2 h 0 in
  let h3 := nth 3 h 0 in
  if Nat.eqb (List.length h) 4 then
    (N.lor h0 (N.shiftl (N.land h3 0xff) 24),
     N.lor h1 (N.shiftl (N.land h3 0xff00) 16),
     N.lor h2 (N.shiftl (N.land h3 0xff0000) 8))
  else (h0, h1, h2).

End Hashes.

(** [fourth_hash], parser.rs:688-692. *)
Definition fourth_hash (p : N * N * N) : N :=
  let '(p0, p1, p2) := p in
  N.lor (N.lor (N.shiftr (N.land p0 0xff000000) 24)
               (N.shiftr (N.land p1 0xff000000) 16))
        (N.shiftr (N.land p2 0xff000000) 8).

(** [may_match], matching.rs:91-118. *)
Definition may_match (p : N * N * N) (bf : counters) : bool :=
  let '(p0, p1, p2) := p in
  if p0 =? 0 then true
  else if negb (might_contain_hash bf (N.land p0 hash_mask)) then false
  else if p1 =? 0 then true
  else if negb (might_contain_hash bf (N.land p1 hash_mask)) then false
  else if p2 =? 0 then true
  else if negb (might_contain_hash bf (N.land p2 hash_mask)) then false
  else (fourth_hash p =? 0) || might_contain_hash bf (fourth_hash p).

(** [matches_selector], matching.rs:186-206, from offset 0. *)
Definition matches_selector (cx : ctx) (s : sel) (hashes : option (N * N * N))
    (filter : option counters) (e : elem) : M bool :=
  match hashes, filter with
  | Some h, Some bf =>
      if may_match h bf then match_complex (match_simple cx) (snd s) e else ret false
  | _, _ => match_complex (match_simple cx) (snd s) e
  end.

(** [matches_selector_list], matching.rs:69-90. *)
Definition matches_selector_list (cx : ctx) (l : list sel) (e : elem) : M bool :=
  match_any (match_simple cx) l e.
