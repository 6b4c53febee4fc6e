(** What the CSS specifications say about selectors: which elements they match,
    their specificity, the order of their parts; and what a set of hashes is.
    Nothing here follows the matcher's algorithm. *)
From Coq Require Import ZArith NArith List Bool String Relations Lia.
From Verif Require Import BloomModel SelectorModel.
Import ListNotations.

(** * Which elements a selector matches *)

(** [rel k x y]: [x] is where the part to the left of the combinator must
    match, when the part to its right is at [y]. *)
Definition is_parent (x y : elem) : Prop := parent_element y = Some x.
Definition is_prev (x y : elem) : Prop := prev_sibling y = Some x.

Definition rel (k : comb) (x y : elem) : Prop :=
  match k with
  | Child => is_parent x y
  | Descendant | Deep | DeepDescendant => clos_trans elem is_parent x y
  | NextSibling => is_prev x y
  | LaterSibling => clos_trans elem is_prev x y
  | PseudoElement | SlotAssignment | Part => False
  end.

(** The 1-based index of an element among its siblings, from the start or the
    end, counting all siblings or those of its type. *)
Definition same_type_data (x y : ndata) : bool :=
  String.eqb (n_name x) (n_name y) && String.eqb (n_ns x) (n_ns y).

Definition sibling_index (e : elem) (of_type from_end : bool) : Z :=
  let others := if from_end then e_nexts e else e_prevs e in
  (1 + Z.of_nat (List.length
     (if of_type then filter (same_type_data (e_data e)) others else others)))%Z.

(** An+B for a non-negative n. *)
Definition an_plus_b (a b i : Z) : Prop := (exists n, 0 <= n /\ i = a * n + b)%Z.

Definition sem_nth (ty : nth_type) (a b : Z) (e : elem) : Prop :=
  match ty with
  | NChild => an_plus_b a b (sibling_index e false false)
  | NLastChild => an_plus_b a b (sibling_index e false true)
  | NOfType => an_plus_b a b (sibling_index e true false)
  | NLastOfType => an_plus_b a b (sibling_index e true true)
  | NOnlyChild => e_prevs e = [] /\ e_nexts e = []
  | NOnlyOfType =>
      (forall d, In d (e_prevs e ++ e_nexts e) -> same_type_data (e_data e) d = false)
  | NCol | NLastCol => False
  end.

(** Names that differ at most in the case of ASCII letters. *)
Definition same_letter (c d : Ascii.ascii) : Prop :=
  c = d \/ exists n, n < 26 /\
    ((c = Ascii.ascii_of_nat (65 + n) /\ d = Ascii.ascii_of_nat (97 + n)) \/
     (c = Ascii.ascii_of_nat (97 + n) /\ d = Ascii.ascii_of_nat (65 + n))).
Inductive same_letters : string -> string -> Prop :=
  | letters_nil : same_letters EmptyString EmptyString
  | letters_cons : forall c d s t, same_letter c d -> same_letters s t ->
      same_letters (String c s) (String d t).
(** Classes and ids are case-insensitive in quirks mode only. *)
Definition same_name (cx : ctx) (x y : string) : Prop :=
  if c_quirks cx then same_letters x y else x = y.

Section Sem.
Variable sem : comp -> elem -> Prop.

(** A selector in match order: the rightmost compound, then for each
    combinator an element in relation that satisfies the rest. *)
Fixpoint sem_items (items : list comp) (e : elem) : Prop :=
  match items with
  | [] => True
  | CComb k :: r => exists e', rel k e' e /\ sem_items r e'
  | c :: r => sem c e /\ sem_items r e
  end.

Fixpoint sem_any (l : list (N * list comp)) (e : elem) : Prop :=
  match l with
  | [] => False
  | (_, items) :: r => sem_items items e \/ sem_any r e
  end.
End Sem.

Fixpoint sem_comp (cx : ctx) (c : comp) (e : elem) {struct c} : Prop :=
  match c with
  | CUniv => True
  | CNs url => n_ns (e_data e) = url
  | CNoNs => n_ns (e_data e) = EmptyString
  | CLocal name lower => n_name (e_data e) = if n_html (e_data e) then lower else name
  | CId s => exists i, n_id (e_data e) = Some i /\ same_name cx i s
  | CClass s => exists x, In x (n_classes (e_data e)) /\ same_name cx x s
  | CAttr k => In k (n_other (e_data e))
  | CRoot => parent_element e = None
  | CEmpty => n_empty (e_data e) = true
  | CScope => match c_scope cx with Some x => e = x | None => parent_element e = None end
  | CNth ty a b => sem_nth ty a b e
  | CIs l | CWhere l | CAny l => sem_any (sem_comp cx) l e
  | CNot l => ~ sem_any (sem_comp cx) l e
  | _ => False
  end.

(** ** A selector as its author wrote it *)

(** Compounds from left to right, and the combinators between them. *)
Definition is_comb (c : comp) : bool := match c with CComb _ => true | _ => false end.

Fixpoint interleave (parts : list (list comp)) (ks : list comb) : list comp :=
  match parts, ks with
  | [], _ => []
  | [p], _ => p
  | p :: r, k :: ks' => p ++ CComb k :: interleave r ks'
  | p :: r, [] => p
  end.

Definition well_formed (parts : list (list comp)) (ks : list comb) : Prop :=
  List.length parts = S (List.length ks) /\
  Forall (Forall (fun c => is_comb c = false)) parts.

(** One element per compound, in relation with its neighbours. *)
Fixpoint chain (ks : list comb) (es : list elem) : Prop :=
  match ks, es with
  | [], [_] => True
  | k :: ks', x :: ((y :: _) as r) => rel k x y /\ chain ks' r
  | _, _ => False
  end.

Definition assignment (cx : ctx) (parts : list (list comp)) (ks : list comb)
    (es : list elem) (e : elem) : Prop :=
  Forall2 (fun p x => Forall (fun c => sem_comp cx c x) p) parts es /\
  chain ks es /\ last es e = e.

(** ** What is needed for the matcher not to panic or overflow *)

(** Every level of the document has at most [n] siblings around the element. *)
Fixpoint small (n : Z) (e : elem) : Prop :=
  match e with
  | Elem _ ps ns par =>
      (Z.of_nat (List.length ps + List.length ns) < n)%Z /\
      match par with None => True | Some p => small n p end
  end.

Definition tree_comb (k : comb) : bool :=
  match k with PseudoElement | SlotAssignment | Part => false | _ => true end.

Section Supported.
Variable sup : comp -> Prop.
Fixpoint sup_items (items : list comp) : Prop :=
  match items with
  | [] => True
  | CComb k :: r => tree_comb k = true /\ sup_items r
  | c :: r => sup c /\ sup_items r
  end.
Fixpoint sup_list (l : list (N * list comp)) : Prop :=
  match l with
  | [] => True
  | (_, items) :: r => sup_items items /\ sup_list r
  end.
End Supported.

(** No component that the matcher answers with [todo!]/[unreachable!], none
    about shadow trees or pseudo-elements, and no [B] so negative that
    [index - B] leaves the 32-bit range in a document with [n] siblings. *)
Fixpoint supported (n : Z) (c : comp) {struct c} : Prop :=
  match c with
  | CNth ty a b =>
      ty <> NCol /\ ty <> NLastCol /\ in_i32 a = true /\ in_i32 b = true /\
      (n - b <= 2147483647)%Z
  | CIs l | CWhere l | CAny l | CNot l => sup_list (supported n) l
  | CNthOf _ _ _ _ | CHas _ | CNesting | CPseudo _ | CSlotted _ | CHost _ | CComb _ => False
  | _ => True
  end.

(** The supported condition in terms of the written selector. *)
Definition sup_source (n : Z) (parts : list (list comp)) (ks : list comb) : Prop :=
  Forall (Forall (supported n)) parts /\ Forall (fun k => tree_comb k = true) ks.

(** * Histories of the index cache *)

(** One use of a matching context: match some selector against some element,
    with or without hashes and a filter.  A context may be used for any number
    of calls; a panic ends it. *)
Definition query : Type := sel * option (N * N * N) * option counters * elem.

Fixpoint run_queries (cx : ctx) (l : list query) (s : st) : option st :=
  match l with
  | [] => Some s
  | (x, h, f, e) :: r =>
      match matches_selector cx x h f e s with
      | None => None
      | Some (_, s') => run_queries cx r s'
      end
  end.

(** The states a context can be in: without a cache, or with a cache that
    started empty and served any number of matches. *)
Definition reachable (cx : ctx) (s : st) : Prop :=
  s = None \/ exists l, run_queries cx l (Some ncache_empty) = Some s.

(** * Hashes *)

(** Is [h] in the filter, as a multiset, after the history [l] (most recent
    last)? *)
Fixpoint present (l : list bop) (h : N) (n : nat) : nat :=
  match l with
  | [] => n
  | Insert x :: r => present r h (if N.eqb x h then S n else n)
  | Remove x :: r => present r h (if N.eqb x h then pred n else n)
  | Clear :: r => present r h 0
  end.

(** Every removal removes something that is there. *)
Fixpoint balanced_from (before l : list bop) : Prop :=
  match l with
  | [] => True
  | Remove h :: r => present before h 0 > 0 /\ balanced_from (before ++ [Remove h]) r
  | o :: r => balanced_from (before ++ [o]) r
  end.
Definition balanced (l : list bop) : Prop := balanced_from [] l.

(** The strings of an element that an ancestor filter records. *)
Definition relevant (d : ndata) : list string :=
  n_name d :: n_ns d :: (match n_id d with Some i => [i] | None => [] end) ++ n_classes d.

(** A filter that records (at least) the ancestors of [e]. *)
Definition records_ancestors (hash : string -> N) (bf : counters) (e : elem) : Prop :=
  forall a s, clos_trans elem is_parent a e -> In s (relevant (e_data a)) ->
    might_contain_hash bf (N.land (hash s) hash_mask) = true.

(** * Specificity, https://drafts.csswg.org/selectors/#specificity-rules *)

Local Open Scope N_scope.

Definition triple : Type := N * N * N.
Definition t_add (x y : triple) : triple :=
  let '(a, b, c) := x in let '(a', b', c') := y in (a + a', b + b', c + c').

(** Lexicographic comparison. *)
Definition t_cmp (x y : triple) : comparison :=
  let '(a, b, c) := x in let '(a', b', c') := y in
  match a ?= a' with
  | Eq => match b ?= b' with Eq => c ?= c' | r => r end
  | r => r
  end.
Definition t_max (x y : triple) : triple :=
  match t_cmp x y with Lt => y | _ => x end.

Section CssSpec.
Variable css : comp -> triple.
Fixpoint css_items (items : list comp) : triple :=
  match items with
  | [] => (0, 0, 0)
  | c :: r => t_add (css c) (css_items r)
  end.
Fixpoint css_max (l : list (N * list comp)) : triple :=
  match l with
  | [] => (0, 0, 0)
  | (_, items) :: r => t_max (css_items items) (css_max r)
  end.
End CssSpec.

(** [:is()], [:not()] and [:has()] take the most specific argument, [:where()]
    counts nothing, [:nth-child(... of S)] a pseudo-class and its most specific
    argument.  The nesting selector depends on the enclosing rule and counts
    nothing here. *)
Fixpoint css_spec (c : comp) : triple :=
  match c with
  | CId _ => (1, 0, 0)
  | CClass _ | CAttr _ | CRoot | CEmpty | CScope | CNth _ _ _ => (0, 1, 0)
  | CLocal _ _ | CPseudo _ => (0, 0, 1)
  | CNthOf _ _ _ l => t_add (0, 1, 0) (css_max css_spec l)
  | CNot l | CIs l | CAny l | CHas l => css_max css_spec l
  | CSlotted (_, items) => t_add (0, 0, 1) (css_items css_spec items)
  | CHost (Some (_, items)) => t_add (0, 1, 0) (css_items css_spec items)
  | CHost None => (0, 1, 0)
  | CComb _ | CUniv | CNs _ | CNoNs | CWhere _ | CNesting => (0, 0, 0)
  end.

Definition below_1024 (t : triple) : Prop :=
  let '(a, b, c) := t in a < 1024 /\ b < 1024 /\ c < 1024.

(** Selectors made by the builder: every nested selector carries the
    specificity the builder computed for it.  [:has()] and [&] excluded. *)
Section Built.
Variable built : comp -> Prop.
Definition built_sel (s : N * list comp) : Prop :=
  fst s = s_pack (complex_spec (filter (fun c => negb (is_comb c)) (snd s))) /\
  fold_right (fun c P => built c /\ P) True (snd s).
End Built.

Fixpoint built (c : comp) : Prop :=
  match c with
  | CNthOf _ _ _ l | CNot l | CIs l | CAny l =>
      fold_right (fun s P => built_sel built s /\ P) True l
  | CSlotted s => built_sel built s
  | CHost (Some s) => built_sel built s
  | CHas _ | CNesting => False
  | _ => True
  end.
