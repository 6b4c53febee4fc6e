(** * C28-C32: selectors *)
From Coq Require Import ZArith NArith List Bool String Relations Lia.
From Verif Require Import BloomModel SelectorModel SelectorSpec SelectorMatchProofs
  SelectorBuildProofs BloomProofs SpecificityProofs SelectorMainProofs SelectorExamples.
Import ListNotations.
Local Open Scope string_scope.
Local Open Scope list_scope.

(** ** C28: specificity *)

(** Below 1024 in each position, the stored numbers compare as the specificities of the
    specification.  Missing: [:has()], refuted below, and the nesting selector, whose specificity
    is that of its parent. *)
Theorem C28_order_partial : forall p1 k1 s1 p2 k2 s2,
  well_formed p1 k1 -> Forall (Forall built) p1 -> selector_from (interleave p1 k1) = Some s1 ->
  well_formed p2 k2 -> Forall (Forall built) p2 -> selector_from (interleave p2 k2) = Some s2 ->
  below_1024 (css_items css_spec (interleave p1 k1)) ->
  below_1024 (css_items css_spec (interleave p2 k2)) ->
  N.compare (fst s1) (fst s2)
  = t_cmp (css_items css_spec (interleave p1 k1)) (css_items css_spec (interleave p2 k2)).
Proof. exact specificity_order. Qed.
Print Assumptions C28_order_partial.
(** Beyond that each position saturates. *)
Theorem C28_saturates_partial : forall parts ks s,
  well_formed parts ks -> Forall (Forall built) parts ->
  selector_from (interleave parts ks) = Some s ->
  let '(a, b, c) := css_items css_spec (interleave parts ks) in
  s_id (s_unpack (fst s)) = N.min a 1023 /\
  ((a < 1024)%N -> s_class (s_unpack (fst s)) = N.min b 1023 /\
    ((b < 1024)%N -> s_elem (s_unpack (fst s)) = N.min c 1023)).
Proof. exact specificity_saturates. Qed.
Print Assumptions C28_saturates_partial.
(** The condition on nested selectors is met by whatever was built before. *)
Theorem C28_nested : forall parts ks s, well_formed parts ks -> Forall (Forall built) parts ->
  selector_from (interleave parts ks) = Some s ->
  built (CIs [s]) /\ built (CNot [s]) /\ built (CSlotted s) /\ built (CHost (Some s)).
Proof. exact nested_built. Qed.
Print Assumptions C28_nested.
Example C28_example :
  well_formed ex_parts ex_combs /\ Forall (Forall built) ex_parts
  /\ selector_from (interleave ex_parts ex_combs) = Some ex_sel
  /\ css_items css_spec (interleave ex_parts ex_combs) = (1, 2, 4)%N
  /\ below_1024 (css_items css_spec (interleave ex_parts ex_combs))
  /\ fst ex_sel = (1024 * 1024 + 2 * 1024 + 4)%N /\ fst ex_inner = 2%N.
Proof.
  split; [split; [reflexivity|repeat constructor]|].
  split; [repeat constructor|]. split; [reflexivity|].
  split; [vm_compute; reflexivity|]. split; [vm_compute; repeat split|].
  split; vm_compute; reflexivity.
Qed.
(** [:has(#a)] is less specific than [p]. *)
Theorem C28_has_refuted : exists c p, css_spec c = (1, 0, 0)%N /\ css_spec p = (0, 0, 1)%N /\
  exists s1 s2, selector_from [c] = Some s1 /\ selector_from [p] = Some s2 /\ (fst s1 < fst s2)%N.
Proof.
  exists (CHas [(1048576%N, [CId "a"])]), (local "p").
  split; [vm_compute; reflexivity|]. split; [vm_compute; reflexivity|].
  eexists; eexists. split; [vm_compute; reflexivity|]. split; [vm_compute; reflexivity|].
  vm_compute. reflexivity.
Qed.
Print Assumptions C28_has_refuted.

(** ** C29: order of the parts *)

(** A selector is stored with its compounds from right to left, each with its components as they
    were written. *)
Theorem C29_match_order : forall parts ks s, well_formed parts ks ->
  selector_from (interleave parts ks) = Some s ->
  snd s = interleave (rev parts) (rev ks).
Proof. exact match_order_ok. Qed.
Print Assumptions C29_match_order.
Theorem C29_builds : forall parts ks, well_formed parts ks ->
  exists s, selector_from (interleave parts ks) = Some s.
Proof. exact builds. Qed.
Print Assumptions C29_builds.
(** The parse-order iterator gives the compounds and combinators back in source order.  Missing:
    the order inside each compound, refuted below. *)
Theorem C29_parse_order_partial : forall parts ks s, well_formed parts ks ->
  selector_from (interleave parts ks) = Some s ->
  parse_order (snd s) = interleave (map (@rev comp) parts) ks.
Proof. exact parse_order_main. Qed.
Print Assumptions C29_parse_order_partial.
(** The nesting prefix is the leftmost compound. *)
Theorem C29_nesting_prefix : forall parts ks, well_formed parts ks ->
  b_build (b_nesting_prefix (b_push_all b_new (interleave parts ks)))
  = Some (interleave (rev ([CNesting] :: parts)) (rev (Descendant :: ks))).
Proof. exact nesting_prefix. Qed.
Print Assumptions C29_nesting_prefix.
Example C29_example :
  well_formed [[local "p"; CClass "x"]; [CId "m"]] [Child]
  /\ selector_from [local "p"; CClass "x"; CComb Child; CId "m"]
     = Some (1049601%N, [CId "m"; CComb Child; local "p"; CClass "x"]).
Proof. split; [split; [reflexivity|repeat constructor]|vm_compute; reflexivity]. Qed.
Theorem C29_parse_order_refuted : exists parts ks s, well_formed parts ks /\
  selector_from (interleave parts ks) = Some s /\ parse_order (snd s) <> interleave parts ks.
Proof.
  exists [[local "p"; CClass "x"]], [], (1025%N, [local "p"; CClass "x"]).
  split; [split; [reflexivity|repeat constructor]|].
  split; [vm_compute; reflexivity|]. vm_compute. discriminate.
Qed.
Print Assumptions C29_parse_order_refuted.

(** ** C30: matching *)

(** Matching answers whether there is an element for each compound, in the relations the
    combinators demand and ending at the element asked about; whatever the context has been used
    for before.  Missing: the components the matcher panics on, shadow trees and pseudo-elements. *)
Theorem C30_matching_partial : forall cx n parts ks s e st0,
  well_formed parts ks -> sup_source n parts ks -> small n e -> reachable cx st0 ->
  selector_from (interleave parts ks) = Some s ->
  exists b st1, matches_selector cx s None None e st0 = Some (b, st1) /\
    (b = true <-> exists es, assignment cx parts ks es e).
Proof. exact matching_main. Qed.
Print Assumptions C30_matching_partial.
(** A list matches when one of its selectors does. *)
Theorem C30_list_partial : forall cx n l e st0,
  sup_list (supported n) l -> small n e -> reachable cx st0 ->
  exists b st1, matches_selector_list cx l e st0 = Some (b, st1) /\
    (b = true <-> exists s, In s l /\ sem_items (sem_comp cx) (snd s) e).
Proof. exact list_main. Qed.
Print Assumptions C30_list_partial.
Example C30_example :
  sup_source 100 ex_parts ex_combs /\ small 100 ex_p /\ reachable strict (Some ncache_empty)
  /\ (exists st1, matches_selector strict ex_sel None None ex_p (Some ncache_empty) = Some (true, st1)
       /\ reachable strict st1 /\ st1 <> Some ncache_empty
       /\ exists st2, matches_selector strict ex_sel None None ex_span st1 = Some (false, st2)).
Proof.
  split.
  { split; repeat constructor; cbn; try discriminate; lia. }
  split; [cbn; lia|]. split; [right; exists []; reflexivity|].
  eexists. split; [vm_compute; reflexivity|]. split.
  { right. exists [(ex_sel, None, None, ex_p)]. vm_compute. reflexivity. }
  split; [discriminate|]. eexists. vm_compute. reflexivity.
Qed.
(** [:nth-child(1 of p)] and [:has(p)] end the program. *)
Theorem C30_nth_of_refuted : exists s1 s2 e,
  selector_from [CNthOf NChild 0 1 [(1%N, [local "p"])]] = Some s1 /\
  selector_from [CHas [(1%N, [local "p"])]] = Some s2 /\
  matches_selector strict s1 None None e None = None /\ matches_selector strict s2 None None e None = None.
Proof.
  eexists; eexists; exists ex_p. split; [vm_compute; reflexivity|]. split; [vm_compute; reflexivity|].
  split; vm_compute; reflexivity.
Qed.
Print Assumptions C30_nth_of_refuted.

(** ** C31: indices among siblings *)

(** [:nth-child(An+B)] and its relatives match exactly the indices An+B.  Missing: [B] within the
    number of siblings of the smallest 32-bit integer, refuted below, and the column pseudo-classes. *)
Theorem C31_nth_partial : forall cx n ty a b e st0,
  supported n (CNth ty a b) -> small n e -> reachable cx st0 ->
  exists r st1, match_simple cx (CNth ty a b) e st0 = Some (r, st1) /\ (r = true <-> sem_nth ty a b e).
Proof. exact nth_main. Qed.
Print Assumptions C31_nth_partial.
(** What was matched before, with the cache or without, never changes an answer. *)
Theorem C31_cache_partial : forall cx n s e st1 st2,
  sup_items (supported n) (snd s) -> small n e -> reachable cx st1 -> reachable cx st2 ->
  exists b st1' st2', matches_selector cx s None None e st1 = Some (b, st1') /\
    matches_selector cx s None None e st2 = Some (b, st2').
Proof. exact cache_irrelevant. Qed.
Print Assumptions C31_cache_partial.
Example C31_example :
  supported 100 (CNth NLastOfType (-2) 3) /\ small 100 ex_p
  /\ sibling_index ex_p true true = 1%Z /\ sibling_index ex_p true false = 2%Z
  /\ sibling_index ex_p false false = 3%Z /\ sibling_index ex_p false true = 2%Z
  /\ match_simple strict (CNth NLastOfType (-2) 3) ex_p None = Some (true, None)
  /\ match_simple strict (CNth NOfType (-2) 3) ex_p None = Some (false, None).
Proof.
  split; [repeat split; try discriminate; cbn; lia|]. split; [cbn; lia|].
  repeat split; vm_compute; reflexivity.
Qed.
(** [:nth-child(n - 2147483648)] matches nothing. *)
Theorem C31_overflow_refuted : exists a b e, in_i32 a = true /\ in_i32 b = true /\
  match_simple strict (CNth NChild a b) e None = Some (false, None) /\ sem_nth NChild a b e.
Proof.
  exists 1%Z, (-2147483648)%Z, ex_p. split; [reflexivity|]. split; [reflexivity|].
  split; [vm_compute; reflexivity|]. exists 2147483651%Z. split; [discriminate|reflexivity].
Qed.
Print Assumptions C31_overflow_refuted.

(** ** C32: the ancestor filter *)

(** After any insertions, removals of what is there, and clearings, no operation has panicked and
    whatever is in the filter is reported as possibly there. *)
Theorem C32_no_false_negative : forall l, balanced l ->
  exists c, run_bops empty_filter l = Some c /\
    forall h, (present l h 0 > 0)%nat -> might_contain_hash c h = true.
Proof. exact bloom_history. Qed.
Print Assumptions C32_no_false_negative.
Theorem C32_clear : forall l c h, run_bops empty_filter (l ++ [Clear]) = Some c ->
  might_contain_hash c h = false.
Proof. exact bloom_clear. Qed.
Print Assumptions C32_clear.
(** Matching with a filter that holds the names, ids and classes of all ancestors answers what
    matching answers. *)
Theorem C32_fast_reject_partial : forall hash cx n s e l bf st0,
  sup_items (supported n) (snd s) -> small n e -> reachable cx st0 ->
  balanced l -> run_bops empty_filter l = Some bf ->
  (forall a x, clos_trans elem is_parent a e -> In x (relevant (e_data a)) ->
     present l (hash x) 0 > 0) ->
  exists b st1,
    matches_selector cx s (Some (ancestor_hashes hash (c_quirks cx) (snd s))) (Some bf) e st0 = Some (b, st1) /\
    (b = true <-> sem_items (sem_comp cx) (snd s) e).
Proof. exact fast_reject_main. Qed.
Print Assumptions C32_fast_reject_partial.
Example C32_example :
  balanced ex_walk /\ run_bops empty_filter ex_walk = Some ex_filter
  /\ (forall x, In x (flat_map (fun a => relevant (e_data a)) [ex_main; ex_html]) -> present ex_walk (ex_hash x) 0 > 0)
  /\ anc_list ex_p = [ex_main; ex_html]
  /\ collect_hashes ex_hash false (snd ex_sel) = [900002; 5000]%N
  /\ may_match (ancestor_hashes ex_hash false (snd ex_sel)) ex_filter = true
  /\ may_match (ancestor_hashes ex_hash false [local "p"; CComb Descendant; CClass "x"]) ex_filter = false.
Proof.
  split; [cbn; repeat split; repeat constructor|]. split; [reflexivity|]. split.
  { cbn. intros x H. repeat (destruct H as [<-|H]; [vm_compute; repeat constructor|]). destruct H. }
  split; [reflexivity|]. repeat split; vm_compute; reflexivity.
Qed.
