(** * C41: prefixed properties, and C51: properties with fallback values *)
From Coq Require Import List Bool PeanoNat.
From Verif Require Import PrefixModel PrefixSpec PrefixProofs PrefixExamples.
Import ListNotations.

(** Without targets, merging keeps for every prefix the value of its last declaration, if no prefix is
    given another value while a different prefix has the same value. *)
Theorem C41_merge_partial :
  forall (V R W : Type) (veq : V -> V -> bool) (t : targets) (br : browser V R W) (old : nat -> option nat)
         (k : nat) (l : list (decl V R)) (p : pfx),
    (forall a b, veq a b = true <-> a = b) -> needed t = None -> included t = false \/ excluded t = true ->
    modern br -> (forall v v', value br v = value br v' -> v = v') ->
    Forall (written k) l -> steady alone br k l ->
    used_from alone br k p None (prefix_minify V R veq t old l) = used_from alone br k p None l.
Proof.
  exact (fun V R W veq t br old k l p Hv Hn Hi Hm Hd Hw Hs => steady_used V R veq Hv t (conj Hn Hi) W br Hm Hd old k l p Hw Hs).
Qed.
Print Assumptions C41_merge_partial.
Example C41_merge_example :
  steady alone new_browser 0 sample /\ Forall (written 0) sample
  /\ prefix_minify nat nat Nat.eqb no_targets (fun _ => Some 0) sample
     = [Parsed 0 2 (PSet true true false false false); Other 7; x 3]
  /\ map (fun p => used_from alone new_browser 0 p None sample) [WebKit; Moz; NoPrefix; O]
     = [Some (CVal 2); Some (CVal 2); Some (CVal 3); None].
Proof.
  split; [|split; [|split; vm_compute; reflexivity]].
  - intros l1 v p l2 E w Hw Nw q Nq. unfold sample in E.
    destruct l1 as [|d1 l1]; [discriminate Hw|]. injection E as <- E.
    destruct l1 as [|d2 l1]; [destruct p; try discriminate E; destruct q; try congruence; discriminate|]. injection E as <- E.
    destruct l1 as [|d3 l1]; [discriminate E|]. injection E as <- E.
    destruct l1 as [|d4 l1]; [destruct p; try discriminate E; discriminate Hw|]. injection E as <- E.
    destruct l1 as [|d5 l1]; [destruct p; try discriminate E; discriminate Hw|]. injection E as <- E.
    destruct l1; discriminate E.
  - repeat constructor; cbn; intros _; [exists WebKit|exists WebKit|exists Moz|exists NoPrefix]; reflexivity.
Qed.

(** With any targets, an unprefixed declaration that comes last is used for the property itself and for
    every prefix that the targets need. *)
Theorem C41_unprefixed_last_partial :
  forall (V R W : Type) (veq : V -> V -> bool) (t : targets) (br : browser V R W) (old : nat -> option nat)
         (k : nat) (l : list (decl V R)) (v : V) (p : pfx),
    (forall a b, veq a b = true <-> a = b) -> modern br -> proper_table t -> Forall (written k) l ->
    p = NoPrefix \/ has (prefixes t (single NoPrefix) k) p = true ->
    used_from alone br k p None (prefix_minify V R veq t old (l ++ [Parsed k v (single NoPrefix)])) = Some (CVal (value br v)).
Proof.
  exact (fun V R W veq t br old k l v p _ Hm Ht Hw Hp =>
    unprefixed_last V R veq t W br old k l v p Hm Ht
      (Forall_impl _ (fun d => match d return written k d -> typed V R k d with Unparsed _ _ _ => fun H => H | _ => fun _ => I end) Hw)
      (match Hp with or_introl E => eq_trans (f_equal (has _) E) (none_prefixes t Ht k) | or_intror H => H end)).
Qed.
Print Assumptions C41_unprefixed_last_partial.
Example C41_unprefixed_last_example :
  proper_table safari /\ has (prefixes safari (single NoPrefix) 0) WebKit = true
  /\ prefix_minify nat nat Nat.eqb safari (fun _ => None) sample
     = [Parsed 0 2 (PSet true true false false false); Other 7; Parsed 0 3 (PSet true false false false true)].
Proof. split; [intros f E k; injection E as <-; reflexivity|]. split; vm_compute; reflexivity. Qed.

(** Merging makes up no values. *)
Theorem C41_no_new_values :
  forall (V R : Type) (veq : V -> V -> bool) (t : targets) (old : nat -> option nat) (k : nat) (l : list (decl V R)) (v : V) (s : pset),
    In (Parsed k v s) (prefix_minify V R veq t old l) -> exists s', In (Parsed k v s') l.
Proof. exact (fun V R veq t old k l v s => prefix_from V R veq t old l k v s). Qed.
Print Assumptions C41_no_new_values.
Example C41_no_new_values_example : In (Parsed 0 3 (PSet true false false false true)) (prefix_minify nat nat Nat.eqb safari (fun _ => None) sample).
Proof. vm_compute. right. right. left. reflexivity. Qed.

(** color, text-shadow, filter, backdrop-filter, fill, stroke, caret-color: for unprefixed declarations the
    used value is kept in every browser that knows unparsed values, that knows the values the targets
    know, and for whose unknown values no fallbacks are generated. *)
Theorem C51_fallback_partial :
  forall (V R W : Type) (t : targets) (compat : V -> bool) (fallbacks : V -> list V * V) (prefixed : nat -> bool)
         (br : browser V R W) (k : nat) (l : list (decl V R)),
    (forall v, compat v = true -> knows br v = true) -> (forall u, knows_raw br u = true) ->
    (forall v, fst (fallbacks v) = [] \/ knows br v = true) ->
    (forall v, knows br (snd (fallbacks v)) = knows br v /\ value br (snd (fallbacks v)) = value br v) ->
    proper_table t -> Forall (unprefixed k) l ->
    used_from alone br k NoPrefix None (fallback_minify V R t compat fallbacks prefixed l) = used_from alone br k NoPrefix None l.
Proof. exact (fun V R W t compat fb pre br k l H1 H2 H3 H4 H5 H6 => fallback_used V R t compat fb pre W br H1 H2 H3 H4 H5 k l H6). Qed.
Print Assumptions C51_fallback_partial.
Example C51_fallback_example :
  let l := [x 1; Other 7; x 10; x 2; x 11; Unparsed 1 3 (single NoPrefix); Parsed 1 4 (single NoPrefix)] in
  Forall (unprefixed 0) l /\ (forall v, small v = true -> knows old_browser v = true)
  /\ fallback_minify nat nat no_targets small no_lower (fun _ => false) l = [x 1; Other 7; x 2; x 11; Parsed 1 4 (single NoPrefix)]
  /\ used_from alone old_browser 0 NoPrefix None l = Some (CVal 2).
Proof. split; [repeat constructor; cbn; congruence|]. split; [exact (fun v H => H)|]. split; vm_compute; reflexivity. Qed.

(** ** What fails *)

(** [-webkit-x: 1; x: 1; -webkit-x: 2] changes [x] to 2. *)
Theorem C41_prefix_after_standard_refuted :
  exists l : list (decl nat nat),
    used_from alone new_browser 0 NoPrefix None l = Some (CVal 1)
    /\ used_from alone new_browser 0 NoPrefix None (prefix_minify nat nat Nat.eqb no_targets (fun _ => None) l) = Some (CVal 2).
Proof. exists [webkit_x 1; x 1; webkit_x 2]. split; vm_compute; reflexivity. Qed.
Print Assumptions C41_prefix_after_standard_refuted.
(** For targets that need [-webkit-], [x: 1; -webkit-x: 2] changes [x] to 2. *)
Theorem C41_targets_refuted :
  exists l : list (decl nat nat), proper_table safari
    /\ used_from alone new_browser 0 NoPrefix None l = Some (CVal 1)
    /\ used_from alone new_browser 0 NoPrefix None (prefix_minify nat nat Nat.eqb safari (fun _ => None) l) = Some (CVal 2).
Proof. exists [x 1; webkit_x 2]. split; [intros f E k; injection E as <-; reflexivity|]. split; vm_compute; reflexivity. Qed.
Print Assumptions C41_targets_refuted.
(** [x: 1; x: var(...); x: 2] is printed as [x: 2; x: var(...)]. *)
Theorem C41_unparsed_refuted :
  exists l : list (decl nat nat),
    used_from alone new_browser 0 NoPrefix None l = Some (CVal 2)
    /\ used_from alone new_browser 0 NoPrefix None (prefix_minify nat nat Nat.eqb no_targets (fun _ => None) l) = Some (CRaw 7).
Proof. exists [x 1; Unparsed 0 7 (single NoPrefix); x 2]. split; vm_compute; reflexivity. Qed.
Print Assumptions C41_unparsed_refuted.
(** [x: 1; x: new] loses the fallback for browsers that do not know the new value. *)
Theorem C41_old_value_refuted :
  exists l : list (decl nat nat),
    used_from alone old_browser 0 NoPrefix None l = Some (CVal 1)
    /\ used_from alone old_browser 0 NoPrefix None (prefix_minify nat nat Nat.eqb no_targets (fun _ => None) l) = None.
Proof. exists [x 1; x 10]. split; vm_compute; reflexivity. Qed.
Print Assumptions C41_old_value_refuted.
(** [caret] is a shorthand of [caret-color]: [caret-color: 1; caret: 2; caret-color: 3] is printed as
    [caret-color: 3; caret: 2]. *)
Theorem C51_caret_refuted :
  exists l : list (decl nat nat),
    used_from caret new_browser 0 NoPrefix None l = Some (CVal 3)
    /\ used_from caret new_browser 0 NoPrefix None (fallback_minify nat nat no_targets (fun _ => true) no_lower (fun _ => false) l) = Some (CVal 2).
Proof. exists [x 1; Parsed 1 2 (single NoPrefix); x 3]. split; vm_compute; reflexivity. Qed.
Print Assumptions C51_caret_refuted.
(** [filter: 1; -webkit-filter: 2] loses [filter]. *)
Theorem C51_prefixed_refuted :
  exists l : list (decl nat nat),
    used_from alone new_browser 0 NoPrefix None l = Some (CVal 1)
    /\ used_from alone new_browser 0 NoPrefix None (fallback_minify nat nat no_targets (fun _ => true) no_lower (fun _ => true) l) = None.
Proof. exists [x 1; webkit_x 2]. split; vm_compute; reflexivity. Qed.
Print Assumptions C51_prefixed_refuted.
