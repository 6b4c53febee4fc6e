(** * C61: blocks with transform properties *)
From Coq Require Import List Bool PeanoNat.
From Verif Require Import PrefixModel TransformBlockModel TransformBlockSpec TransformBlockProofs.
Import ListNotations.

(** Declarations of other properties stay, in their order *)
Theorem C61_others : forall (T V U : Type) (to_transform : V -> T) (leq : list T -> list T -> bool) (t : targets) (l : list (decl T V U)),
  others (minify T V U to_transform leq t l) = others l.
Proof. exact (fun T V U tt leq t => others_kept tt leq t). Qed.
Print Assumptions C61_others.
(** Without [transform], the values of [translate], [rotate] and [scale] are kept *)
Theorem C61_individual_partial : forall (T V U : Type) (to_transform : V -> T) (leq : list T -> list T -> bool) (t : targets) (l : list (decl T V U)) (w : which),
  Forall no_transform l -> iused w (minify T V U to_transform leq t l) = iused w l.
Proof. exact (fun T V U tt leq t => individual_kept tt leq t). Qed.
Print Assumptions C61_individual_partial.
Example C61_individual_case :
  let l := [Individual WRotate 1; Other 5; Unparsed (Some WScale) 2 (single NoPrefix); Individual WRotate 3; Individual WTranslate 4] in
  Forall no_transform l /\ minify nat nat nat (fun v => v) nleq no_targets l
    = [Other 5; Individual WRotate 1; Unparsed (Some WScale) 2 (single NoPrefix); Individual WTranslate 4; Individual WRotate 3].
Proof. split; [repeat constructor|reflexivity]. Qed.
(** Without individual properties, and without prefixes, [transform] keeps its value, also under the prefixes that
    the targets need *)
Theorem C61_unprefixed_partial : forall (T V U : Type) (to_transform : V -> T) (leq : list T -> list T -> bool) (t : targets) (l : list (decl T V U)) (p : pfx),
  Forall no_individual l -> Forall unprefixed l -> has (prefixes t (single NoPrefix) 0) p = true ->
  used p (minify T V U to_transform leq t l) = used NoPrefix l.
Proof. exact (fun T V U tt leq t => unprefixed_kept tt leq t). Qed.
Print Assumptions C61_unprefixed_partial.
Example C61_unprefixed_case :
  let l := [Transform [1; 2] (single NoPrefix); Transform [3] (single NoPrefix); Unparsed None 4 (single NoPrefix); Transform [5] (single NoPrefix)] in
  Forall no_individual l /\ Forall unprefixed l /\ has (prefixes safari (single NoPrefix) 0) WebKit = true
  /\ minify nat nat nat (fun v => v) nleq safari l
    = [Transform [3] (PSet true false false false true); Unparsed None 4 (PSet true false false false true); Transform [5] (PSet true false false false true)].
Proof. split; [repeat constructor|]. split; [repeat constructor|]. split; reflexivity. Qed.
(** Without individual properties and without targets, [transform] keeps its value under each prefix, if no prefix
    gets another value once a different prefix has the same value *)
Theorem C61_prefixed_partial : forall (T V U : Type) (to_transform : V -> T) (leq : list T -> list T -> bool) (t : targets) (l : list (decl T V U)) (p : pfx),
  (forall a b, leq a b = true <-> a = b) -> (forall ps, prefixes t ps 0 = ps) -> Forall no_individual l -> Forall written l -> steady l ->
  used p (minify T V U to_transform leq t l) = used p l.
Proof. exact (fun T V U tt leq t l p He Ht => steady_kept tt leq He t Ht l p). Qed.
Print Assumptions C61_prefixed_partial.
(** [-webkit-transform: 1; transform: 1; -moz-transform: 2] *)
Example C61_prefixed_case :
  let l := [Transform [1] (single WebKit); Transform [1] (single NoPrefix); Transform [2] (single Moz)] in
  (forall a b, nleq a b = true <-> a = b) /\ (forall ps, prefixes no_targets ps 0 = ps) /\ Forall no_individual l /\ Forall (@written nat nat nat) l /\ steady l
  /\ minify nat nat nat (fun v => v) nleq no_targets l = [Transform [1] (PSet true false false false true); Transform [2] (single Moz)].
Proof.
  split; [intros a b; unfold nleq; destruct (list_eq_dec _ a b); split; congruence|]. split; [intros ps; unfold prefixes; cbn; now destruct (none ps && true)|].
  split; [repeat constructor|]. split; [repeat constructor; eexists; reflexivity|]. split; [|reflexivity].
  intros l1 v p l2 E w H N q D. destruct l1 as [|d1 [|d2 [|d3 [|d4 l1]]]]; cbn in E; [..|discriminate].
  all: destruct p; try discriminate E; injection E; intros; subst; discriminate H.
Qed.
(** [transform] followed by at most one of each of [translate], [rotate] and [scale], in this order, has the effect of
    the block, if the effect of [transform] commutes with each of them *)
Theorem C61_stacked_partial : forall (T V U : Type) (to_transform : V -> T) (leq : list T -> list T -> bool) (t : targets) (E : Type) (then_ : E -> E -> E) (unit : E)
  (function : T -> E) (individual : V -> option E),
  has (prefixes t (single NoPrefix) 0) NoPrefix = true ->
  (forall a b c, then_ a (then_ b c) = then_ (then_ a b) c) -> (forall a, then_ unit a = a) -> (forall a, then_ a unit = a) ->
  forall (l : list T) (a b c : option V),
  proper E then_ unit function individual to_transform l a -> proper E then_ unit function individual to_transform l b -> proper E then_ unit function individual to_transform l c ->
  let block := Transform l (single NoPrefix) :: @opt T V U WTranslate a ++ opt WRotate b ++ opt WScale c in
  total E then_ unit function individual (minify T V U to_transform leq t block) = total E then_ unit function individual block.
Proof. exact (fun T V U tt leq t E th u f i Ht => stacked tt leq t Ht E th u f i). Qed.
Print Assumptions C61_stacked_partial.
(** Effects are strings of letters; [transform: none; rotate: 1; scale: 2] *)
Example C61_stacked_case :
  proper (list nat) (@app nat) [] (fun n => [n]) (fun n => Some [n]) (fun n => n) [] (Some 1)
  /\ minify nat nat nat (fun v => v) nleq no_targets [Transform [] (single NoPrefix); Individual WRotate 1; Individual WScale 2] = [Transform [1; 2] (single NoPrefix)].
Proof. split; [split; reflexivity|reflexivity]. Qed.

(** In general the effect is not kept: [transform: 1; rotate: 2] becomes [transform: 1 2], where CSS puts 2 first. *)
Theorem C61_order_refuted : exists l : list (decl nat nat nat),
  total (list nat) (@app nat) [] (fun n => [n]) (fun n => Some [n]) l = Some [2; 1]
  /\ total (list nat) (@app nat) [] (fun n => [n]) (fun n => Some [n]) (minify nat nat nat (fun v => v) nleq no_targets l) = Some [1; 2].
Proof. exists [Transform [1] (single NoPrefix); Individual WRotate 2]. split; reflexivity. Qed.
Print Assumptions C61_order_refuted.
(** [transform: none; rotate: 1; rotate: 2] rotates twice. *)
Theorem C61_twice_refuted : exists l : list (decl nat nat nat),
  total (list nat) (@app nat) [] (fun n => [n]) (fun n => Some [n]) l = Some [2]
  /\ total (list nat) (@app nat) [] (fun n => [n]) (fun n => Some [n]) (minify nat nat nat (fun v => v) nleq no_targets l) = Some [1; 2].
Proof. exists [Transform [] (single NoPrefix); Individual WRotate 1; Individual WRotate 2]. split; reflexivity. Qed.
Print Assumptions C61_twice_refuted.
(** [translate: 1; transform: 2] loses [translate]. *)
Theorem C61_dropped_refuted : exists l : list (decl nat nat nat),
  total (list nat) (@app nat) [] (fun n => [n]) (fun n => Some [n]) l = Some [1; 2]
  /\ total (list nat) (@app nat) [] (fun n => [n]) (fun n => Some [n]) (minify nat nat nat (fun v => v) nleq no_targets l) = Some [2].
Proof. exists [Individual WTranslate 1; Transform [2] (single NoPrefix)]. split; reflexivity. Qed.
Print Assumptions C61_dropped_refuted.
(** [transform: none; rotate: none] (a value 0 without effect here) makes the box a transformed one. *)
Theorem C61_none_refuted : exists l : list (decl nat nat nat),
  total (list nat) (@app nat) [] (fun n => [n]) (fun n => match n with 0 => None | _ => Some [n] end) l = None
  /\ total (list nat) (@app nat) [] (fun n => [n]) (fun n => match n with 0 => None | _ => Some [n] end) (minify nat nat nat (fun v => v) nleq no_targets l) = Some [0].
Proof. exists [Transform [] (single NoPrefix); Individual WRotate 0]. split; reflexivity. Qed.
Print Assumptions C61_none_refuted.
(** [-webkit-transform: 1; transform: 1; -webkit-transform: 2] changes [transform] to 2. *)
Theorem C61_prefix_refuted : exists l : list (decl nat nat nat),
  used NoPrefix l = Some (CList [1]) /\ used NoPrefix (minify nat nat nat (fun v => v) nleq no_targets l) = Some (CList [2]).
Proof. exists [Transform [1] (single WebKit); Transform [1] (single NoPrefix); Transform [2] (single WebKit)]. split; reflexivity. Qed.
Print Assumptions C61_prefix_refuted.
