(** * Printing of nested rules, and unused symbols *)
From Coq Require Import List Bool PeanoNat NArith.
From Verif Require Import SelectorModel SelectorSpec NestModel NestSpec NestProofs NestExamples.
Import ListNotations.
Local Open Scope list_scope.

(** ** C33 *)
(** A nested selector is printed as a selector that can be read, matches the same elements of every document
    and has the same specificity, if it and those around it are fine. *)
Theorem C33_selector_partial : forall fuel dest ctx s t,
  fine_context ctx -> fine_in ctx s -> serialize fuel dest ctx false s = Some t ->
  readable t = true
  /\ (forall E (w : world E), extensional w -> forall e, printed w t e <-> nested w ctx s e)
  /\ (closed_in ctx s -> forall weight, printed_spec weight t = nested_spec weight ctx s).
Proof. exact selector_means. Qed.
Print Assumptions C33_selector_partial.

(** The printed rules have the same declarations under the same conditions in the same order, and they apply
    to the same elements with the same specificity. *)
Theorem C33_rules_partial : forall E (w : world E) weight, extensional w -> forall fuel rules ps,
  Forall (fine_rule []) rules -> prints fuel [] rules = Some ps ->
  Forall2 same_block (flat_map (nested_blocks w weight [] []) rules) (flat_map (printed_blocks w weight []) ps).
Proof. exact @sheet_good. Qed.
Print Assumptions C33_rules_partial.
Example C33_rules_case : Forall (fine_rule []) sheet /\ Forall (fine_rule []) card /\ prints 9 [] sheet <> None /\ prints 9 [] card <> None
  /\ prints 9 [] card = Some
         [PStyle [[Atom 0]] [1]; PStyle [[Atom 0; Atom 1]] [2];
          PStyle [[Atom 4; Comb Descendant; Atom 0; Atom 1]] [5];
          PStyle [[Atom 2; Comb Descendant; Atom 0]] [3];
          PStyle [[Is [[Atom 0]; [Atom 3]]; Comb Child; Atom 0]] [4];
          PStyle [[Local 1; Atom 0]] [6]].
Proof. split; [fine_tac|]. split; [fine_tac|]. vm_compute. repeat split; discriminate. Qed.

(** Printing ends, with enough stack, unless [&] is inside of [:host()] or [::slotted()]. *)
Theorem C33_finishes_partial : forall dest ctx s,
  forallb hosts_free s = true -> Forall (Forall (fun s => forallb hosts_free s = true)) ctx ->
  exists fuel t, forall fuel', fuel <= fuel' -> serialize fuel' dest ctx false s = Some t.
Proof. exact serialize_ends. Qed.
Print Assumptions C33_finishes_partial.
Example C33_finishes_case :
  serialize 2 [] [] false [Is [[Atom 0; Is [[Atom 1]; [Atom 2]]]]] = None
  /\ serialize 3 [] [] false [Is [[Atom 0; Is [[Atom 1]; [Atom 2]]]]] = Some [Atom 0; Is [[Atom 1]; [Atom 2]]].
Proof. split; reflexivity. Qed.

(** ** Where C33 is false *)
(** [.a .b { &.x { .dark & { } } }] becomes [.dark .a .b.x]: the ancestor of [&] is inside [.dark]. *)
Theorem C33_leading_refuted : exists ctx s t w e, (forall fuel dest, 3 <= fuel -> serialize fuel dest ctx false s = Some t)
  /\ nested w ctx s e /\ ~ printed (E := nat) w t e.
Proof. exact leading_refuted. Qed.
Print Assumptions C33_leading_refuted.
(** [.a .b { .c:has(> &) { } }] becomes [.c:has(> .a .b)]. *)
Theorem C33_has_refuted : exists ctx s t w e, (forall fuel dest, 4 <= fuel -> serialize fuel dest ctx false s = Some t)
  /\ nested w ctx s e /\ ~ printed (E := nat) w t e.
Proof. exact has_refuted. Qed.
Print Assumptions C33_has_refuted.
(** [.a .b { .x:is(&) { } }] becomes [.x.a .b], which matches elements that are not [.x]. *)
Theorem C33_is_refuted : exists ctx s t w e, (forall fuel dest, 4 <= fuel -> serialize fuel dest ctx false s = Some t)
  /\ printed w t e /\ ~ nested (E := nat) w ctx s e.
Proof. exact is_refuted. Qed.
Print Assumptions C33_is_refuted.
(** [div { &.a { .x& { } } }] becomes [.xdiv.a], and [.foo { .x > &div { } }] becomes [.x > .foodiv]. *)
Theorem C33_type_refuted : exists ctx s t, (forall fuel dest, 4 <= fuel -> serialize fuel dest ctx false s = Some t)
  /\ readable t = false.
Proof. exact type_refuted. Qed.
Print Assumptions C33_type_refuted.
Theorem C33_type_later_refuted : exists ctx s t, (forall fuel dest, 4 <= fuel -> serialize fuel dest ctx false s = Some t)
  /\ readable t = false /\ Forall (Forall (fun s => is_simple s = true)) ctx.
Proof. exact type_later_refuted. Qed.
Print Assumptions C33_type_later_refuted.
(** [.a { :host(&) { & .b { } } }]: no stack is large enough. *)
Theorem C33_host_refuted : exists ctx s, forall fuel, serialize fuel ctx ctx false s = None.
Proof. exact host_refuted. Qed.
Print Assumptions C33_host_refuted.
(** [&] outside of rules becomes [:scope], which counts as a class. *)
Theorem C33_root_refuted : exists s t, (forall fuel dest, 4 <= fuel -> serialize fuel dest [] false s = Some t)
  /\ forall weight, printed_spec weight t <> nested_spec weight [] s.
Proof. exact root_refuted. Qed.
Print Assumptions C33_root_refuted.

(** ** C34 *)
(** Without elements that have the unused symbols, only blocks that apply to nothing are removed, and the rest
    stays as it is, if the selectors in unused rules need what is around them. *)
Theorem C34_kept_partial : forall E (w : world E) weight gone, absent w gone -> forall rules,
  forallb (bound_inside gone) rules = true ->
  trimmed (flat_map (nested_blocks w weight [] []) rules)
          (flat_map (nested_blocks w weight [] []) (flat_map (prune gone false) rules)).
Proof. exact @unused_good. Qed.
Print Assumptions C34_kept_partial.
(** What is left has no rule whose selectors all have unused symbols. *)
Theorem C34_removed : forall gone rules, gone <> [] -> forallb (live gone) (flat_map (prune gone false) rules) = true.
Proof. exact unused_removed. Qed.
Print Assumptions C34_removed.
Example C34_case : forallb (bound_inside [0; 1]) unused = true
  /\ flat_map (prune [0; 1] false) unused = [Style [[Atom 0]; [Atom 6]] [6] [Style [[Nesting; Atom 7]] [7] []]]
  /\ absent (chain [[6]; [4; 7]]) [0; 1].
Proof.
  split; [reflexivity|]. split; [reflexivity|]. intros n e N. cbn. destruct N as [<-|[<-|[]]]; destruct e as [|[|[|e]]]; cbn; intuition discriminate.
Qed.
(** [.u { :not(&) { } }]: the nested rule is removed although it applies. *)
Theorem C34_not_refuted : exists gone rules (w : world nat) weight, absent w gone
  /\ flat_map (prune gone false) rules = []
  /\ exists b e x, In b (flat_map (nested_blocks w weight [] []) rules) /\ applies b e x.
Proof. exact unused_not_refuted. Qed.
Print Assumptions C34_not_refuted.
(** [.u { :is(.b, &) { } }], too. *)
Theorem C34_list_refuted : exists gone rules (w : world nat) weight, absent w gone
  /\ flat_map (prune gone false) rules = []
  /\ exists b e x, In b (flat_map (nested_blocks w weight [] []) rules) /\ applies b e x.
Proof. exact unused_list_refuted. Qed.
Print Assumptions C34_list_refuted.
