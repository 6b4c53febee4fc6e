(** * C14, C15, C16: minification of rule lists *)
From Coq Require Import List Bool String PeanoNat NArith.
From Verif Require Import MinifyModel MinifySpec MinifyTree MinifyProofs MinifyCalm MinifyFuel MinifyExamples.
Import ListNotations.
Local Open Scope list_scope.

(** ** C14 *)
(** Every list of rules is minified, to one result. *)
Theorem C14_finishes : forall c l, exists l' n, minifies c l l' n.
Proof. exact minifies_total. Qed.
Print Assumptions C14_finishes.
Theorem C14_unique : forall c l a n b m, minifies c l a n -> minifies c l b m -> a = b /\ n = m.
Proof. exact minifies_unique. Qed.
Print Assumptions C14_unique.

(** The claim is [forall c w l l' n q, minifies c l l' n -> cascaded w q (sheet w l') = cascaded w q (sheet w l)].
    Missing: sheets that are not tidy, targets, and runs that remove rules improperly; each is refuted below. *)
Theorem C14_cascade_partial : forall c w l l' n q,
  faithful c w -> untargeted c -> all_tidy Outer l -> minifies c l l' n -> Forall proper n ->
  cascaded w q (sheet w l') = cascaded w q (sheet w l).
Proof. exact cascade_kept. Qed.
Print Assumptions C14_cascade_partial.

(** Rules are removed properly, if the last rule was never merged into the one before it and no rule is
    replaced by one with another number of important declarations. *)
Theorem C14_proper_partial : forall c l l' n, minifies c l l' n -> never_popped n -> Forall same_importance n -> Forall proper n.
Proof. exact calm_proper. Qed.
Print Assumptions C14_proper_partial.

(** The other rules stay, in their order and layers. *)
Theorem C14_others_partial : forall c w l l' n,
  faithful c w -> untargeted c -> all_tidy Outer l -> minifies c l l' n -> Forall proper n ->
  others [] (sheet w l') = others [] (sheet w l).
Proof. exact others_kept. Qed.
Print Assumptions C14_others_partial.

(** The result can be minified again. *)
Theorem C14_tidy_partial : forall c w l l' n,
  faithful c w -> untargeted c -> all_tidy Outer l -> minifies c l l' n -> Forall proper n -> all_tidy Outer l'.
Proof. exact tidy_kept. Qed.
Print Assumptions C14_tidy_partial.

Example C14_cascade_case :
  faithful plain b1 /\ untargeted plain /\ all_tidy Outer rich /\ minifies plain rich (out plain rich) (said plain rich)
  /\ Forall proper (said plain rich) /\ never_popped (said plain rich) /\ Forall same_importance (said plain rich)
  /\ said plain rich <> [] /\ cascaded b1 1 (sheet b1 (out plain rich)) = Some 6
  /\ cascaded b1 0 (sheet b1 (out plain rich)) = Some 8 /\ others [] (sheet b1 (out plain rich)) = [([], [EOther 4])].
Proof.
  split; [apply plain_faithful|]. split; [apply plain_untargeted|]. split; [apply rich_tidy|]. split; [apply rich_runs|].
  split; [apply rich_proper|]. split; [vm_compute; intros [X|[]]; discriminate|]. split; [vm_compute; repeat constructor|].
  split; [vm_compute; discriminate|]. repeat split; vm_compute; reflexivity.
Qed.

(** An important declaration is lost. *)
Theorem C14_importance_refuted : exists c w l l' n q,
  faithful c w /\ untargeted c /\ all_tidy Outer l /\ minifies c l l' n /\ never_popped n
  /\ cascaded w q (sheet w l') <> cascaded w q (sheet w l).
Proof. exact importance_refuted. Qed.
Print Assumptions C14_importance_refuted.
(** A rule removes itself. *)
Theorem C14_own_key_refuted : exists c w l l' n q,
  faithful c w /\ untargeted c /\ all_tidy Outer l /\ minifies c l l' n /\ Forall same_importance n
  /\ cascaded w q (sheet w l') <> cascaded w q (sheet w l).
Proof. exact own_key_refuted. Qed.
Print Assumptions C14_own_key_refuted.
(** A browser that does not know the value of the later rule loses the earlier one; the minifier changes no
    block, condition or selector here. *)
Theorem C14_fallback_refuted : exists l l' n q,
  minifies plain l l' n /\ Forall proper n /\ cascaded old_values q (sheet old_values l') <> cascaded old_values q (sheet old_values l).
Proof. exact fallback_refuted. Qed.
Print Assumptions C14_fallback_refuted.
(** Two rules for different prefixes are merged into one that is printed without the second. *)
Theorem C14_prefixes_refuted : exists l l' n q,
  minifies with_prefixes l l' n /\ n = [] /\ cascaded old_firefox q (sheet old_firefox l') <> cascaded old_firefox q (sheet old_firefox l).
Proof. exact prefixes_refuted. Qed.
Print Assumptions C14_prefixes_refuted.
(** A selector that the targets do not know is lost. *)
Theorem C14_split_refuted : exists l l' n q, let w := browser [100] [100] in
  minifies with_targets l l' n /\ n = [] /\ cascaded w q (sheet w l') <> cascaded w q (sheet w l).
Proof. exact split_refuted. Qed.
Print Assumptions C14_split_refuted.
(** A layer block moves before the same layer inside of a condition. *)
Theorem C14_layer_refuted : exists c w l l' n q,
  faithful c w /\ untargeted c /\ minifies c l l' n /\ n = [] /\ cascaded w q (sheet w l') <> cascaded w q (sheet w l).
Proof. exact layer_around_refuted. Qed.
Print Assumptions C14_layer_refuted.

(** ** C15 *)
(** The claim is the same for all sheets; missing: sheets that are not tidy (refuted below), targets, and runs that remove rules improperly. *)
Theorem C15_layers_partial : forall c w l l' n,
  faithful c w -> untargeted c -> all_tidy Outer l -> minifies c l l' n -> Forall proper n ->
  layers [] (sheet w l') = layers [] (sheet w l).
Proof. exact layers_kept. Qed.
Print Assumptions C15_layers_partial.
Example C15_layers_case :
  layers [] (sheet b1 (out plain rich)) = [[Some "reset"%string]; [Some "theme"%string]; [Some "theme"%string; Some "dark"%string]]
  /\ List.length (out plain rich) < List.length rich.
Proof. split; vm_compute; [reflexivity|]. repeat constructor. Qed.
(** Statements are joined across a condition with a layer in it. *)
Theorem C15_condition_refuted : exists c w l l' n,
  faithful c w /\ untargeted c /\ minifies c l l' n /\ n = [] /\ layers [] (sheet w l') <> layers [] (sheet w l).
Proof. exact layer_condition_refuted. Qed.
Print Assumptions C15_condition_refuted.
(** Blocks are joined across a block of a layer inside of theirs. *)
Theorem C15_dotted_refuted : exists c w l l' n,
  faithful c w /\ untargeted c /\ minifies c l l' n /\ n = [] /\ layers [] (sheet w l') <> layers [] (sheet w l).
Proof. exact layer_dotted_refuted. Qed.
Print Assumptions C15_dotted_refuted.

(** ** C16 *)
(** Missing: as above. *)
Theorem C16_keyframes_partial : forall c w l l' n name p,
  faithful c w -> untargeted c -> all_tidy Outer l -> minifies c l l' n -> Forall proper n -> unused_name c name = false ->
  keyframes_of name p (sheet w l') = keyframes_of name p (sheet w l).
Proof. exact keyframes_kept. Qed.
Print Assumptions C16_keyframes_partial.
Theorem C16_property_partial : forall c w l l' n name,
  faithful c w -> untargeted c -> all_tidy Outer l -> minifies c l l' n -> Forall proper n -> unused_name c name = false ->
  registered name (sheet w l') = registered name (sheet w l).
Proof. exact registered_kept. Qed.
Print Assumptions C16_property_partial.
Example C16_case :
  keyframes_of "spin" PNone (sheet b1 (out plain rich)) = Some 2 /\ keyframes_of "spin" PNone (sheet b1 rich) = Some 2
  /\ keyframes_of "gone" PNone (sheet b1 (out plain rich)) = None /\ keyframes_of "gone" PNone (sheet b1 rich) = Some 3
  /\ registered "--x" (sheet b1 (out plain rich)) = Some 2.
Proof. repeat split; vm_compute; reflexivity. Qed.
(** A rule inside of a condition takes the place of a later one. *)
Theorem C16_condition_refuted : exists c w l l' n name,
  faithful c w /\ untargeted c /\ minifies c l l' n /\ n = [] /\ unused_name c name = false
  /\ keyframes_of name PNone (sheet w l') <> keyframes_of name PNone (sheet w l).
Proof. exact keyframes_refuted. Qed.
Print Assumptions C16_condition_refuted.
Theorem C16_property_refuted : exists c w l l' n name,
  faithful c w /\ untargeted c /\ minifies c l l' n /\ n = [] /\ unused_name c name = false
  /\ registered name (sheet w l') <> registered name (sheet w l).
Proof. exact property_refuted. Qed.
Print Assumptions C16_property_refuted.
