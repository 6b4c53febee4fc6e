(** * Properties C17 and C18 *)
From Coq Require Import List Bool String PeanoNat.
From Verif Require Import VendorPrefixModel ShorthandTable DeclModel DeclSpec DeclProofs DeclSetProofs DeclGetProofs
  DeclRemoveProofs DeclDecide DeclExamples.
Import ListNotations.
Local Open Scope string_scope.
Local Open Scope list_scope.

(** ** C17 *)

(** [get] of a longhand returns the declaration that wins the cascade in the block, with its
    importance.  Missing: when the winner is a shorthand with [var()] or [all], refuted below;
    longhands whose shorthand differs in having prefixes, refuted below. *)
Theorem C17_get_longhand_partial : forall valid b l, typed_block b -> ~ short l -> regular l ->
  (forall v imp, cascaded b l (Value v) imp -> get valid b l = Some (PLong l v, imp)) /\
  (forall v imp, cascaded b l (Raw v) imp -> get valid b l = Some (PUnparsed l v, imp)) /\
  ((forall x imp, ~ cascaded b l x imp) -> get valid b l = None).
Proof. exact get_longhand_all. Qed.
Print Assumptions C17_get_longhand_partial.
Example C17_get_longhand_example :
  typed_block sheet /\ regular (PPlain "margin-left") /\ cascaded sheet (PPlain "margin-left") (Value ["5px"]) false /\
  get any sheet (PPlain "margin-left") = Some (plainly "margin-left" "5px", false).
Proof.
  split; [apply typed_blockb_ok; vm_compute; reflexivity|]. split; [apply regularb_ok; vm_compute; reflexivity|].
  split; [apply cascaded_check; vm_compute; reflexivity|]. vm_compute; reflexivity.
Qed.

(** [get] of a shorthand: the fields it returns are the winning values of all its longhands, and the
    importance is theirs.  Missing: as above. *)
Theorem C17_get_shorthand_sound_partial : forall valid b i r imp, typed_block b -> short i ->
  (forall l, part_of i l -> regular l /\ forall x j, cascaded b l x j -> exists v, x = Value v) ->
  get valid b i = Some (PShort i r, imp) ->
  forall l, part_of i l -> exists v, says (PShort i r) l (Value v) /\ cascaded b l (Value v) imp.
Proof. exact get_shorthand_sound. Qed.
Print Assumptions C17_get_shorthand_sound_partial.
Example C17_get_shorthand_sound_example :
  typed_block shadowed /\ get any shadowed (PPlain "margin") = Some (margin "2px" "1px" "1px" "1px", false).
Proof. split; [apply typed_blockb_ok; vm_compute; reflexivity|vm_compute; reflexivity]. Qed.

(** [get] of a shorthand finds it: if the winners of all longhands are the longhands of one shorthand
    value, that value is returned.  Missing: the list shorthands (refuted below), and blocks that mix
    importance or prefixes. *)
Theorem C17_get_shorthand_complete_partial : forall valid b i vs imp, typed_block b -> plain i -> typed (PShort i vs) ->
  regular_prop (PShort i vs) -> prefixes_agree b (PShort i vs) -> valid (pid_name i) vs = true -> ~ mixed b (PShort i vs) imp ->
  (forall l y, says (PShort i vs) l y -> cascaded b l y imp) -> get valid b i = Some (PShort i vs, imp).
Proof. exact get_shorthand_complete. Qed.
Print Assumptions C17_get_shorthand_complete_partial.

(** After [set], everything the new declaration says wins the cascade with that importance.  Missing:
    blocks where the declaration changed in place is overridden later ([carried]) or by an important
    one ([overruled]), refuted below; [all]; properties that are not [regular]. *)
Theorem C17_set_wins_partial : forall b p imp l x, typed_block b -> typed p -> regular_prop p -> prop_id p <> PAll ->
  carried (target b imp) p -> (imp = false -> ~ overruled b p) -> says p l x -> cascaded (set b p imp) l x imp.
Proof. exact set_wins. Qed.
Print Assumptions C17_set_wins_partial.
Example C17_set_wins_example : let p := plainly "margin-top" "9px" in
  typed_block sheet /\ typed p /\ regular_prop p /\ carried (target sheet false) p /\ ~ overruled sheet p /\
  b_normal (set sheet p false) =
    [plainly "margin-left" "1px"; margin "9px" "3px" "4px" "5px"; plainly "color" "red"; plainly "padding-inline-start" "1px"].
Proof.
  intros p. assert (TB : typed_block sheet) by (apply typed_blockb_ok; vm_compute; reflexivity).
  assert (TP : typed p) by (apply typedb_ok; vm_compute; reflexivity).
  assert (R : regular_prop p) by (apply regular_propb_ok; [exact TP|vm_compute; reflexivity]).
  split; [exact TB|]. split; [exact TP|]. split; [exact R|]. split; [|split].
  - apply (carriedb_ok _ _ (proj2 (typed_split _ TB)) TP R); [discriminate|vm_compute; reflexivity].
  - apply (overruledb_ok _ _ TB TP); [discriminate|vm_compute; reflexivity].
  - vm_compute; reflexivity.
Qed.

(** [set] does not change the cascaded value of any longhand the new declaration does not set. *)
Theorem C17_set_others_partial : forall b p imp l x i, typed_block b -> typed p -> regular_prop p -> prop_id p <> PAll ->
  (forall y, ~ says p l y) -> cascaded (set b p imp) l x i <-> cascaded b l x i.
Proof. exact set_others. Qed.
Print Assumptions C17_set_others_partial.
(** Two of the three lists of the [background] block are replaced in place, the others kept. *)
Example C17_set_others_example : let p := bg_position ["1px"; "2px"] ["3px"; "4px"] in
  typed_block layers /\ typed p /\ regular_prop p /\
  (forall y, ~ says p (PPlain "background-image") y) /\
  cascaded (set layers p false) (PPlain "background-image") (Value ["y"; "y"]) false /\
  cascaded (set layers p false) (PPlain "background-position-y") (Value ["3px"; "4px"]) false.
Proof.
  intros p. assert (TP : typed p) by (apply typedb_ok; vm_compute; reflexivity).
  split; [apply typed_blockb_ok; vm_compute; reflexivity|]. split; [exact TP|].
  split; [apply regular_propb_ok; [exact TP|vm_compute; reflexivity]|]. split.
  - intros y Y. apply says_to_say in Y. vm_compute in Y. discriminate.
  - split; apply cascaded_check; vm_compute; reflexivity.
Qed.

(** [set] keeps the order of logical and physical declarations: no declaration after the one that
    carries [p] sets the same thing in the other writing mode. *)
Theorem C17_set_order_partial : forall b p imp, typed_block b -> without_all b -> typed p -> regular_prop p -> prop_id p <> PAll ->
  exists a d c, target (set b p imp) imp = a ++ d :: c /\ (forall l x, says p l x -> says d l x) /\
    forall e l l' x y, In e c -> says p l x -> says e l' y -> ~ opposed l l'.
Proof. exact set_order. Qed.
Print Assumptions C17_set_order_partial.
Example C17_set_order_example : let b := Block [] [plainly "padding-top" "1px"; plainly "padding-block-start" "2px"] in
  opposed (PPlain "padding-top") (PPlain "padding-block-start") /\
  b_normal (set b (plainly "padding-top" "3px") false) =
    [plainly "padding-top" "1px"; plainly "padding-block-start" "2px"; plainly "padding-top" "3px"].
Proof.
  split; [|vm_compute; reflexivity]. exists GPadding, Physical, Logical. split; [|split; [|discriminate]].
  - apply (nth_error_In logical_table 60). vm_compute; reflexivity.
  - apply (nth_error_In logical_table 64). vm_compute; reflexivity.
Qed.

(** [set] and then [get] of the same property.  Missing: as for [C17_set_wins_partial]. *)
Theorem C17_set_get_longhand_partial : forall valid b p imp, typed_block b -> typed p -> ~ short (prop_id p) -> regular (prop_id p) ->
  prop_id p <> PAll -> carried (target b imp) p -> (imp = false -> ~ overruled b p) ->
  get valid (set b p imp) (prop_id p) = Some (p, imp).
Proof. exact set_get_longhand. Qed.
Print Assumptions C17_set_get_longhand_partial.
Example C17_set_get_longhand_example : let p := plainly "padding-top" "9px" in
  typed_block sheet /\ typed p /\ regular (prop_id p) /\ carried (target sheet false) p /\ ~ overruled sheet p /\
  get any (set sheet p false) (PPlain "padding-top") = Some (p, false).
Proof.
  intros p. assert (TB : typed_block sheet) by (apply typed_blockb_ok; vm_compute; reflexivity).
  assert (TP : typed p) by (apply typedb_ok; vm_compute; reflexivity).
  assert (R : regular_prop p) by (apply regular_propb_ok; [exact TP|vm_compute; reflexivity]).
  split; [exact TB|]. split; [exact TP|]. split; [apply regularb_ok; vm_compute; reflexivity|].
  split; [apply (carriedb_ok _ _ (proj2 (typed_split _ TB)) TP R); [discriminate|vm_compute; reflexivity]|].
  split; [apply (overruledb_ok _ _ TB TP); [discriminate|vm_compute; reflexivity]|vm_compute; reflexivity].
Qed.

(** Missing: list shorthands, [grid] values that are not valid together, blocks with other prefixes or
    with declarations of the other importance. *)
Theorem C17_set_get_shorthand_partial : forall valid b i vs imp, typed_block b -> typed (PShort i vs) -> plain i ->
  regular_prop (PShort i vs) -> prefixes_agree b (PShort i vs) -> valid (pid_name i) vs = true ->
  carried (target b imp) (PShort i vs) ->
  (forall d, In d (target b (negb imp)) -> prop_id d <> i -> ~ touches d (PShort i vs)) ->
  get valid (set b (PShort i vs) imp) i = Some (PShort i vs, imp).
Proof. exact set_get_shorthand. Qed.
Print Assumptions C17_set_get_shorthand_partial.
Example C17_set_get_shorthand_example :
  let p := margin "6px" "6px" "6px" "6px" in
  typed_block sheet /\ typed p /\ plain (PPlain "margin") /\ regular_prop p /\ prefixes_agree sheet p /\
  carried (target sheet false) p /\ (forall d, In d (target sheet true) -> prop_id d <> PPlain "margin" -> ~ touches d p) /\
  get any (set sheet p false) (PPlain "margin") = Some (p, false).
Proof.
  intros p. assert (TB : typed_block sheet) by (apply typed_blockb_ok; vm_compute; reflexivity).
  assert (TP : typed p) by (apply typedb_ok; vm_compute; reflexivity).
  assert (R : regular_prop p) by (apply regular_propb_ok; [exact TP|vm_compute; reflexivity]).
  split; [exact TB|]. split; [exact TP|]. split.
  { exists (nth 42 shorthand_table (Sh "" false KPlain [])). split; [apply nth_In; vm_compute; repeat constructor|]. vm_compute. repeat split. }
  split; [exact R|]. split.
  { intros d n q [[<- |[]]|[<- |[<- |[<- |[<- |[]]]]]] E; discriminate E. }
  split; [apply (carriedb_ok _ _ (proj2 (typed_split _ TB)) TP R); [discriminate|vm_compute; reflexivity]|].
  split; [|vm_compute; reflexivity]. intros d [<- |[]] _ TO. apply touchesb_iff in TO; [|apply typedb_ok; vm_compute; reflexivity|exact TP|discriminate].
  vm_compute in TO. discriminate.
Qed.

(** A shorthand replaced in place before a longhand: the longhand still wins. *)
Theorem C17_shadowed_refuted : exists b p, typed_block b /\ typed p /\ regular_prop p /\
  get any (set b p false) (prop_id p) <> Some (p, false).
Proof.
  exists shadowed, (margin "3px" "3px" "3px" "3px").
  assert (TP : typed (margin "3px" "3px" "3px" "3px")) by (apply typedb_ok; vm_compute; reflexivity).
  split; [apply typed_blockb_ok; vm_compute; reflexivity|]. split; [exact TP|].
  split; [apply regular_propb_ok; [exact TP|vm_compute; reflexivity]|]. vm_compute. discriminate.
Qed.
Print Assumptions C17_shadowed_refuted.
(** A longhand set while its shorthand is important *)
Theorem C17_important_refuted : exists b p, typed_block b /\ typed p /\ regular_prop p /\
  get any (set b p false) (prop_id p) = Some (plainly "margin-top" "1px", true) /\ p = plainly "margin-top" "3px".
Proof.
  exists locked, (plainly "margin-top" "3px").
  assert (TP : typed (plainly "margin-top" "3px")) by (apply typedb_ok; vm_compute; reflexivity).
  split; [apply typed_blockb_ok; vm_compute; reflexivity|]. split; [exact TP|].
  split; [apply regular_propb_ok; [exact TP|vm_compute; reflexivity]|]. vm_compute. split; reflexivity.
Qed.
Print Assumptions C17_important_refuted.
(** A longhand that is one of several behind a field of [border]: an earlier declaration is changed
    and [border] still wins. *)
Theorem C17_grouped_refuted : exists b p, typed_block b /\ typed p /\ regular_prop p /\
  get any (set b p false) (prop_id p) = Some (plainly "border-top-width" "2px", false) /\ p = plainly "border-top-width" "3px".
Proof.
  exists grouped, (plainly "border-top-width" "3px").
  assert (TP : typed (plainly "border-top-width" "3px")) by (apply typedb_ok; vm_compute; reflexivity).
  split; [apply typed_blockb_ok; vm_compute; reflexivity|]. split; [exact TP|].
  split; [apply regular_propb_ok; [exact TP|vm_compute; reflexivity]|]. vm_compute. split; reflexivity.
Qed.
Print Assumptions C17_grouped_refuted.
(** The same with a list shorthand of another length *)
Theorem C17_uneven_refuted : exists b p, typed_block b /\ typed p /\ regular_prop p /\
  get any (set b p false) (prop_id p) <> Some (p, false).
Proof.
  exists uneven, (PLong (vp "transition-duration" Unprefixed) ["5s"]).
  assert (TP : typed (PLong (vp "transition-duration" Unprefixed) ["5s"])) by (apply typedb_ok; vm_compute; reflexivity).
  split; [apply typed_blockb_ok; vm_compute; reflexivity|]. split; [exact TP|].
  split; [apply regular_propb_ok; [exact TP|vm_compute; reflexivity]|]. vm_compute. discriminate.
Qed.
Print Assumptions C17_uneven_refuted.
(** A later shorthand with [var()] is ignored by [get] and not overridden by [set]. *)
Theorem C17_unparsed_refuted : exists b l p, typed_block b /\ typed p /\ regular_prop p /\ cascaded b l Pending false /\
  get any b l = Some (plainly "margin-top" "1px", false) /\ cascaded (set b p false) l Pending false /\ prop_id p = l.
Proof.
  exists pending, (PPlain "margin-top"), (plainly "margin-top" "3px").
  assert (TP : typed (plainly "margin-top" "3px")) by (apply typedb_ok; vm_compute; reflexivity).
  split; [apply typed_blockb_ok; vm_compute; reflexivity|]. split; [exact TP|].
  split; [apply regular_propb_ok; [exact TP|vm_compute; reflexivity]|].
  split; [apply cascaded_check; vm_compute; reflexivity|]. split; [vm_compute; reflexivity|].
  split; [apply cascaded_check; vm_compute; reflexivity|reflexivity].
Qed.
Print Assumptions C17_unparsed_refuted.
(** So is [all]. *)
Theorem C17_all_refuted : exists b l p, typed_block b /\ typed p /\ regular_prop p /\ cascaded b l (Reset ["unset"]) false /\
  get any b l = Some (plainly "color" "red", false) /\ cascaded (set b p false) l (Reset ["unset"]) false /\ prop_id p = l.
Proof.
  exists reset, (PPlain "color"), (plainly "color" "blue").
  assert (TP : typed (plainly "color" "blue")) by (apply typedb_ok; vm_compute; reflexivity).
  split; [apply typed_blockb_ok; vm_compute; reflexivity|]. split; [exact TP|].
  split; [apply regular_propb_ok; [exact TP|vm_compute; reflexivity]|].
  split; [apply cascaded_check; vm_compute; reflexivity|]. split; [vm_compute; reflexivity|].
  split; [apply cascaded_check; vm_compute; reflexivity|reflexivity].
Qed.
Print Assumptions C17_all_refuted.
(** A list shorthand is not found when the block has any other declaration. *)
Theorem C17_list_refuted : exists b i vs, typed_block b /\ In (PShort i vs) (b_normal b) /\ typed (PShort i vs) /\
  regular_prop (PShort i vs) /\ (forall d, in_block b d -> d = PShort i vs \/ d = plainly "color" "red") /\ get any b i = None.
Proof.
  exists listed, (vp "transition" Unprefixed), (repeat (repeat "x" 1) 4).
  assert (TP : typed (transition 1)) by (apply typedb_ok; vm_compute; reflexivity).
  split; [apply typed_blockb_ok; vm_compute; reflexivity|]. split; [left; reflexivity|]. split; [exact TP|].
  split; [apply regular_propb_ok; [exact TP|vm_compute; reflexivity]|]. split; [|vm_compute; reflexivity].
  intros d [[]|[<- |[<- |[]]]]; auto.
Qed.
Print Assumptions C17_list_refuted.
(** A longhand without prefix of a shorthand with one is not found. *)
Theorem C17_prefixed_shorthand_refuted : exists b l v, typed_block b /\ cascaded b l (Value v) false /\ get any b l = None.
Proof.
  exists imaged, (PPlain "border-image-source"), ["url(x)"]. split; [apply typed_blockb_ok; vm_compute; reflexivity|].
  split; [apply cascaded_check; vm_compute; reflexivity|vm_compute; reflexivity].
Qed.
Print Assumptions C17_prefixed_shorthand_refuted.
(** Setting a prefixed longhand changes the unprefixed one through its shorthand. *)
Theorem C17_prefixed_longhand_refuted : exists b p l v w, typed_block b /\ typed p /\ (forall y, ~ says p l y) /\
  cascaded b l (Value v) false /\ cascaded (set b p false) l (Value w) false /\ v <> w.
Proof.
  exists placed, (PLong (vp "align-content" WebKit) ["stretch"]), (vp "align-content" Unprefixed), ["start"], ["stretch"].
  split; [apply typed_blockb_ok; vm_compute; reflexivity|]. split; [apply typedb_ok; vm_compute; reflexivity|].
  split; [intros y Y; apply says_to_say in Y; vm_compute in Y; discriminate|].
  split; [apply cascaded_check; vm_compute; reflexivity|]. split; [apply cascaded_check; vm_compute; reflexivity|discriminate].
Qed.
Print Assumptions C17_prefixed_longhand_refuted.
(** An important shorthand is not found when the block has a normal longhand. *)
Theorem C17_mixed_refuted : exists b i vs, typed_block b /\ In (PShort i vs) (b_important b) /\
  (forall l v, says (PShort i vs) l (Value v) -> cascaded b l (Value v) true) /\ get any b i = None.
Proof.
  exists both, (PPlain "margin"), [["1px"]; ["1px"]; ["1px"]; ["1px"]]. split; [apply typed_blockb_ok; vm_compute; reflexivity|].
  split; [left; reflexivity|]. split; [|vm_compute; reflexivity].
  intros l v S. exists [], (margin "1px" "1px" "1px" "1px"), []. split; [reflexivity|]. split; [exact S|intros d x []].
Qed.
Print Assumptions C17_mixed_refuted.

(** ** C18 *)

(** Removing a longhand: nothing but [all] sets it any more, [get] finds nothing, and the other
    longhands keep their values.  Missing: shorthands with [var()] and longhands that are not regular,
    refuted below; [all]. *)
Theorem C18_remove_longhand_partial : forall valid b i, typed_block b -> ~ short i -> i <> PAll ->
  (forall x imp, cascaded (remove b i) i x imp -> exists v, x = Reset v) /\
  (regular i -> get valid (remove b i) i = None) /\
  ((forall d, in_block b d -> part_of (prop_id d) i -> prop_id d <> i -> splittable d) ->
   forall l x imp, l <> i -> cascaded (remove b i) l x imp <-> cascaded b l x imp).
Proof. exact remove_longhand. Qed.
Print Assumptions C18_remove_longhand_partial.
Example C18_remove_longhand_example :
  typed_block sheet /\ (forall d, in_block sheet d -> part_of (prop_id d) (PPlain "margin-top") -> prop_id d <> PPlain "margin-top" -> splittable d) /\
  b_normal (remove sheet (PPlain "margin-top")) =
    [plainly "margin-left" "1px"; plainly "margin-right" "3px"; plainly "margin-bottom" "4px"; plainly "margin-left" "5px";
     plainly "color" "red"; plainly "padding-inline-start" "1px"].
Proof.
  split; [apply typed_blockb_ok; vm_compute; reflexivity|]. split; [|vm_compute; reflexivity].
  intros d [[<- |[]]|[<- |[<- |[<- |[<- |[]]]]]] P _; apply dom_part in P; vm_compute in P; try discriminate P.
  split; [eexists; eexists; reflexivity|]. apply regular_propb_ok; [apply typedb_ok|]; vm_compute; reflexivity.
Qed.

(** Removing a shorthand.  Missing: other shorthands that set some of its longhands, refuted below. *)
Theorem C18_remove_shorthand_partial : forall valid b i, typed_block b -> short i ->
  (forall l x imp, ~ part_of i l -> cascaded (remove b i) l x imp <-> cascaded b l x imp) /\
  ((forall d l x, in_block b d -> part_of i l -> says d l x -> prop_id d = i \/ prop_id d = l \/ prop_id d = PAll) ->
   (forall l x imp, part_of i l -> cascaded (remove b i) l x imp -> exists v, x = Reset v) /\
   ((forall l, part_of i l -> regular l) -> get valid (remove b i) i = None)).
Proof. exact remove_shorthand. Qed.
Print Assumptions C18_remove_shorthand_partial.
Example C18_remove_shorthand_example :
  short (PPlain "margin") /\ b_normal (remove sheet (PPlain "margin")) = [plainly "color" "red"; plainly "padding-inline-start" "1px"].
Proof.
  split; [|vm_compute; reflexivity]. destruct (short_dec (PPlain "margin")) as [H|H]; auto. apply find_none_short in H. vm_compute in H. discriminate.
Qed.

(** A shorthand with [var()] is dropped with all its longhands. *)
Theorem C18_unparsed_refuted : exists b i l, typed_block b /\ l <> i /\ cascaded b l Pending false /\ remove b i = Block [] [].
Proof.
  exists pending, (PPlain "margin-top"), (PPlain "margin-left"). split; [apply typed_blockb_ok; vm_compute; reflexivity|].
  split; [discriminate|]. split; [apply cascaded_check; vm_compute; reflexivity|vm_compute; reflexivity].
Qed.
Print Assumptions C18_unparsed_refuted.
(** So is a prefixed shorthand whose longhands have no prefix. *)
Theorem C18_prefixed_shorthand_refuted : exists b i l v, typed_block b /\ l <> i /\ cascaded b l (Value v) false /\ remove b i = Block [] [].
Proof.
  exists imaged, (PPlain "border-image-source"), (PPlain "border-image-slice"), ["1"]. split; [apply typed_blockb_ok; vm_compute; reflexivity|].
  split; [discriminate|]. split; [apply cascaded_check; vm_compute; reflexivity|vm_compute; reflexivity].
Qed.
Print Assumptions C18_prefixed_shorthand_refuted.
(** Removing [border-top] leaves [border], which sets the same longhands, so [get] still finds it. *)
Theorem C18_overlap_refuted : exists b i, typed_block b /\ short i /\ get any (remove b i) i <> None.
Proof.
  exists edges, (PPlain "border-top"). split; [apply typed_blockb_ok; vm_compute; reflexivity|].
  split; [|vm_compute; discriminate]. destruct (short_dec (PPlain "border-top")) as [H|H]; auto.
  apply find_none_short in H. vm_compute in H. discriminate.
Qed.
Print Assumptions C18_overlap_refuted.
