(** * Properties of the bundler (C09-C13)

    [M] and [S] are the types of media lists and supports conditions, with their operations.  A
    successful load of the file [entry] under the schedule [sched] is [loads ... entry sched l];
    the schedule chooses at every step which of the started calls proceeds.  [bundle_sheets n l] is
    the rest of the bundler, with fuel [n]. *)
From Coq Require Import List Bool Arith String Lia QArith.
From Verif Require Import MediaModel MediaSpec BundleModel BundleSpec BundleLoadProofs BundleFuelProofs BundleMainProofs
  BundleLayerProofs BundleSchedProofs BundleExamples.
Import ListNotations.
Open Scope nat_scope.

(** ** C09: every file reached is in the bundle exactly once *)
Theorem C09_loaded_once : forall M S m_empty m_is_empty m_and m_or s_and s_or read css_modules entry sched l,
    loads M S m_empty m_is_empty m_and m_or s_and s_or read css_modules entry sched l ->
    NoDup (map sh_path l) /\ (forall p, In p (map sh_path l) <-> reach read css_modules entry p).
Proof. exact @loads_files. Qed.
Print Assumptions C09_loaded_once.
Example C09_loaded_example : exists l, ex_loads diamond false 0 [0; 0; 1; 0; 0] l /\ map sh_path l = [0; 1; 3; 2].
Proof. eexists; split; vm_compute; reflexivity. Qed.

(** In every graph, with cycles or not, the rules of a file are emitted at most once, in their
    order. *)
Theorem C09_emitted_at_most_once : forall M S m_empty m_is_empty m_and m_or s_and s_or read css_modules entry sched l n st,
    loads M S m_empty m_is_empty m_and m_or s_and s_or read css_modules entry sched l ->
    (forall p rs, reach read css_modules entry p -> read p = Some rs -> imports_lead rs) ->
    bundle_sheets M S m_empty css_modules n l = IOk st ->
    forall p, rules_from p (sheet_name l) (i_out st) = []
      \/ exists rs ly, read p = Some rs /\ rules_from p (sheet_name l) (i_out st) = own_rules (in_layer ly rs).
Proof. exact @at_most_once. Qed.
Print Assumptions C09_emitted_at_most_once.

(** Missing: cycles of imports that avoid the entry file, and imports after unknown at-rules
    ([imports_lead]); both refuted below. *)
Theorem C09_emitted_once_partial : forall M S m_empty m_is_empty m_and m_or s_and s_or read css_modules entry sched l n st,
    loads M S m_empty m_is_empty m_and m_or s_and s_or read css_modules entry sched l ->
    (forall p rs, reach read css_modules entry p -> read p = Some rs -> imports_lead rs) ->
    no_import_cycle read css_modules entry ->
    bundle_sheets M S m_empty css_modules n l = IOk st ->
    forall p, reach read css_modules entry p ->
      exists rs ly, read p = Some rs /\ rules_from p (sheet_name l) (i_out st) = own_rules (in_layer ly rs).
Proof. exact @all_emitted. Qed.
Print Assumptions C09_emitted_once_partial.
Example C09_emitted_example :
  no_import_cycle diamond false 0 /\ (forall p rs, diamond p = Some rs -> imports_lead rs)
  /\ exists l st, ex_loads diamond false 0 [0; 0; 0; 0; 0] l /\ ex_bundle false 9 l = IOk st
       /\ rules_from 3 (sheet_name l) (i_out st) = [SLayer [["x"%string]]; style 3].
Proof.
  split; [exact (increasing_no_cycle _ _ _ diamond_up)|].
  split; [apply leads_all; repeat constructor; exact I|].
  do 2 eexists. split; [vm_compute; reflexivity|]. split; [vm_compute; reflexivity|]. repeat split; vm_compute; reflexivity.
Qed.
(** A cycle through the entry file is within the theorem. *)
Example C09_entry_cycle_example :
  exists l st, ex_loads entry_cycle false 0 [0; 0; 0] l /\ ex_bundle false 9 l = IOk st
       /\ rules_from 0 (sheet_name l) (i_out st) = [style 0] /\ rules_from 1 (sheet_name l) (i_out st) = [style 1].
Proof. do 2 eexists. split; [vm_compute; reflexivity|]. split; [vm_compute; reflexivity|]. repeat split; vm_compute; reflexivity. Qed.

(** 0 imports 1, 1 imports 2 and 2 imports 1: neither 1 nor 2 is in the bundle. *)
Theorem C09_cycle_refuted :
  exists l st, ex_loads cycle false 0 [0; 0; 0; 0] l /\ (forall n, 9 <= n -> ex_bundle false n l = IOk st)
    /\ reach cycle false 0 1 /\ rules_from 1 (sheet_name l) (i_out st) = [] /\ cycle 1 = Some [imp 2; style 1].
Proof.
  do 2 eexists. split; [vm_compute; reflexivity|]. split.
  - intros n Hn. rewrite (bundle_more _ _ _ 9 n Hn); vm_compute; [reflexivity|discriminate].
  - split; [|split; vm_compute; reflexivity]. econstructor; [constructor|]. left. eexists. left. reflexivity.
Qed.
Print Assumptions C09_cycle_refuted.
(** An import after an unknown at-rule is loaded, but stays in the bundle as an import of a local
    file. *)
Theorem C09_late_import_refuted :
  exists l st, ex_loads late false 0 [0; 0] l /\ ex_bundle false 9 l = IOk st
    /\ reach late false 0 1 /\ rules_from 1 (sheet_name l) (i_out st) = [] /\ In (imp 1) (rules_from 0 (sheet_name l) (i_out st)).
Proof.
  do 2 eexists. split; [vm_compute; reflexivity|]. split; [vm_compute; reflexivity|].
  split; [econstructor; [constructor|]; left; eexists; left; reflexivity|]. split; [reflexivity|]. vm_compute. auto.
Qed.
Print Assumptions C09_late_import_refuted.

(** ** C10: the rules of the bundle are in the order in which a browser applies them.  Missing:
    [composes] dependencies, and files imported twice that share a dependency with another file;
    refuted below. *)
Theorem C10_order_partial : forall M S m_empty m_is_empty m_and m_or s_and s_or read css_modules entry sched l n st X,
    loads M S m_empty m_is_empty m_and m_or s_and s_or read css_modules entry sched l ->
    (forall p rs, reach read css_modules entry p -> read p = Some rs -> imports_lead rs) ->
    (forall p, reach read css_modules entry p -> composes read css_modules p = []) ->
    (forall p x s, shared read css_modules entry p -> below read css_modules p x -> reach read css_modules entry s ->
                   imports_file read s x -> s = p \/ below read css_modules p s) ->
    expands read entry X -> bundle_sheets M S m_empty css_modules n l = IOk st ->
    body_order (sheet_name l) (i_out st) = browser_order X.
Proof. exact @bundle_order. Qed.
Print Assumptions C10_order_partial.
Example C10_example :
  (forall p x s, shared diamond false 0 p -> below diamond false p x -> reach diamond false 0 s ->
                 imports_file diamond s x -> s = p \/ below diamond false p s)
  /\ expands diamond 0 [3; 1; 3; 2; 0] /\ browser_order [3; 1; 3; 2; 0] = [1; 3; 2; 0]
  /\ (exists p, shared diamond false 0 p)
  /\ exists l st, ex_loads diamond false 0 [0; 0; 1; 0; 0] l /\ ex_bundle false 9 l = IOk st
                  /\ body_order (sheet_name l) (i_out st) = [1; 3; 2; 0].
Proof.
  split; [exact diamond_private|]. split; [exact diamond_expands|]. split; [reflexivity|]. split.
  - exists 3, 1, 0, 2, 0. repeat split; try discriminate.
    + econstructor; [constructor|]. left; eexists; left; reflexivity.
    + econstructor; [constructor|]. left; eexists; right; left; reflexivity.
  - do 2 eexists. split; [vm_compute; reflexivity|]. split; [vm_compute; reflexivity|]. repeat split; vm_compute; reflexivity.
Qed.
(** 0 imports 1, 2 and 1 again, and 1 and 2 import 3: a browser applies 2, 3, 1; the bundle has
    3, 2, 1, so a rule of 2 overrides one of 3. *)
Theorem C10_order_refuted :
  exists l st X, ex_loads aba false 0 [0; 0; 0; 0; 0; 0] l /\ ex_bundle false 9 l = IOk st /\ expands aba 0 X
    /\ body_order (sheet_name l) (i_out st) = [3; 2; 1; 0] /\ browser_order X = [2; 3; 1; 0].
Proof.
  do 2 eexists. exists [3; 1; 3; 2; 3; 1; 0]. split; [vm_compute; reflexivity|]. split; [vm_compute; reflexivity|].
  split; [exact aba_expands|]. split; reflexivity.
Qed.
Print Assumptions C10_order_refuted.
(** 0 imports 1, 2 and 1 again, declaring layers x and y: the layers are in the opposite order. *)
Theorem C10_layer_order_refuted :
  exists l st X, ex_loads layers false 0 [0; 0; 0; 0] l /\ ex_bundle false 9 l = IOk st /\ expands layers 0 X
    /\ browser_layers layers X = [["x"]; ["y"]]%string /\ bundle_layers (i_out st) = [["y"]; ["x"]]%string.
Proof.
  do 2 eexists. exists [1; 2; 1; 0]. split; [vm_compute; reflexivity|]. split; [vm_compute; reflexivity|].
  split; [exact layers_expands|]. split; reflexivity.
Qed.
Print Assumptions C10_layer_order_refuted.

(** ** C11: bundling terminates *)
(** Whatever the schedule, a finite set of files is loaded in at most one step per reference. *)
Theorem C11_loading_terminates : forall M S m_empty m_is_empty m_and m_or s_and s_or read css_modules entry universe sched st,
    (forall p, reach read css_modules entry p -> In p universe) ->
    load_run M S m_empty m_is_empty m_and m_or s_and s_or read css_modules sched (load_init M S m_empty entry) = Some st ->
    List.length sched <= 1 + List.length (flat_map (refs read css_modules) universe).
Proof. exact @load_finite. Qed.
Print Assumptions C11_loading_terminates.
(** With cycles or not, ordering and inlining use a bounded amount of fuel.  Missing: an entry file
    whose first [composes ... from] names itself; refuted below. *)
Theorem C11_bundling_terminates_partial : forall M S m_empty m_is_empty m_and m_or s_and s_or read css_modules entry sched l,
    loads M S m_empty m_is_empty m_and m_or s_and s_or read css_modules entry sched l ->
    hd_error (composes read css_modules entry) <> Some entry ->
    exists N r, r <> IFuel /\ forall n, N <= n -> bundle_sheets M S m_empty css_modules n l = r.
Proof. exact @bundle_result. Qed.
Print Assumptions C11_bundling_terminates_partial.
Example C11_example :
  hd_error (composes composes_cycle true 0) <> Some 0
  /\ exists l st, ex_loads composes_cycle true 0 [0; 0; 0] l /\ ex_bundle true 9 l = IOk st
                  /\ body_order (sheet_name l) (i_out st) = [1; 0].
Proof. split; [discriminate|]. do 2 eexists. split; [vm_compute; reflexivity|]. split; [vm_compute; reflexivity|]. repeat split; vm_compute; reflexivity. Qed.
(** [.a { composes: b from "./entry.css" }] in the entry file: inlining does not terminate. *)
Theorem C11_self_composes_refuted :
  exists l, ex_loads self_composes true 0 [0; 0] l /\ forall n, ex_bundle true n l = IFuel.
Proof. eexists. split; [vm_compute; reflexivity|exact self_inline]. Qed.
Print Assumptions C11_self_composes_refuted.

(** ** C12: the rules of a file apply under the conditions of its imports *)
(** [dom] contains the media lists of all imports; [me] and [se] give their values in an
    environment, and the operations on them are exact (see [C12_media_lists]). *)
(** Rules in the bundle apply only when some chain of imports to their file applies. *)
Theorem C12_conditions_sound : forall M S m_empty m_is_empty m_and m_or s_and s_or read css_modules entry me se dom,
    exact_ops m_empty m_is_empty m_and m_or s_and s_or dom me se ->
    (forall p q c, reach read css_modules entry p -> In (q, c) (imports read p) -> dom (c_media c)) ->
    forall sched l n st i w rs p,
    loads M S m_empty m_is_empty m_and m_or s_and s_or read css_modules entry sched l ->
    acyclic read css_modules entry ->
    bundle_sheets M S m_empty css_modules n l = IOk st -> In (OBody i w rs) (i_out st) -> rs <> [] -> sheet_name l i = Some p ->
    applies me se w = true -> exists cs, chain read css_modules entry p cs /\ chain_applies me se cs = true.
Proof. exact @body_sound. Qed.
Print Assumptions C12_conditions_sound.
(** They apply when some chain does.  Missing: a file with its own imports that is reached under
    different conditions; refuted below. *)
Theorem C12_conditions_complete_partial : forall M S m_empty m_is_empty m_and m_or s_and s_or read css_modules entry me se dom,
    exact_ops m_empty m_is_empty m_and m_or s_and s_or dom me se ->
    (forall p q c, reach read css_modules entry p -> In (q, c) (imports read p) -> dom (c_media c)) ->
    (forall p q cs cs', refers read css_modules p q -> chain read css_modules entry p cs -> chain read css_modules entry p cs' ->
                        chain_applies me se cs = chain_applies me se cs') ->
    forall sched l n st i w rs p cs,
    loads M S m_empty m_is_empty m_and m_or s_and s_or read css_modules entry sched l ->
    acyclic read css_modules entry ->
    bundle_sheets M S m_empty css_modules n l = IOk st -> In (OBody i w rs) (i_out st) -> rs <> [] -> sheet_name l i = Some p ->
    chain read css_modules entry p cs -> chain_applies me se cs = true -> applies me se w = true.
Proof. exact @body_complete. Qed.
Print Assumptions C12_conditions_complete_partial.
(** The hypothesis on operations holds for media lists of at most one query without qualifier, all
    of them of one media type or of type [all]. *)
Theorem C12_media_lists : forall S (s_and s_or : S -> S -> S) t e (se : S -> bool),
    (forall a b, se (s_and a b) = se a && se b) -> (forall a b, se (s_or a b) = se a || se b) ->
    exact_ops [] mlist_empty list_and list_or s_and s_or (one_type t) (list_matches e) se.
Proof. exact @media_exact. Qed.
Print Assumptions C12_media_lists.
(** The layer is that of the imports.  Missing: anonymous layers and files imported into
    different layers; refuted below. *)
Theorem C12_layer_partial : forall M S m_empty m_is_empty m_and m_or s_and s_or read css_modules entry,
    (forall p q c, reach read css_modules entry p -> In (q, c) (imports read p) -> c_layer c <> Some None) ->
    forall sched l n st i w rs p cs,
    loads M S m_empty m_is_empty m_and m_or s_and s_or read css_modules entry sched l ->
    acyclic read css_modules entry ->
    bundle_sheets M S m_empty css_modules n l = IOk st -> In (OBody i w rs) (i_out st) -> rs <> [] -> sheet_name l i = Some p ->
    (forall cs1 cs2, chain read css_modules entry p cs1 -> chain read css_modules entry p cs2 -> layer_of_chain cs1 = layer_of_chain cs2) ->
    chain read css_modules entry p cs -> c_layer w = layer_of_chain cs.
Proof. exact @body_layer. Qed.
Print Assumptions C12_layer_partial.
(** Layer statements of a file name layers inside the layer of its imports. *)
Theorem C12_layer_statements_partial : forall M S m_empty m_is_empty m_and m_or s_and s_or read css_modules entry,
    (forall p rs, reach read css_modules entry p -> read p = Some rs -> imports_lead rs) ->
    no_import_cycle read css_modules entry ->
    (forall p q c, reach read css_modules entry p -> In (q, c) (imports read p) -> c_layer c <> Some None) ->
    forall sched l n st p cs rs,
    loads M S m_empty m_is_empty m_and m_or s_and s_or read css_modules entry sched l ->
    bundle_sheets M S m_empty css_modules n l = IOk st ->
    (forall cs1 cs2, chain read css_modules entry p cs1 -> chain read css_modules entry p cs2 -> layer_of_chain cs1 = layer_of_chain cs2) ->
    chain read css_modules entry p cs -> read p = Some rs ->
    rules_from p (sheet_name l) (i_out st) = own_rules (in_layer (layer_of_chain cs) rs).
Proof. exact @file_rules. Qed.
Print Assumptions C12_layer_statements_partial.
(** A file that imports another twice names the same layer both times, or the bundle fails. *)
Theorem C12_layer_conflict : forall M S m_empty m_is_empty m_and m_or s_and s_or read css_modules entry,
    forall sched l s p c1 c2 l1 l2 l3 a b,
    loads M S m_empty m_is_empty m_and m_or s_and s_or read css_modules entry sched l -> reach read css_modules entry s ->
    imports read s = (l1 ++ (p, c1) :: l2 ++ (p, c2) :: l3)%list ->
    c_layer c1 = Some a -> c_layer c2 = Some b -> a = b /\ a <> None.
Proof. exact @layer_conflict. Qed.
Print Assumptions C12_layer_conflict.
Example C12_conflict_example :
  exists l, ex_loads same_layer false 0 [0; 0; 0] l
    /\ imports same_layer 0 = [(1, into (Some ["x"%string])); (1, into (Some ["x"%string]))].
Proof. eexists. split; vm_compute; reflexivity. Qed.
Example C12_example :
  acyclic conditional false 0
  /\ exists l st w, ex_loads conditional false 0 [0; 0; 0] l /\ ex_bundle false 9 l = IOk st
       /\ In (OBody 2 w [SIgnored; style 2]) (i_out st) /\ sheet_name l 2 = Some 2
       /\ w = Conds [MQ None MPrint None] (Some (SAtom 7)) (Some (Some ["x"; "y"]%string))
       /\ chain conditional false 0 2 [Conds [MQ None MPrint None] None (Some (Some ["x"%string]));
                                       Conds [] (Some (SAtom 7)) (Some (Some ["y"%string]))]
       /\ rules_from 2 (sheet_name l) (i_out st) = [SLayer [["x"; "y"; "z"]%string]; style 2].
Proof.
  split; [exact (increasing_acyclic _ _ _ conditional_up)|].
  do 3 eexists. split; [vm_compute; reflexivity|]. split; [vm_compute; reflexivity|].
  split; [right; left; reflexivity|]. split; [reflexivity|]. split; [reflexivity|]. split; [|reflexivity].
  apply (Ch_import conditional false 0 1 2 _ [_]); [|left; reflexivity].
  apply (Ch_import conditional false 0 0 1 _ []); [constructor|left; reflexivity].
Qed.

(** 0 imports 1 for print, and 2; 2 imports 1, and 1 imports 3: the rules of 3 apply on screens
    too, but in the bundle only for print. *)
Theorem C12_conditions_complete_refuted :
  exists l st i w rs cs e, ex_loads narrowed false 0 [0; 0; 0; 0; 0] l /\ ex_bundle false 9 l = IOk st
    /\ In (OBody i w rs) (i_out st) /\ rs <> [] /\ sheet_name l i = Some 3
    /\ chain narrowed false 0 3 cs /\ chain_applies (list_matches e) (sup_eval (fun _ => true)) cs = true
    /\ applies (list_matches e) (sup_eval (fun _ => true)) w = false.
Proof.
  do 2 eexists. exists 3. do 2 eexists. exists [always; always; always], (Env DScreen (fun _ => None) (fun _ => None) (fun _ => 1%Q) (fun _ => None)).
  split; [vm_compute; reflexivity|]. split; [vm_compute; reflexivity|].
  split; [left; reflexivity|]. split; [discriminate|]. split; [reflexivity|]. split; [|split; vm_compute; reflexivity].
  apply (Ch_import narrowed false 0 1 3 _ [_; _]); [|left; reflexivity].
  apply (Ch_import narrowed false 0 2 1 _ [_]); [|left; reflexivity].
  apply (Ch_import narrowed false 0 0 2 _ []); [constructor|right; left; reflexivity].
Qed.
Print Assumptions C12_conditions_complete_refuted.
(** An external import of a file imported for print is unconditional in the bundle. *)
Theorem C12_external_refuted :
  exists l st, ex_loads external false 0 [0; 0] l /\ ex_bundle false 9 l = IOk st
    /\ imports external 0 = [(1, on_print)] /\ In (OImport 1 "u" always) (i_out st).
Proof. do 2 eexists. split; [vm_compute; reflexivity|]. split; [vm_compute; reflexivity|]. split; [reflexivity|]. left; reflexivity. Qed.
Print Assumptions C12_external_refuted.
(** [@import "a"; @import "a" layer(x)] puts the rules only in layer x. *)
Theorem C12_unlayered_refuted :
  exists l st w, ex_loads relayered false 0 [0; 0; 0] l /\ ex_bundle false 9 l = IOk st
    /\ i_out st = [OBody 1 w [style 1]; OBody 0 always [SIgnored; SIgnored; style 0]]
    /\ chain relayered false 0 1 [always] /\ layer_of_chain [always] = None /\ c_layer w = Some (Some ["x"%string]).
Proof.
  do 3 eexists. split; [vm_compute; reflexivity|]. split; [vm_compute; reflexivity|]. split; [reflexivity|].
  split; [|split; reflexivity]. apply (Ch_import relayered false 0 0 1 _ []); [constructor|left; reflexivity].
Qed.
Print Assumptions C12_unlayered_refuted.
(** A file imported by a file imported into an anonymous layer is in no layer. *)
Theorem C12_anonymous_refuted :
  exists l st cs, ex_loads anonymous_layer false 0 [0; 0; 0] l /\ ex_bundle false 9 l = IOk st
    /\ In (OBody 2 always [style 2]) (i_out st) /\ sheet_name l 2 = Some 2
    /\ chain anonymous_layer false 0 2 cs /\ (forall cs', chain anonymous_layer false 0 2 cs' -> cs' = cs) /\ layered cs = true.
Proof.
  do 2 eexists. exists [into None; always]. split; [vm_compute; reflexivity|]. split; [vm_compute; reflexivity|].
  split; [left; reflexivity|]. split; [reflexivity|]. split.
  - apply (Ch_import anonymous_layer false 0 1 2 _ [_]); [|left; reflexivity].
    apply (Ch_import anonymous_layer false 0 0 1 _ []); [constructor|left; reflexivity].
  - split; [|reflexivity]. exact anonymous_chain.
Qed.
Print Assumptions C12_anonymous_refuted.

(** ** C13: the bundle does not depend on the schedule of the parallel loads *)
Theorem C13_same_files : forall M S m_empty m_is_empty m_and m_or s_and s_or read css_modules entry s1 l1 s2 l2,
    loads M S m_empty m_is_empty m_and m_or s_and s_or read css_modules entry s1 l1 ->
    loads M S m_empty m_is_empty m_and m_or s_and s_or read css_modules entry s2 l2 ->
    forall p, In p (map sh_path l1) <-> In p (map sh_path l2).
Proof. exact @same_files. Qed.
Print Assumptions C13_same_files.
(** Schedules that give the files the same conditions give the same bundle, although they number
    the files differently. *)
Theorem C13_numbering : forall M S m_empty m_is_empty m_and m_or s_and s_or read css_modules entry s1 l1 s2 l2,
    loads M S m_empty m_is_empty m_and m_or s_and s_or read css_modules entry s1 l1 ->
    loads M S m_empty m_is_empty m_and m_or s_and s_or read css_modules entry s2 l2 ->
    (forall a b, In a l1 -> In b l2 -> sh_path a = sh_path b -> sh_conds a = sh_conds b /\ sh_rules a = sh_rules b) ->
    forall n, observe l1 (bundle_sheets M S m_empty css_modules n l1) = observe l2 (bundle_sheets M S m_empty css_modules n l2).
Proof. exact @same_bundle. Qed.
Print Assumptions C13_numbering.
(** With unconditional imports, every schedule succeeds if one does, with the same bundle.
    Missing: conditional imports of a file from two places; refuted below. *)
Theorem C13_unconditional_partial : forall M S m_empty m_is_empty m_and m_or s_and s_or read css_modules entry,
    m_is_empty m_empty = true -> m_and m_empty m_empty = Some m_empty ->
    (forall p q c, reach read css_modules entry p -> In (q, c) (imports read p) -> c = Conds m_empty None None) ->
    forall s1 l1, loads M S m_empty m_is_empty m_and m_or s_and s_or read css_modules entry s1 l1 ->
    (forall s2 l2 n, loads M S m_empty m_is_empty m_and m_or s_and s_or read css_modules entry s2 l2 ->
       observe l1 (bundle_sheets M S m_empty css_modules n l1) = observe l2 (bundle_sheets M S m_empty css_modules n l2))
    /\ (forall sched st k,
       load_run M S m_empty m_is_empty m_and m_or s_and s_or read css_modules sched (load_init M S m_empty entry) = Some st ->
       k < List.length (l_todo st) -> load_step M S m_empty m_is_empty m_and m_or s_and s_or read css_modules st k <> None).
Proof. exact @unconditional_sched. Qed.
Print Assumptions C13_unconditional_partial.
(** The same with any conditions when every file is named by one rule. *)
Theorem C13_single_partial : forall M S m_empty m_is_empty m_and m_or s_and s_or read css_modules entry,
    (forall q, ~ named_twice read css_modules entry q) ->
    forall s1 l1, loads M S m_empty m_is_empty m_and m_or s_and s_or read css_modules entry s1 l1 ->
    (forall s2 l2 n, loads M S m_empty m_is_empty m_and m_or s_and s_or read css_modules entry s2 l2 ->
       observe l1 (bundle_sheets M S m_empty css_modules n l1) = observe l2 (bundle_sheets M S m_empty css_modules n l2))
    /\ (forall sched st k,
       load_run M S m_empty m_is_empty m_and m_or s_and s_or read css_modules sched (load_init M S m_empty entry) = Some st ->
       k < List.length (l_todo st) -> load_step M S m_empty m_is_empty m_and m_or s_and s_or read css_modules st k <> None).
Proof. exact @single_sched. Qed.
Print Assumptions C13_single_partial.
Example C13_example :
  exists l1 l2, ex_loads diamond false 0 [0; 0; 0; 0; 0] l1 /\ ex_loads diamond false 0 [0; 1; 1; 0; 0] l2
    /\ map sh_path l1 = [0; 1; 2; 3] /\ map sh_path l2 = [0; 2; 3; 1]
    /\ observe l1 (ex_bundle false 9 l1) = observe l2 (ex_bundle false 9 l2)
    /\ observe l1 (ex_bundle false 9 l1) <> Running.
Proof.
  do 2 eexists. split; [vm_compute; reflexivity|]. split; [vm_compute; reflexivity|].
  repeat split; try (vm_compute; reflexivity). vm_compute. discriminate.
Qed.
Example C13_single_example : forall q, ~ named_twice conditional false 0 q.
Proof. exact conditional_single. Qed.

(** The file 3 is for print only under one schedule, and unconditional under another. *)
Theorem C13_conditions_refuted :
  exists s1 l1 s2 l2, ex_loads narrowed false 0 s1 l1 /\ ex_loads narrowed false 0 s2 l2
    /\ (forall n, 9 <= n -> observe l1 (ex_bundle false n l1) <> observe l2 (ex_bundle false n l2)).
Proof.
  exists [0; 0; 0; 0; 0]. eexists. exists [0; 1; 1; 0; 0]. eexists.
  split; [vm_compute; reflexivity|]. split; [vm_compute; reflexivity|].
  intros n Hn. rewrite !(bundle_more _ _ _ 9 n Hn); vm_compute; discriminate.
Qed.
Print Assumptions C13_conditions_refuted.
(** Whether loading succeeds depends on the schedule. *)
Theorem C13_success_refuted :
  exists s1 l1 s2, ex_loads clash false 0 s1 l1 /\ List.length s2 = List.length s1
    /\ ex_run clash false (firstn 5 s2) (ex_init 0) <> None /\ ex_run clash false (firstn 6 s2) (ex_init 0) = None
    /\ nth_error s2 5 = Some 1.
Proof.
  exists [0; 0; 0; 0; 0; 0; 0]. eexists. exists [0; 0; 0; 0; 0; 1; 0]. split; [vm_compute; reflexivity|].
  split; [reflexivity|]. split; [vm_compute; discriminate|]. split; [vm_compute; reflexivity|reflexivity].
Qed.
Print Assumptions C13_success_refuted.
