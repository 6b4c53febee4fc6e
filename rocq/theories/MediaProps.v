(** * Property theorems: media queries (C01-C06, C44) *)
From Coq Require Import List String Ascii Bool ZArith QArith.
From Verif Require Import MediaModel MediaSpec MediaCustomModel.
From Verif Require Import MediaShapeProofs MediaWfProofs MediaBoolProofs MediaCustomProofs.
Import ListNotations.
Open Scope string_scope.
Open Scope list_scope.

(** A desktop browser window 100px wide. *)
Definition screen_100 : env :=
  Env DScreen (fun f => match f with Width => Some 100 | Color => Some 8 | _ => Some 0 end)
      (fun _ => Some "none") (fun _ => 1) (fun _ => None).
(** A printer without colour. *)
Definition mono_print : env :=
  Env DPrint (fun f => match f with Width => Some 100 | _ => Some 0 end)
      (fun _ => Some "none") (fun _ => 1) (fun _ => None).

Definition feat (l : list tok) : tok := TBlock l.
Definition px (q : Q) : tok := TDim q "px".

(** ** C01: printing a media query list and parsing it again preserves its meaning, for every list
    the parser accepts and every set of targets.  Missing from the full statement: the empty list,
    [not] applied to an equality range, and a typed query whose condition is a double negation of
    a disjunction; each is refuted below. *)
Theorem C01_media_print_parse_partial : forall pt toks ml,
    parse_list toks = Some ml -> ml <> [] -> forallb printable_query ml = true ->
    exists ml', parse_list (print_list pt ml) = Some ml'
           /\ forall e, list_matches e ml' = list_matches e ml.
Proof. exact media_round_trip. Qed.
Print Assumptions C01_media_print_parse_partial.

(** [screen and (200px <= width < 500px), not ((color) or (min-width: 3em))] *)
Definition c01_toks : list tok :=
  [TIdent "screen"; TIdent "and";
   feat [px 200; TDelim "<"; TDelim "="; TIdent "width"; TDelim "<"; px 500]; TComma;
   TIdent "not"; feat [feat [TIdent "color"]; TIdent "or";
                       feat [TIdent "min-width"; TColon; TDim 3 "em"]]].
Example C01_example :
  match parse_list c01_toks with
  | Some ml => List.length ml = 2%nat /\ forallb printable_query ml = true
               /\ print_list (PT true true true) ml <> print_list (PT false false true) ml
  | None => False
  end.
Proof. vm_compute. repeat split; discriminate. Qed.

(** [not (width = 100px)] is printed as [(width = 100px)]. *)
Theorem C01_negated_equality_refuted :
  exists pt toks ml ml' e,
    parse_list toks = Some ml /\ parse_list (print_list pt ml) = Some ml'
    /\ list_matches e ml' <> list_matches e ml.
Proof.
  exists (PT false false true), [TIdent "not"; feat [TIdent "width"; TDelim "="; px 100]].
  do 2 eexists. exists screen_100.
  split; [vm_compute; reflexivity|]. split; [vm_compute; reflexivity|]. vm_compute. discriminate.
Qed.
Print Assumptions C01_negated_equality_refuted.

(** [screen and (not (not ((color) or (grid))))] is printed as [screen and (color) or (grid)],
    which is not a media query. *)
Theorem C01_typed_double_negation_refuted :
  exists pt toks ml,
    parse_list toks = Some ml /\ ml <> [] /\ parse_list (print_list pt ml) = None.
Proof.
  exists (PT false false true),
    [TIdent "screen"; TIdent "and"; TIdent "not";
     feat [TIdent "not"; feat [feat [TIdent "color"]; TIdent "or"; feat [TIdent "grid"]]]].
  eexists. split; [vm_compute; reflexivity|]. split; [discriminate|]. vm_compute. reflexivity.
Qed.
Print Assumptions C01_typed_double_negation_refuted.

(** The empty list always matches but is printed as [not all]. *)
Theorem C01_empty_list_refuted :
  exists pt ml ml' e,
    parse_list [] = Some ml /\ parse_list (print_list pt ml) = Some ml'
    /\ list_matches e ml' <> list_matches e ml.
Proof.
  exists (PT false false true). do 2 eexists. exists screen_100.
  split; [vm_compute; reflexivity|]. split; [vm_compute; reflexivity|]. vm_compute. discriminate.
Qed.
Print Assumptions C01_empty_list_refuted.

(** ** C02: [and] of two lists matches exactly when both match.  Missing from the full statement:
    the pairs excluded by [and_safe_lists]; refuted below. *)
Theorem C02_media_and_partial : forall a b r e,
    list_and a b = Some r -> and_safe_lists a b = true ->
    list_matches e r = list_matches e a && list_matches e b.
Proof. exact and_sound. Qed.
Print Assumptions C02_media_and_partial.

Definition q_color : cond := CFeature (FBoolean (NStandard Color)).
Definition q_width : cond := CFeature (FRange (NStandard Width) CGe (VLength 200 "px")).
Example C02_example :
  and_safe_lists [MQ (Some Only) MScreen (Some q_color); MQ (Some QNot) MPrint None]
                 [MQ None MScreen (Some q_width)] = true
  /\ exists r, list_and [MQ (Some Only) MScreen (Some q_color); MQ (Some QNot) MPrint None]
                        [MQ None MScreen (Some q_width)] = Some r
          /\ r = [MQ None MScreen (Some (COp And [q_color; q_width])); MQ None MScreen (Some q_width)].
Proof. split; [reflexivity|]. eexists; split; vm_compute; reflexivity. Qed.

(** [print and (color)] and [screen] gives [not all and (color)], which matches a printer without
    colour. *)
Theorem C02_and_disjoint_types_refuted :
  exists a b r e, list_and [a] [b] = Some [r] /\ query_matches e r = true
             /\ query_matches e a = false /\ query_matches e b = false.
Proof.
  exists (MQ None MPrint (Some q_color)), (MQ None MScreen None). eexists. exists mono_print.
  repeat split; vm_compute; reflexivity.
Qed.
Print Assumptions C02_and_disjoint_types_refuted.

(** [print] and [not print] gives [print]. *)
Theorem C02_and_negated_type_refuted :
  exists a b r e, list_and [a] [b] = Some [r] /\ query_matches e r = true /\ query_matches e b = false.
Proof.
  exists (MQ None MPrint None), (MQ (Some QNot) MPrint None). eexists. exists mono_print.
  repeat split; vm_compute; reflexivity.
Qed.
Print Assumptions C02_and_negated_type_refuted.

(** [not screen and (color)] and [(width >= 200px)] gives [not screen and (color) and (width >= 200px)],
    which matches a narrow screen. *)
Theorem C02_and_negated_condition_refuted :
  exists a b r e, list_and [a] [b] = Some [r] /\ query_matches e r = true /\ query_matches e b = false.
Proof.
  exists (MQ (Some QNot) MScreen (Some q_color)), (MQ None MAll (Some q_width)). eexists. exists screen_100.
  repeat split; vm_compute; reflexivity.
Qed.
Print Assumptions C02_and_negated_condition_refuted.

(** A right-hand side with two queries: [all] and [print, screen] gives [not all]. *)
Theorem C02_and_several_refuted :
  exists a b r e, list_and a b = Some r /\ list_matches e r = false
             /\ list_matches e a = true /\ list_matches e b = true.
Proof.
  exists [MQ None MAll (Some q_color)], [MQ None MPrint None; MQ None MScreen None]. eexists. exists screen_100.
  repeat split; vm_compute; reflexivity.
Qed.
Print Assumptions C02_and_several_refuted.

(** A right-hand side that is already one of the queries: [print, screen] and [print] is left
    unchanged and matches a screen. *)
Theorem C02_and_contained_refuted :
  exists a b r e, list_and a b = Some r /\ list_matches e r = true /\ list_matches e b = false.
Proof.
  exists [MQ None MPrint None; MQ None MScreen None], [MQ None MPrint None]. eexists. exists screen_100.
  repeat split; vm_compute; reflexivity.
Qed.
Print Assumptions C02_and_contained_refuted.

(** ** C03: [or] of two non-empty lists matches exactly when one of them does.  Missing: an empty
    list (which always matches) on one side; refuted below. *)
Theorem C03_media_or_partial : forall a b e, a <> [] -> b <> [] ->
    list_matches e (list_or a b) = list_matches e a || list_matches e b.
Proof. exact or_sound. Qed.
Print Assumptions C03_media_or_partial.

Example C03_example :
  list_or [MQ None MPrint None; MQ None MAll (Some q_width)]
          [MQ None MAll (Some q_width); MQ None MScreen None]
  = [MQ None MPrint None; MQ None MAll (Some q_width); MQ None MScreen None].
Proof. vm_compute. reflexivity. Qed.

Theorem C03_or_empty_refuted :
  exists b e, list_matches e (list_or [] b) <> list_matches e [] || list_matches e b.
Proof. exists [MQ None MPrint None], screen_100. vm_compute. discriminate. Qed.
Print Assumptions C03_or_empty_refuted.

(** ** C04: a list reported to always (never) match does so in every environment *)
Theorem C04_always_matches : forall l,
    list_always_matches l = true -> forall e, list_matches e l = true.
Proof. exact always_sound. Qed.
Print Assumptions C04_always_matches.
Theorem C04_never_matches : forall l,
    list_never_matches l = true -> forall e, list_matches e l = false.
Proof. exact never_sound. Qed.
Print Assumptions C04_never_matches.
Example C04_example :
  list_always_matches [MQ None MAll None; MQ None MAll None] = true
  /\ list_never_matches [MQ (Some QNot) MAll None] = true.
Proof. split; reflexivity. Qed.

(** ** C05: lowering range syntax keeps the meaning and leaves no comparison operator.  Same
    missing cases as C01. *)
Theorem C05_range_lowering_partial : forall pt toks ml,
    pt_range pt = true -> pt_interval pt = true ->
    parse_list toks = Some ml -> ml <> [] -> forallb printable_query ml = true ->
    forallb no_comparison (print_list pt ml) = true
    /\ exists ml', parse_list (print_list pt ml) = Some ml'
             /\ forall e, list_matches e ml' = list_matches e ml.
Proof.
  exact (fun pt toks ml Hr Hi Hp Hn Hq =>
           conj (print_list_no_cmp pt ml Hr Hi (parse_list_wf _ _ Hp))
                (media_round_trip pt toks ml Hp Hn Hq)).
Qed.
Print Assumptions C05_range_lowering_partial.
Example C05_example :
  match parse_list c01_toks with
  | Some ml => forallb printable_query ml = true
               /\ forallb no_comparison (print_list (PT false false true) ml) = false
  | None => False
  end.
Proof. vm_compute. split; reflexivity. Qed.

(** ** C06: replacing custom media queries.  Missing: definitions with media types or qualifiers,
    and empty definitions; refuted below. *)
Theorem C06_custom_media_ok_partial : forall rules l l',
    pure_rules rules = true -> transform_custom_list (build_table rules) l = CmOk l' ->
    Forall2 (fun q q' =>
               match mq_cond q' with Some c => no_custom c = true | None => True end
               /\ forall e v, cm_query rules e q v <-> v = eval_query e q') l l'.
Proof. exact transform_custom_ok_iff. Qed.
Print Assumptions C06_custom_media_ok_partial.

Theorem C06_custom_media_error_partial : forall rules l e,
    pure_rules rules = true -> transform_custom_list (build_table rules) l = CmErr e ->
    exists q, In q l /\ forall env v, ~ cm_query rules env q v.
Proof. exact transform_custom_err. Qed.
Print Assumptions C06_custom_media_error_partial.

(** Replacement terminates for every set of rules, cyclic or not. *)
Theorem C06_custom_media_terminates : forall m l, transform_custom_list m l <> CmFuel.
Proof. exact transform_custom_total. Qed.
Print Assumptions C06_custom_media_terminates.

Definition ref (s : string) : cond := CFeature (FBoolean (NCustom s)).
Definition c06_rules : list custom_rule :=
  [("--a", [MQ None MAll (Some (COp And [q_color; ref "--b"]))]);
   ("--b", [MQ None MAll (Some q_width); MQ None MAll (Some (CNot q_color))])].
Example C06_example_ok :
  pure_rules c06_rules = true
  /\ transform_custom_list (build_table c06_rules) [MQ (Some Only) MScreen (Some (CNot (ref "--a")))]
     = CmOk [MQ (Some Only) MScreen
                (Some (CNot (COp And [q_color; COp Or [q_width; CNot q_color]])))].
Proof. split; vm_compute; reflexivity. Qed.
Example C06_example_cycle :
  pure_rules [("--a", [MQ None MAll (Some (CNot (ref "--a")))])] = true
  /\ transform_custom_list (build_table [("--a", [MQ None MAll (Some (CNot (ref "--a")))])])
       [MQ None MAll (Some (ref "--a"))] = CmErr (ECircular "--a").
Proof. split; vm_compute; reflexivity. Qed.

(** [@custom-media --p print] and [@media (--p) or (color)]: the result requires both. *)
Theorem C06_custom_type_in_or_refuted :
  exists rules q q' e, transform_custom_list (build_table rules) [q] = CmOk [q']
                 /\ cm_query rules e q (Some true) /\ query_matches e q' = false.
Proof.
  exists [("--p", [MQ None MPrint None])], (MQ None MAll (Some (COp Or [ref "--p"; q_color]))).
  eexists. exists screen_100. split; [vm_compute; reflexivity|]. split; [|vm_compute; reflexivity].
  apply (CMq_some _ _ None MAll _ (Some true)). apply (CM_or _ _ _ [Some false; Some true]).
  constructor.
  - eapply CM_ref; [reflexivity|]. apply (CMl_cons _ _ _ [] [Some false]).
    constructor; [apply (CMq_none _ screen_100 None MPrint)|constructor].
  - constructor; [|constructor]. apply (CM_feature _ screen_100). discriminate.
Qed.
Print Assumptions C06_custom_type_in_or_refuted.

(** [@custom-media --a print; @custom-media --b (--a)] and [@media (--b)]: the reference to [--a]
    is left in the output. *)
Theorem C06_custom_reference_left_refuted :
  exists rules q q', transform_custom_list (build_table rules) [q] = CmOk [q']
                /\ match mq_cond q' with Some c => no_custom c = false | None => False end.
Proof.
  exists [("--a", [MQ None MPrint None]); ("--b", [MQ None MAll (Some (ref "--a"))])],
    (MQ None MAll (Some (ref "--b"))).
  eexists. split; vm_compute; reflexivity.
Qed.
Print Assumptions C06_custom_reference_left_refuted.

(** [@custom-media --p print] and [@media (--p) and (--p)]: an operation without operands is left,
    and printing it panics. *)
Theorem C06_custom_empty_operation_refuted :
  exists rules q ty qu op, transform_custom_list (build_table rules) [q] = CmOk [MQ ty qu (Some (COp op []))].
Proof.
  exists [("--p", [MQ None MPrint None])], (MQ None MAll (Some (COp And [ref "--p"; ref "--p"]))).
  do 3 eexists. vm_compute. reflexivity.
Qed.
Print Assumptions C06_custom_empty_operation_refuted.

(** ** C44: adding prefixed device-pixel-ratio queries keeps the meaning in every browser that, if
    it knows the prefixed feature, gives it the value of [resolution]; no query is lost. *)
Theorem C44_resolution_prefixes : forall ps l,
    exists l', transform_resolution ps l = Some l' /\ incl l l'
          /\ forall e, ratio_consistent e -> list_matches e l' = list_matches e l.
Proof. exact transform_resolution_sound. Qed.
Print Assumptions C44_resolution_prefixes.

(** If no variant equals another query, every query is preceded by all its variants. *)
Theorem C44_adds_variants : forall ps l, distinct (with_variants ps l) ->
    transform_resolution ps l = Some (with_variants ps l).
Proof. exact transform_resolution_adds. Qed.
Print Assumptions C44_adds_variants.

(** Then a browser that knows only the prefixed feature matches whenever one that knows
    [resolution] would. *)
Theorem C44_old_browsers : forall p f e r ps l, ratio_feature p = Some f -> e_num e f = Some r -> In p ps ->
    distinct (with_variants ps l) -> forallb ranged_query l = true ->
    list_matches (with_resolution e r) l = true ->
    exists l', transform_resolution ps l = Some l' /\ list_matches e l' = true.
Proof. exact old_browser. Qed.
Print Assumptions C44_old_browsers.

(** When a variant is already in the list, the query after is skipped: its variant is missing. *)
Theorem C44_variant_skipped_refuted : exists ps l q l', In q l /\ query_prefixes ps q = ps
    /\ transform_resolution ps l = Some l'
    /\ exists p, In p ps /\ forall x, In x l' -> mquery_eqb x (transform_res_query p q) = false.
Proof. exact variant_skipped. Qed.
Print Assumptions C44_variant_skipped_refuted.
Example C44_example :
  transform_resolution [PWebKit] [MQ None MScreen (Some (CFeature (FRange (NStandard Resolution_) CGe (VResolution 192 Dpi))))]
  = Some [MQ None MScreen (Some (CFeature (FRange (NStandard WebKitDevicePixelRatio) CGe (VNumber (192 / 96)))));
          MQ None MScreen (Some (CFeature (FRange (NStandard Resolution_) CGe (VResolution 192 Dpi))))].
Proof. vm_compute. reflexivity. Qed.
Example C44_example_distinct :
  let l := [MQ None MScreen (Some (CFeature (FRange (NStandard Resolution_) CGe (VResolution 192 Dpi)))); MQ None MPrint None] in
  distinct (with_variants [PWebKit; PMoz] l) /\ forallb ranged_query l = true.
Proof.
  split; [|reflexivity]. cbn [with_variants flat_map query_prefixes mq_cond has_resolution map app distinct].
  repeat split; repeat match goal with H : In _ _ |- _ => destruct H as [<-|H] | H : In _ [] |- _ => destruct H end;
    try reflexivity; contradiction.
Qed.
