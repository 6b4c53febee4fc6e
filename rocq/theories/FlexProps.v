(** * C73: flex declarations *)

From Coq Require Import List String Bool ZArith.
From Verif Require Import FlexModel FlexSpec FlexProofs FlexExamples FlexMoreProofs.
Import ListNotations.

(** Every value of [flex] that CSS knows (without [content] and the like) is
    read as CSS reads it. *)
Theorem C73_flex_read_partial : forall l g s b,
  flex_value l g s b -> parse_flex l = Some (g, s, b).
Proof. exact flex_read. Qed.
Print Assumptions C73_flex_read_partial.

Example C73_flex_read_case :
  flex_value [Word "auto"; Num 2%Z; Num 0%Z] 2%Z 0%Z Auto
  /\ flex_value [Num 2%Z; Num 0%Z] 2%Z 0%Z ZeroPercent
  /\ flex_value [Num 0%Z; Num 0%Z; Num 0%Z] 0%Z 0%Z ZeroLength.
Proof.
  repeat split.
  - apply (xv_basis_factors [Num 2%Z; Num 0%Z]); constructor; discriminate.
  - apply xv_factors; constructor; discriminate.
  - apply xv_zero; discriminate.
Qed.

(** What is printed for any two factors and any basis is a value that CSS
    reads as these. *)
Theorem C73_flex_printed : forall g s b,
  (0 <= g)%Z -> (0 <= s)%Z -> flex_value (print_flex g s b) g s b.
Proof. exact flex_printed. Qed.
Print Assumptions C73_flex_printed.

Example C73_flex_printed_case :
  print_flex 1%Z 1%Z ZeroLength = [Num 1%Z; Num 1%Z; Num 0%Z]
  /\ print_flex 1%Z 1%Z ZeroPercent = [Num 1%Z]
  /\ print_flex 1%Z 1%Z (Size 3) = [Measure 3]
  /\ print_flex 0%Z 0%Z Auto = [Word "none"].
Proof. repeat split. Qed.

(** A value that is read as [flex] is one of CSS, if there is anything in it
    and the factors are not negative. *)
Theorem C73_flex_accepted_partial : forall l g s b,
  parse_flex l = Some (g, s, b) -> l <> [] -> (0 <= g)%Z -> (0 <= s)%Z ->
  flex_value l g s b.
Proof. exact flex_accepted. Qed.
Print Assumptions C73_flex_accepted_partial.

Example C73_flex_accepted_case :
  parse_flex [Measure 3; Num 1%Z] = Some (1%Z, 1%Z, Size 3)
  /\ parse_flex [Num 1%Z; Measure 3; Num 1%Z] = None.
Proof. split; reflexivity. Qed.

(** The same for [flex-flow]. *)
Theorem C73_flow_read : forall l d w, flow_value l d w -> parse_flow l = Some (d, w).
Proof. exact flow_read. Qed.
Print Assumptions C73_flow_read.

Example C73_flow_read_case : flow_value [Word "wrap"; Word "column"] Column WrapOn.
Proof. apply fv_swapped; constructor. Qed.

Theorem C73_flow_printed : forall d w, flow_value (print_flow d w) d w.
Proof. exact flow_printed. Qed.
Print Assumptions C73_flow_printed.

Example C73_flow_printed_case :
  print_flow Row NoWrap = [Word "row"] /\ print_flow Row WrapOn = [Word "wrap"].
Proof. split; reflexivity. Qed.

Theorem C73_flow_accepted_partial : forall l d w,
  parse_flow l = Some (d, w) -> l <> [] -> flow_value l d w.
Proof. exact flow_accepted. Qed.
Print Assumptions C73_flow_accepted_partial.

Example C73_flow_accepted_case :
  parse_flow [Word "column"] = Some (Column, NoWrap)
  /\ parse_flow [Word "column"; Word "row"] = None.
Proof. split; reflexivity. Qed.

(** An empty value is read as well, and so is a negative factor: CSS drops
    both declarations. *)
Theorem C73_empty_refuted :
  parse_flex [] = Some (1%Z, 1%Z, ZeroPercent) /\ (forall g s b, ~ flex_value [] g s b)
  /\ parse_flow [] = Some (Row, NoWrap) /\ (forall d w, ~ flow_value [] d w).
Proof. exact empty_flex. Qed.
Print Assumptions C73_empty_refuted.

Theorem C73_negative_refuted :
  parse_flex [Num (-1)%Z] = Some ((-1)%Z, 1%Z, ZeroPercent)
  /\ forall g s b, ~ flex_value [Num (-1)%Z] g s b.
Proof. exact negative_flex. Qed.
Print Assumptions C73_negative_refuted.

(** Without targets, a browser that knows any set of prefixes finds in the
    merged block the value of each longhand that the block gave it. *)
Theorem C73_block_partial : forall knows l s,
  readable l -> steady knows l s ->
  result_value knows (run no_targets l) s = source_value knows l s.
Proof. exact block_kept. Qed.
Print Assumptions C73_block_partial.

Example C73_block_case :
  readable sample
  /\ map shown (run no_targets sample)
     = [ DFlow (VDirection Column) (VWrap WrapOn) [NoPrefix];
         DOne Direction (VDirection Column) [WebKit];
         DFlex one one auto [NoPrefix; WebKit; Ms];
         DOne Order two [NoPrefix];
         DRaw (Long Order) 7 [NoPrefix];
         DOne BoxFlex one [WebKit] ]
  /\ source_value (only Ms) sample Grow = Some (Given one)
  /\ source_value (only NoPrefix) sample Order = Some (Tokens (Long Order) 7).
Proof. split; [repeat constructor|split; [reflexivity|split; reflexivity]]. Qed.

Example C73_block_steady : steady (only Ms) sample Grow.
Proof.
  right; intros p v w (d & I & P & G) (e & J & Q & H).
  cbn in I, J.
  repeat (destruct I as [<-|I]; [cbn in G; try discriminate G|]); [..|destruct I];
    injection G as <-;
    repeat (destruct J as [<-|J]; [cbn in H; try discriminate H|]);
    try destruct J; injection H as <-; reflexivity.
Qed.

(** A browser that takes all prefixes for the same needs no condition. *)
Theorem C73_aliases : forall l s,
  readable l ->
  result_value (fun _ => true) (run no_targets l) s
  = source_value (fun _ => true) l s.
Proof. exact block_aliases. Qed.
Print Assumptions C73_aliases.

Example C73_aliases_case :
  readable changed
  /\ map shown (run no_targets changed) = [DFlex two one auto [NoPrefix; Ms]].
Proof. split; [repeat constructor|reflexivity]. Qed.

(** With targets, whatever they are, a browser that knows the properties
    without a prefix finds the values the block gave the standard longhands. *)
Theorem C73_targets_partial : forall exclude include answers l s,
  (forall f b k, answers = Some (f, b) -> f k NoPrefix = true) ->
  readable l -> standard s = true -> steady (only NoPrefix) l s ->
  result_value (only NoPrefix) (run (given_targets exclude include answers) l) s
  = source_value (only NoPrefix) l s.
Proof. exact block_targets. Qed.
Print Assumptions C73_targets_partial.

Example C73_targets_case :
  readable plain
  /\ steady (only NoPrefix) plain Grow
  /\ map shown (run old_webkit plain)
     = [ DOne BoxOrient (Other 0) [WebKit]; DOne BoxDirection (Other 2) [WebKit];
         DFlow (VDirection Row) (VWrap WrapOn) [NoPrefix; WebKit];
         DOne BoxFlex two [WebKit];
         DFlex two one auto [NoPrefix; WebKit] ].
Proof.
  split; [repeat constructor|split; [|reflexivity]].
  left; intros p q v w (d & I & P & _) (e & J & Q & _); subst p q.
  cbn in I, J.
  repeat (destruct I as [<-|I]; [|]); [..|destruct I];
    repeat (destruct J as [<-|J]; [reflexivity|]); destruct J.
Qed.

(** A direction alone is translated for the browsers of 2009: to the axis and
    the way along it, under both prefixes. *)
Theorem C73_direction_2009_partial : forall d f,
  f (Long Direction) Moz = true ->
  let out := run (given_targets false false (Some (f, true)))
               [DOne Direction (VDirection d) NoPrefix] in
  forall q, q = WebKit \/ q = Moz ->
  result_value (only q) out BoxOrient = Some (Given (axis d))
  /\ result_value (only q) out BoxDirection = Some (Given (way d)).
Proof. exact single_2009. Qed.
Print Assumptions C73_direction_2009_partial.

Example C73_direction_2009_case :
  map shown (run (given_targets false false (Some (fun _ _ => true, true)))
               [DOne Direction (VDirection ColumnReverse) NoPrefix])
  = [ DOne BoxOrient (Other 1) [WebKit; Moz]; DOne BoxDirection (Other 3) [WebKit; Moz];
      DOne Direction (VDirection ColumnReverse) [NoPrefix; WebKit; Ms; Opera] ].
Proof. reflexivity. Qed.

(** If a value changes under one prefix after it was written under two, it
    changes under both: [-ms-flex: 1 1 auto; flex: 1 1 auto; flex-grow: 2]
    gives [-ms-flex: 2 1 auto]. *)
Theorem C73_prefix_refuted :
  readable changed
  /\ source_value (only Ms) changed Grow = Some (Given one)
  /\ result_value (only Ms) (run no_targets changed) Grow = Some (Given two).
Proof. exact changed_prefix. Qed.
Print Assumptions C73_prefix_refuted.

(** The properties of Internet Explorer 10 are written before [-ms-flex],
    which then takes back what they said. *)
Theorem C73_legacy_order_refuted :
  readable positive_last
  /\ ie10_grow (fun p => prefix_eqb p Ms) positive_last = Some (Given two)
  /\ ie10_grow (fun ps : pset => ps Ms) (run no_targets positive_last) = Some (Given one).
Proof. exact legacy_order. Qed.
Print Assumptions C73_legacy_order_refuted.

(** With browsers, [flex-direction] takes away [-webkit-box-orient], which
    [display: -webkit-box] still needs. *)
Theorem C73_legacy_dropped_refuted :
  readable orient
  /\ source_value (only WebKit) orient BoxOrient = Some (Given (Other 1))
  /\ result_value (only WebKit) (run modern orient) BoxOrient = None.
Proof. exact legacy_dropped. Qed.
Print Assumptions C73_legacy_dropped_refuted.

(** [order: 0] becomes [box-ordinal-group: 0]; the groups begin at 1. *)
Theorem C73_ordinal_refuted :
  exists l, readable l /\
    result_value (only WebKit) (run old_webkit l) BoxOrdinalGroup = Some (Given (VNumber 0)).
Proof. exact ordinal_zero. Qed.
Print Assumptions C73_ordinal_refuted.

(** [flex-wrap: wrap] gives the browsers of 2009 [box-lines]; the same in
    [flex-flow] does not. *)
Theorem C73_lines_refuted :
  result_value (only WebKit) (run old_webkit [DOne Wrap (VWrap WrapOn) NoPrefix]) BoxLines
    = Some (Given (Other 5))
  /\ result_value (only WebKit)
       (run old_webkit [DFlow (VDirection Row) (VWrap WrapOn) NoPrefix]) BoxLines = None.
Proof. exact flow_lines. Qed.
Print Assumptions C73_lines_refuted.
