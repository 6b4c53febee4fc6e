(** * C71: grid declarations, merged into shorthands, give the same grid *)
From Coq Require Import List Bool QArith ZArith Ascii String.
From Verif Require Import AnimModel GridModel GridSpec GridBlockProofs GridOneProofs GridAcceptProofs GridExamples.
Import ListNotations.
Local Open Scope nat_scope.
Local Open Scope string_scope.

(** A block of declarations of the fifteen grid properties, each valid in CSS: what is printed in their place is valid, its tokens stay
    apart without the white space that is left out, and it gives each longhand what the block gave it (rows of unnamed cells may be
    added to areas where there are tracks for them).  Missing: the conditions of [lines_named] and [fits]; without them it is false, see
    below. *)
Theorem C71_block_partial :
  forall (minify : bool) (block : list (prop * list tok)) (es : list (slot -> option value)),
    Forall2 Declares block es -> Forall lines_named block -> fits minify false (cascade es) ->
    (forall k d, nth_error block k = Some d -> Kept d -> fits minify true (cascade (firstn k es))) ->
    exists out, process minify block = Some out
      /\ Forall (fun d => SetApart (snd d)) out
      /\ exists f, Block (map (fun d => (fst d, tokens (snd d))) out) f /\ same_grid (cascade es) f.
Proof. exact block_ok. Qed.
Print Assumptions C71_block_partial.
Example C71_block_example :
  Forall2 Declares block1 es1 /\ Forall lines_named block1 /\ fits true false (cascade es1)
  /\ (forall k d, nth_error block1 k = Some d -> Kept d -> fits true true (cascade (firstn k es1)))
  /\ process true block1
     = Some [(GridTemplate, [T (Names [Word "x"]); T (Str "a b"); T (fr 1); T (Names [Word "y"]); T (Str ". ."); T Slash; T (Word "auto"); Sp; T (Size 1)]);
             (GridRow, [T (Int 1); T Slash; T (Word "b")])].
Proof.
  split; [exact block1_reads|]. split; [exact block1_named|]. split; [exact (block1_fits true)|]. split; [|vm_compute; reflexivity].
  intros k d E K. destruct (block1_not_kept k d E K).
Qed.

(** CSS reads a value, and a block, in one way only: "the same grid" above cannot be met by another reading. *)
Theorem C71_one_value : forall p l vs vs', GValue p l vs -> GValue p l vs' -> vs = vs'.
Proof. exact value_once. Qed.
Print Assumptions C71_one_value.
Theorem C71_one_reading : forall l e e', Block l e -> Block l e' -> forall s, e s = e' s.
Proof. exact block_once. Qed.
Print Assumptions C71_one_reading.
Example C71_one_reading_example : Block block1 (cascade es1).
Proof. exists es1. split; [exact block1_reads|reflexivity]. Qed.

(** Without [lines_named]: a name of the line between two rows goes to the line before the first, if that has none. *)
Theorem C71_names_refuted : forall minify, changed minify shifted.
Proof. exact shifted_changed. Qed.
Print Assumptions C71_names_refuted.

(** Without [fits]: two names of the first line are printed in brackets of their own, if not minified. *)
Theorem C71_two_names_refuted : changed false doubled.
Proof. exact doubled_changed. Qed.
Print Assumptions C71_two_names_refuted.

(** Without [fits]: [grid-auto-columns] is lost where there are areas and no rows. *)
Theorem C71_auto_columns_refuted : forall minify, changed minify without_rows.
Proof. exact without_rows_changed. Qed.
Print Assumptions C71_auto_columns_refuted.

(** Without [fits]: more rows of areas than tracks make tracks of the size [auto]. *)
Theorem C71_more_areas_refuted : forall minify, changed minify more_areas.
Proof. exact more_areas_changed. Qed.
Print Assumptions C71_more_areas_refuted.

(** Without the condition for declarations that are kept: rows that are added to the areas stay when other rows follow. *)
Theorem C71_later_rows_refuted : forall minify, changed minify later_rows.
Proof. exact later_rows_changed. Qed.
Print Assumptions C71_later_rows_refuted.

(** Areas that are no rectangles are not refused; merged, they take rows and columns with them. *)
Theorem C71_rectangles_refuted :
  option_map printed (process true crossed) = Some [(GridTemplate, crossed_result)] /\ forall vs, ~ GValue GridTemplate crossed_result vs.
Proof. split; [vm_compute; reflexivity|exact crossed_invalid]. Qed.
Print Assumptions C71_rectangles_refuted.

(** Empty areas are not refused; with rows and columns they are a division by zero. *)
Theorem C71_empty_areas_refuted :
  forall minify, process minify [(GridTemplateAreas, []); (GridTemplateRows, [Size 1]); (GridTemplateColumns, [Size 1])] = None.
Proof. intros []; vm_compute; reflexivity. Qed.
Print Assumptions C71_empty_areas_refuted.

(** Sizes that are read are sizes of CSS: an [fr] is not negative and not the minimum of [minmax()]. *)
Theorem C71_size_accepted : forall t s, parse_size t = Some s -> GSize t s.
Proof. exact accept_size. Qed.
Print Assumptions C71_size_accepted.
Example C71_size_accepted_example :
  parse_size (Fun "minmax" [Size 1; Comma; Fr 2]) = Some (MinMax (BLength (Len 1)) (BFlex 2))
  /\ parse_size (Fun "minmax" [Fr 2; Comma; Size 1]) = None /\ parse_size (Fr (-1)) = None.
Proof. repeat split. Qed.

(** A value of [grid-auto-rows] that is read to its end is one of CSS; the code keeps no size for a single [auto]. *)
Theorem C71_auto_accepted_partial : forall l ss, parse_sizes l = (ss, []) -> l <> [] ->
  GSizes l ss \/ (ss = [] /\ GSizes l [Breadth BAuto]).
Proof. exact accept_sizes. Qed.
Print Assumptions C71_auto_accepted_partial.
Example C71_auto_accepted_example :
  parse_sizes [Size 1; Word "auto"] = ([Breadth (BLength (Len 1)); Breadth BAuto], []) /\ parse_sizes [Word "auto"] = ([], []).
Proof. split; reflexivity. Qed.

(** Without a size: the empty value is read as [auto]. *)
Theorem C71_empty_auto_refuted : parse_sizes [] = ([], []) /\ forall ss, ~ GSizes [] ss.
Proof. exact empty_sizes. Qed.
Print Assumptions C71_empty_auto_refuted.
