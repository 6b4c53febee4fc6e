(** * C74: [position] *)

From Coq Require Import List String Bool.
From Verif Require Import PositionModel PositionSpec PositionProofs.
Import ListNotations.

(** The keywords are read as in CSS, and nothing else is. *)
Theorem C74_read : forall w v, parse_position w = Some v <-> keyword w v.
Proof. exact keyword_iff. Qed.
Print Assumptions C74_read.

Example C74_read_case :
  parse_position "-webkit-sticky" = Some (Sticky false true) /\ parse_position "page" = None.
Proof. split; reflexivity. Qed.

(** What is written for a block is printed as keywords with the same
    meaning, whatever the targets. *)
Theorem C74_printed : forall p l d,
  Forall typed l -> In d (run p l) ->
  exists v, d = Pos v /\ keyword (print_position v) v.
Proof. exact printed_keyword. Qed.
Print Assumptions C74_printed.

Example C74_printed_case :
  run no_targets [Pos (Sticky true false); Pos (Sticky false true)]
  = [Pos (Sticky false true); Pos (Sticky true false)].
Proof. reflexivity. Qed.

(** Without targets, every browser that needs no fallback does with the
    result what it does with the source. *)
Theorem C74_block_partial : forall br l,
  Forall typed l -> settled br l ->
  effective br (run no_targets l) None = effective br l None.
Proof. exact block_kept. Qed.
Print Assumptions C74_block_partial.

Example C74_block_case :
  Forall typed [Pos Fixed; Pos (Sticky false true); Pos (Sticky true false)]
  /\ settled {| knows_sticky := false; knows_webkit := true |}
       [Pos Fixed; Pos (Sticky false true); Pos (Sticky true false)].
Proof.
  split.
  - repeat apply Forall_cons; try apply Forall_nil; eexists; eexists;
      (split; [reflexivity|constructor]).
  - exists [Pos Fixed], (Pos (Sticky false true)), [Pos (Sticky true false)].
    split; [reflexivity|split; [discriminate|right; split; reflexivity]].
Qed.

(** With any targets the same holds for browsers that know [sticky]. *)
Theorem C74_targets_partial : forall exclude include answer br l,
  knows_sticky br = true -> Forall typed l -> settled br l ->
  effective br (run (given exclude include answer) l) None = effective br l None.
Proof. exact targets_kept. Qed.
Print Assumptions C74_targets_partial.

Example C74_targets_case :
  run (given false false (Some true)) [Pos Fixed; Pos (Sticky true false)]
  = [Pos (Sticky false true); Pos (Sticky true false)].
Proof. reflexivity. Qed.

(** A browser that knows [sticky] and understood none of the declarations
    still understands none. *)
Theorem C74_unknown : forall exclude include answer br l,
  knows_sticky br = true -> forallb sticky l = true -> effective br l None = None ->
  effective br (run (given exclude include answer) l) None = None.
Proof. exact unknown_kept. Qed.
Print Assumptions C74_unknown.

Example C74_unknown_case :
  effective {| knows_sticky := true; knows_webkit := false |} [Pos (Sticky false true)] None = None
  /\ run (given false false (Some true)) [Pos (Sticky false true)] = [Pos (Sticky false true)].
Proof. split; reflexivity. Qed.

(** Values with variables are all kept, in their order. *)
Theorem C74_tokens_partial : forall p l, filter tokens (run p l) = filter tokens l.
Proof. exact tokens_kept. Qed.
Print Assumptions C74_tokens_partial.

Example C74_tokens_case :
  run no_targets [Tokens 1; Pos Fixed; Tokens 2] = [Tokens 1; Tokens 2; Pos Fixed].
Proof. reflexivity. Qed.

(** Without [settled]: [position: relative; position: sticky] loses the
    fallback. *)
Theorem C74_fallback_refuted :
  effective old [Pos Relative; Pos (Sticky true false)] None = Some (Placed Relative)
  /\ effective old (run no_targets [Pos Relative; Pos (Sticky true false)]) None = None.
Proof. exact fallback_lost. Qed.
Print Assumptions C74_fallback_refuted.

(** Without [typed]: [position: relative; position: var(--x)] is written in
    the other order, so the variable is lost in every browser. *)
Theorem C74_tokens_refuted : forall br n,
  effective br [Pos Relative; Tokens n] None = Some (Computed n)
  /\ effective br (run no_targets [Pos Relative; Tokens n]) None = Some (Placed Relative).
Proof. exact tokens_lost. Qed.
Print Assumptions C74_tokens_refuted.
