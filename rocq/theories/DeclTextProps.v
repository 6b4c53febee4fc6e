(** * C19: declaration blocks as text *)
From Coq Require Import List Bool String.
From Verif Require Import MediaModel VendorPrefixModel PropertyTable DeclTextModel DeclTextSpec DeclTextProofs
  DeclTextBlockProofs DeclTextRoundProofs DeclTextExamples.
Import ListNotations.
Local Open Scope string_scope.
Local Open Scope list_scope.

(** A block that was read, printed (minified or not) and read again is the same block, up to the
    amount of whitespace inside token lists when minified.  The grammars of the typed properties
    are parameters, assumed to read what they print. *)
Theorem C19_reparse_partial :
  forall (V : Type) (parse_typed : string -> list tk -> option V) (print_typed : bool -> string -> V -> list tk)
         (recover recover' : bool) (text : list tk) (minify : bool) (indent : string) (b : dblock V),
    parse_block V parse_typed recover text = Some b ->
    answered_block V parse_typed print_typed minify b ->
    parse_block V parse_typed recover' (print_block V print_typed minify indent b) = Some (reread V minify b).
Proof. exact reparse. Qed.
Print Assumptions C19_reparse_partial.
Example C19_reparse_example :
  parse_block string one_name false sample = Some sample_block
  /\ (forall m, answered_block string one_name show_name m sample_block)
  /\ reread string false sample_block = sample_block
  /\ glue (print_block string show_name false "" sample_block) <> sample.
Proof.
  split; [vm_compute; reflexivity|]. split; [exact sample_answered|]. split; [reflexivity | vm_compute; discriminate].
Qed.

(** The same between braces *)
Theorem C19_reparse_body_partial :
  forall (V : Type) (parse_typed : string -> list tk -> option V) (print_typed : bool -> string -> V -> list tk)
         (recover recover' : bool) (text : list tk) (minify : bool) (indent outer : string) (b : dblock V),
    parse_block V parse_typed recover text = Some b ->
    answered_block V parse_typed print_typed minify b ->
    parse_block V parse_typed recover' (print_body V print_typed minify false indent outer b) = Some (reread V minify b).
Proof. exact reparse_body. Qed.
Print Assumptions C19_reparse_body_partial.

(** Any printable block, also one that was built or minified and has several prefixes in one
    declaration, is read back as one declaration for each prefix. *)
Theorem C19_print_partial :
  forall (V : Type) (parse_typed : string -> list tk -> option V) (print_typed : bool -> string -> V -> list tk)
         (recover minify : bool) (indent : string) (b : dblock V),
    printable_block V parse_typed print_typed minify b ->
    parse_block V parse_typed recover (print_block V print_typed minify indent b) = Some (written V minify b).
Proof. exact print_reads. Qed.
Print Assumptions C19_print_partial.
Example C19_print_example :
  (forall m, printable_block string one_name show_name m prefixed)
  /\ List.length (d_normal (written string true prefixed)) = 4.
Proof. split; [exact prefixed_printable | vm_compute; reflexivity]. Qed.

(** The declarations of a rule, with or without CSS modules and nested rules *)
Theorem C19_rule_partial :
  forall (V : Type) (parse_typed : string -> list tk -> option V) (print_typed : bool -> string -> V -> list tk)
         (recover minify modules nested : bool) (indent outer : string) (b : dblock V),
    printable_block V parse_typed print_typed minify b ->
    let shown := if modules then without_composes V b else b in
    parse_block V parse_typed recover (print_declarations V print_typed minify modules nested indent b)
      = Some (written V minify shown)
    /\ parse_block V parse_typed recover (print_body V print_typed minify modules indent outer b)
      = Some (written V minify shown).
Proof. exact (fun V pt prt rec m mo ne i o b H => conj (lines_read V pt prt rec m mo ne i b H) (body_reads V pt prt rec m mo i o b H)). Qed.
Print Assumptions C19_rule_partial.
Example C19_rule_example :
  (forall m, printable_block string one_name show_name m with_composes)
  /\ without_composes string with_composes <> with_composes
  /\ print_body string show_name true true "" "" with_composes = [KIdent "color"; KColon; KIdent "red"; KSemi].
Proof. split; [exact composes_printable|]. split; [discriminate | vm_compute; reflexivity]. Qed.

(** The text is a list of statements: the normal declarations, then the important ones, each once
    for each prefix, in order, with its name, value and importance. *)
Theorem C19_order_partial :
  forall (V : Type) (parse_typed : string -> list tk -> option V) (print_typed : bool -> string -> V -> list tk)
         (minify : bool) (indent : string) (b : dblock V),
    printable_block V parse_typed print_typed minify b ->
    Forall2 (writes V print_typed minify) (filter something (pieces (print_block V print_typed minify indent b))) (to_write V b).
Proof. exact print_writes. Qed.
Print Assumptions C19_order_partial.
Theorem C19_rule_order_partial :
  forall (V : Type) (parse_typed : string -> list tk -> option V) (print_typed : bool -> string -> V -> list tk)
         (minify modules nested : bool) (indent : string) (b : dblock V),
    printable_block V parse_typed print_typed minify b ->
    Forall2 (writes V print_typed minify)
      (filter something (pieces (print_declarations V print_typed minify modules nested indent b)))
      (to_write V (if modules then without_composes V b else b)).
Proof. exact lines_write. Qed.
Print Assumptions C19_rule_order_partial.
Example C19_order_example :
  filter something (pieces (print_block string show_name true "" prefixed))
  = [[KIdent "-webkit-transition"; KColon; KIdent "none"]; [KIdent "-moz-transition"; KColon; KIdent "none"];
     [KIdent "transition"; KColon; KIdent "none"]; [KIdent "color"; KColon; KIdent "red"]].
Proof. vm_compute. reflexivity. Qed.

(** ** What fails *)

(** Minifying removes a comment and joins the names beside it. *)
Theorem C19_comment_refuted :
  exists (text : list tk) (b : dblock string),
    parse_block string one_name false text = Some b
    /\ d_normal b = [DCustom "--a" [VTok (KIdent "x"); VTok (KComment ""); VTok (KIdent "y")]]
    /\ parse_block string one_name false (print_block string show_name true "" b)
       = Some (DBlock [] [DCustom "--a" [VTok (KIdent "xy")]]).
Proof.
  exists [KIdent "--a"; KColon; KIdent "x"; KComment ""; KIdent "y"]. eexists.
  split; [vm_compute; reflexivity|]. split; vm_compute; reflexivity.
Qed.
Print Assumptions C19_comment_refuted.
(** Without minifying, an empty value becomes whitespace, *)
Theorem C19_empty_refuted :
  exists (text : list tk) (b b' : dblock string),
    parse_block string one_name false text = Some b
    /\ d_normal b = [DUnparsed (PPlain "color") []]
    /\ parse_block string one_name false (print_block string show_name false "" b) = Some b'
    /\ d_normal b' = [DUnparsed (PPlain "color") [VTok (KWs " ")]].
Proof.
  exists [KIdent "color"; KColon]. eexists. eexists. split; [vm_compute; reflexivity|].
  split; [vm_compute; reflexivity|]. split; vm_compute; reflexivity.
Qed.
Print Assumptions C19_empty_refuted.
(** whitespace before [!important] grows each time, *)
Theorem C19_growing_refuted :
  exists (text : list tk) (b b' : dblock string),
    parse_block string one_name false text = Some b
    /\ d_important b = [DCustom "--a" [VTok (KWs " ")]]
    /\ parse_block string one_name false (print_block string show_name false "" b) = Some b'
    /\ d_important b' = [DCustom "--a" [VTok (KWs "  ")]].
Proof.
  exists [KIdent "--a"; KColon; KWs " "; KBang; KIdent "important"]. eexists. eexists. split; [vm_compute; reflexivity|].
  split; [vm_compute; reflexivity|]. split; vm_compute; reflexivity.
Qed.
Print Assumptions C19_growing_refuted.
(** and an empty fallback becomes whitespace. *)
Theorem C19_fallback_refuted :
  exists (text : list tk) (b b' : dblock string),
    parse_block string one_name false text = Some b
    /\ d_normal b = [DCustom "--a" [VRef "var" "--x" (Some [])]]
    /\ parse_block string one_name false (print_block string show_name false "" b) = Some b'
    /\ d_normal b' = [DCustom "--a" [VRef "var" "--x" (Some [VTok (KWs " ")])]].
Proof.
  exists [KIdent "--a"; KColon; KWs " "; KFun "var" [KIdent "--x"; KComma]]. eexists. eexists. split; [vm_compute; reflexivity|].
  split; [vm_compute; reflexivity|]. split; vm_compute; reflexivity.
Qed.
Print Assumptions C19_fallback_refuted.
