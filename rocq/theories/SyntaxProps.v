(** * C72: registered properties keep their syntax and their initial value *)
From Coq Require Import List Bool Ascii String.
From Verif Require Import AnimModel SyntaxModel SyntaxSpec SyntaxProofs SyntaxValueProofs SyntaxExamples.
Import ListNotations.
Local Open Scope string_scope.

(** A syntax string that is valid in CSS is read as CSS reads it, and what is printed is read as the same.  Missing: newlines, literals
    that begin with [-] (both are refused, see below), escapes. *)
Theorem C72_syntax_partial :
  forall (s : string) (d : syntax), GSyntax s d -> no_newline s -> plain d ->
    parse_string s = Some d /\ forall minify, GSyntax (print_syntax minify d) d.
Proof. intros s d H N P. split; [exact (syntax_read s d H N P)|]. intros minify. exact (syntax_print minify s d H). Qed.
Print Assumptions C72_syntax_partial.
Example C72_syntax_example :
  GSyntax text1 (Components syntax1) /\ parse_string text1 = Some (Components syntax1) /\ print_syntax true (Components syntax1) = "auto|<length>#|<color>".
Proof. split; [exact text1_reads|]. split; vm_compute; reflexivity. Qed.

(** Whatever is accepted, what is printed is valid and has the meaning that was read, if the literals are identifiers that CSS allows. *)
Theorem C72_accepted :
  forall (s : string) (d : syntax) (minify : bool), parse_string s = Some d -> literals_ok d -> GSyntax (print_syntax minify d) d.
Proof. intros s d minify. exact (syntax_accepted minify s d). Qed.
Print Assumptions C72_accepted.
Example C72_accepted_example : parse_string "<LENGTH>+" = Some (Components [Component Length Space]) /\ literals_ok (Components [Component Length Space]).
Proof. split; [vm_compute; reflexivity|]. repeat constructor. Qed.

(** The initial value, read as the first component of the syntax that it is of, is kept, whatever the single values are.  Missing: components
    without multiplier that the value only begins with, and the keyword [none] for [<transform-list>]. *)
Theorem C72_initial_value_partial :
  forall {tok val : Type} (one : kind -> tok -> option val) (ident : tok -> option string) (comma none : tok -> bool)
    (show : val -> tok) (word : string -> tok) (comma_tok : tok),
  (forall k t v, one k t = Some v -> one k (show v) = Some v) -> (forall s, ident (word s) = Some s) -> comma comma_tok = true ->
  forall s cs l p c, GSyntax s (Components cs) -> VSyntax one ident comma cs l p c ->
  (forall d, In d cs -> no_none none (c_kind d) l /\ ~ stops_early one ident comma d l) ->
  initial_value one ident comma none cs l = Some p /\ VComponent one ident comma c (print_value show word comma_tok p) p.
Proof. intros tok val. exact value_kept. Qed.
Print Assumptions C72_initial_value_partial.
Example C72_initial_value_example :
  VSyntax one1 ident1 comma1 syntax1 [Px 1; Sep; Px 2] (Repeated [Value Length 1; Value Length 2] Comma) (Component Length Comma)
  /\ (forall d, In d syntax1 -> no_none none1 (c_kind d) [Px 1; Sep; Px 2] /\ ~ stops_early one1 ident1 comma1 d [Px 1; Sep; Px 2])
  /\ initial_value one1 ident1 comma1 none1 syntax1 [Px 1; Sep; Px 2] = Some (Repeated [Value Length 1; Value Length 2] Comma).
Proof. split; [exact value1|]. split; [exact value1_fine|reflexivity]. Qed.

(** Under the same conditions, a value that is of no component is refused. *)
Theorem C72_refused_partial :
  forall {tok val : Type} (one : kind -> tok -> option val) (ident : tok -> option string) (comma none : tok -> bool),
  forall s cs l, GSyntax s (Components cs) -> (forall c q, In c cs -> ~ VComponent one ident comma c l q) ->
  (forall d, In d cs -> no_none none (c_kind d) l /\ ~ stops_early one ident comma d l) ->
  initial_value one ident comma none cs l = None.
Proof. intros tok val. exact value_not_taken. Qed.
Print Assumptions C72_refused_partial.
Example C72_refused_example : initial_value one1 ident1 comma1 none1 syntax1 [Px 1; Sep] = None.
Proof. reflexivity. Qed.

(** [<length>|<length>+] and [1px 2px]: the first component reads the first length, the second length is lost. *)
Theorem C72_first_component_refuted :
  GSyntax "<length>|<length>+" (Components syntax2)
  /\ VSyntax one1 ident1 comma1 syntax2 [Px 1; Px 2] (Repeated [Value Length 1; Value Length 2] Space) (Component Length Space)
  /\ initial_value one1 ident1 comma1 none1 syntax2 [Px 1; Px 2] = Some (Single (Value Length 1)).
Proof. split; [exact text2_reads|]. split; [exact value2|reflexivity]. Qed.
Print Assumptions C72_first_component_refuted.

(** [<length>] and [1px 2px]: not valid, but accepted, and printed as the valid [1px]. *)
Theorem C72_rest_refuted :
  (forall q, ~ VComponent one1 ident1 comma1 (Component Length One) [Px 1; Px 2] q)
  /\ initial_value one1 ident1 comma1 none1 [Component Length One] [Px 1; Px 2] = Some (Single (Value Length 1)).
Proof. split; [exact not_one_length|reflexivity]. Qed.
Print Assumptions C72_rest_refuted.

(** A newline between components, or a literal that begins with [-]: valid, but refused. *)
Theorem C72_newline_refuted :
  GSyntax text3 (Components [Component Length One; Component Color One]) /\ parse_string text3 = None.
Proof. split; [exact text3_reads|vm_compute; reflexivity]. Qed.
Print Assumptions C72_newline_refuted.
Theorem C72_dash_refuted : GSyntax "-x" (Components [Component (Literal "-x") One]) /\ parse_string "-x" = None.
Proof. split; [exact dash_reads|vm_compute; reflexivity]. Qed.
Print Assumptions C72_dash_refuted.

(** A keyword that all properties have, as a literal: not valid, but accepted and printed. *)
Theorem C72_keyword_refuted :
  parse_string "inherit" = Some (Components [Component (Literal "inherit") One]) /\ forall s, ~ GSyntax s (Components [Component (Literal "inherit") One]).
Proof. split; [vm_compute; reflexivity|exact inherit_not_valid]. Qed.
Print Assumptions C72_keyword_refuted.
