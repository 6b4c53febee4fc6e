(** * C69: values that are lists of tokens are printed as the same tokens *)
From Coq Require Import List Bool String Ascii.
From Verif Require Import TokSpec TokModel TokListSpec TokListProofs TokReadProofs TokSpacedProofs TokExamples.
Import ListNotations.
Local Open Scope string_scope.

(** What is printed for a list of items is read, up to the text behind it, as the tokens of the items: same names, numbers, strings, brackets, in
    the same order; only the amount of white space may differ, and an address may get or lose its quotes.  Missing: the neighbours in the list must
    not run together (the refutations below), and no token is one of those that are printed wrongly by themselves. *)
Theorem C69_printed_partial :
  forall (minify : bool) (l : list item) (rest : string),
    forallb fine (all_tokens minify l) = true -> all_apart (kept minify (all_tokens minify l)) = true -> stops rest = true ->
    exists k k', Lexes (print minify l ++ rest) k rest /\ MeansAll (all_tokens minify l) k' /\ squeeze k = squeeze k'.
Proof. exact print_lexes. Qed.
Print Assumptions C69_printed_partial.

(** The same for tokens that are printed as they are (the prelude and the block of rules that are not known). *)
Theorem C69_raw_partial :
  forall (minify : bool) (l : list item) (text rest : string),
    print_raw minify l = Some text ->
    forallb fine (all_tokens minify l) = true -> all_apart (kept minify (all_tokens minify l)) = true -> stops rest = true ->
    exists k k', Lexes (text ++ rest) k rest /\ MeansAll (all_tokens minify l) k' /\ squeeze k = squeeze k'.
Proof. exact raw_lexes. Qed.
Print Assumptions C69_raw_partial.

(** A value whose tokens are set apart in the source is printed, minified or not, as a text that is read as the tokens of the source: colours and
    dimensions as their printers write them, everything else as it was, however deep it is nested; white space may go only at the ends, next to the
    name of a variable and where there is other white space. *)
Theorem C69_value_partial :
  forall (o : readers) (minify : bool), apart_readers o minify -> fine_readers o ->
  forall (levels : nat) (src : list tree) (l : list item) (rest : string),
    forallb fine_tree src = true -> spaced_value o minify src = true -> read_list o levels src = Some l -> stops rest = true ->
    exists k k1 k0, Lexes (print minify l ++ rest) k rest /\ squeeze k = squeeze k1 /\ KeptAll o src k0 /\ Trimmed k0 k1.
Proof. exact spaced_kept. Qed.
Print Assumptions C69_value_partial.
Example C69_value_example :
  fine_readers red_only /\ apart_readers red_only true
  /\ forallb fine_tree value = true /\ spaced_value red_only true value = true
  /\ option_map (print true) (read_list red_only 500 value) = Some "1px solid var(--a,red)/.5 calc(2*(x)) url(""a b"")".
Proof. split; [exact red_only_fine|]. split; [apply red_only_apart|]. vm_compute. repeat split. Qed.
Example C69_printed_example :
  forall l, read_list red_only 500 value = Some l ->
    forallb fine (all_tokens false l) = true /\ all_apart (kept false (all_tokens false l)) = true.
Proof. intros l H. vm_compute in H. injection H as <-. vm_compute. split; reflexivity. Qed.
Example C69_raw_example :
  let l := [Tok (TIdent "a"); Tok (TSpace newline); Tok (TNumber half); Tok (TOpen Curly); Tok (TString "x"); Tok (TClose Curly)] in
  print_raw true l = Some "a 0.5{""x""}" /\ forallb fine (all_tokens true l) = true /\ all_apart (kept true (all_tokens true l)) = true.
Proof. vm_compute. repeat split. Qed.

(** A text is read in one way, so what the theorems say of a text is all there is to say. *)
Theorem C69_one_reading :
  forall (s : string) (k k' : list tok), Lexes s k "" -> Lexes s k' "" -> k = k'.
Proof. intros s k k' H H'. exact (lexes_once s k H k' H'). Qed.
Print Assumptions C69_one_reading.

(** Tokens without white space between them may run together. *)
Theorem C69_comment_refuted :
  Changes red_only true "a/**/b" [Leaf (TIdent "a"); Leaf (TComment ""); Leaf (TIdent "b")].
Proof. change_of [TIdent "a"; TComment ""; TIdent "b"]. Qed.
Print Assumptions C69_comment_refuted.
Theorem C69_sign_refuted :
  forall minify, Changes red_only minify "1+5" [Leaf (TNumber (whole "1" false)); Leaf (TNumber (whole "5" true))].
Proof. intros []; change_of [TNumber (whole "1" false); TNumber (whole "5" true)]. Qed.
Print Assumptions C69_sign_refuted.
Theorem C69_sign_ident_refuted :
  forall minify, Changes red_only minify "a+5" [Leaf (TIdent "a"); Leaf (TNumber (whole "5" true))].
Proof. intros []; change_of [TIdent "a"; TNumber (whole "5" true)]. Qed.
Print Assumptions C69_sign_ident_refuted.
Theorem C69_point_refuted :
  forall minify, Changes red_only minify "1.0.5" [Leaf (TNumber one_point); Leaf (TNumber half)].
Proof. intros []; change_of [TNumber one_point; TNumber half]. Qed.
Print Assumptions C69_point_refuted.

(** A colour that becomes a name runs into the name before it. *)
Theorem C69_color_refuted :
  forall minify, let src := [Leaf (TIdent "a"); Leaf (TIdHash "ff0000")] in
  exists l, Lexes "a#ff0000" [KIdent "a"; KHash "ff0000"] "" /\ KeptAll red_only src [KIdent "a"; KIdent "red"]
    /\ read_list red_only 500 src = Some l /\ Lexes (print minify l) [KIdent "ared"] "".
Proof.
  intros minify src. exists [Tok (TIdent "a"); Typed [TIdent "red"]].
  split; [apply (lex_lexes 99); reflexivity|]. split.
  - apply (KCons _ _ _ [_]); [apply KLeaf; constructor|]. apply (KCons _ _ _ [_] []); [|constructor].
    apply (KIdHex _ _ [TIdent "red"]); [reflexivity|]. apply (MACons _ _ [_] []); constructor.
  - split; [reflexivity|]. apply (lex_lexes 99). destruct minify; reflexivity.
Qed.
Print Assumptions C69_color_refuted.

(** Tokens that are printed wrongly by themselves: a unit that looks like an exponent, and small numbers below zero in scientific notation. *)
Theorem C69_unit_refuted :
  forall minify, Changes red_only minify "1\65 5" [Leaf (TDimension (whole "1" false) "e5")].
Proof. intros []; change_of [TDimension (whole "1" false) "e5"]. Qed.
Print Assumptions C69_unit_refuted.
Theorem C69_small_refuted :
  forall minify, Changes red_only minify "-1e-7px" [Leaf (TDimension tiny "px")].
Proof. intros []; change_of [TDimension tiny "px"]. Qed.
Print Assumptions C69_small_refuted.

(** A backslash before the end of a line becomes an escape. *)
Theorem C69_backslash_refuted :
  Changes red_only true (String (ascii_of_nat 92) newline ++ "a") [Leaf backslash_token; Leaf (TSpace newline); Leaf (TIdent "a")].
Proof. change_of [backslash_token; TSpace newline; TIdent "a"]. Qed.
Print Assumptions C69_backslash_refuted.

(** In rules that are not known: a number after a name. *)
Theorem C69_raw_refuted :
  forall minify, exists text,
    Lexes "a.5" (flat_map reading [TIdent "a"; TNumber half]) ""
    /\ print_raw minify [Tok (TIdent "a"); Tok (TNumber half)] = Some text /\ Lexes text [KIdent "a0"; KNumber (number_of half)] "".
Proof. intros minify. exists "a0.5". split; [apply (lex_lexes 99); reflexivity|]. split; [destruct minify; reflexivity|]. apply (lex_lexes 99); reflexivity. Qed.
Print Assumptions C69_raw_refuted.
