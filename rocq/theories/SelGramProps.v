(** * C64: selector text is read as what the standards say it stands for *)
From Coq Require Import List Bool ZArith Ascii String.
Import ListNotations.
From Verif Require AnbSpec.
From Verif Require Import SelTextModel SelTextSpec SelGramSpec SelGramWords SelGramCases.
Local Open Scope string_scope.
Local Open Scope list_scope.

(** Every list of selectors of the grammar is accepted, and read as the list it stands for *)
Theorem C64_read_partial : forall cfg t l, list_text (html_insensitive cfg) (deep cfg) (nesting_allowed cfg) (Mode true true) t l -> parse cfg t = Some l.
Proof. exact read_list. Qed.
Print Assumptions C64_read_partial.

(** A text of the grammar stands for one list only *)
Theorem C64_one_meaning : forall cfg t l l', list_text (html_insensitive cfg) (deep cfg) (nesting_allowed cfg) (Mode true true) t l ->
  list_text (html_insensitive cfg) (deep cfg) (nesting_allowed cfg) (Mode true true) t l' -> l = l'.
Proof. exact one_meaning. Qed.
Print Assumptions C64_one_meaning.

(** In a nested rule the selectors are relative to [&] unless it stands in them, where [&] counts only outside [:nth-child()] and [::cue()] *)
Theorem C64_nested_partial : forall cfg t l, nesteds_text (html_insensitive cfg) (deep cfg) (nesting_allowed cfg) t l ->
  (forall s, In s l -> existsb has_nesting s = true -> existsb nests s = true) -> parse_nested cfg t = Some l.
Proof. exact read_nested. Qed.
Print Assumptions C64_nested_partial.
Theorem C64_unnested : forall cfg t l, list_text (html_insensitive cfg) (deep cfg) (nesting_allowed cfg) (Mode true true) t l ->
  (forall s, In s l -> existsb has_nesting s = false) -> parse_nested cfg t = Some (map (lead Descendant Nesting) l).
Proof. exact read_unnested. Qed.
Print Assumptions C64_unnested.

(** The full claims are false *)
Theorem C64_placeholder_refuted : ~ (forall cfg n k e, In (k, e) all_element_names -> word k n -> parse cfg [Colon; Colon; Ident n] = Some [[Comb PseudoElement; PElement e]]).
Proof. exact placeholder_wrong. Qed.
Print Assumptions C64_placeholder_refuted.
Theorem C64_slotted_refuted : ~ (forall cfg a l, list_text (html_insensitive cfg) (deep cfg) (nesting_allowed cfg) (Mode true false) a l ->
  parse cfg [Colon; Colon; Fun "slotted" [Colon; Fun "is" a]] = Some [[Comb SlotAssignment; Slotted [Is l]]]).
Proof. exact slotted_wrong. Qed.
Print Assumptions C64_slotted_refuted.
Theorem C64_nested_refuted : ~ (forall cfg t l, nesteds_text (html_insensitive cfg) (deep cfg) (nesting_allowed cfg) t l -> parse_nested cfg t = Some l).
Proof. exact nested_wrong. Qed.
Print Assumptions C64_nested_refuted.

(** ** A case: [ n|*.b > :NOT( #c ,[Href=x I])::Before:hover, d:is(, 5, &)] *)
Definition case_text : list tok :=
  ([Ws] ++ ([Ident "n"; Delim Bar; Delim Star; Delim Dot; Ident "b"] ++ [Ws; Delim Gt; Ws] ++
    ([Colon; Fun "NOT" [Ws; Hash "c"; Ws; Comma; Square [Ident "Href"; Op Equal; Ident "x"; Ws; Ident "I"]]] ++ [Colon; Colon; Ident "Before"; Colon; Ident "hover"])) ++ []) ++
  [Comma] ++ ([Ws] ++ [Ident "d"; Colon; Fun "is" [Comma; Junk 5; Comma; Ws; Delim Amp]] ++ []).
Definition case_list : list sel :=
  [[Ns "n"; Univ; Class "b"; Comb Child; Not [[Id "c"]; [AttrOther None "Href" (Some (Equal, "x", Insensitive, false))]]; Comb PseudoElement; PElement Before; PClass Hover];
   [Local "d"; Is [[Nesting]]]].
Example C64_case : list_text (fun _ => false) false true (Mode true true) case_text case_list.
Proof.
  apply list_more.
  - apply selector_of; [repeat constructor| |constructor].
    apply (complex_more _ _ _ _ _ [Ns "n"; Univ; Class "b"] _ Child); [|discriminate|reflexivity|exact (comb_child false [Ws] [Ws] ltac:(repeat constructor) ltac:(repeat constructor))|].
    + apply (compound_type _ _ _ _ [Ident "n"; Delim Bar; Delim Star] [Ns "n"; Univ] [Delim Dot; Ident "b"] [Class "b"]); [constructor|]. apply (simples_more _ _ _ _ [Delim Dot; Ident "b"] _ [] []); constructor.
    + apply (complex_tail _ _ _ _ _ [Not [[Id "c"]; [AttrOther None "Href" (Some (Equal, "x", Insensitive, false))]]]); [|reflexivity|].
      * apply just_simple. apply simple_not; [exact (lower_word "NOT")|].
        apply (list_more _ _ _ _ [Ws; Hash "c"; Ws] [Id "c"] [Square [Ident "Href"; Op Equal; Ident "x"; Ws; Ident "I"]]).
        -- apply (selector_of _ _ _ _ [Ws] [Hash "c"] [Ws]); [repeat constructor| |repeat constructor]. apply complex_end; [apply just_simple; constructor|discriminate].
        -- apply list_one. apply just_compound; [|discriminate]. apply just_simple. constructor.
           apply (attr_equals _ [] [Ident "Href"] [] Equal [] (Ident "x") "x" [Ws; Ident "I"] None "Href" Insensitive false).
           ++ constructor.
           ++ constructor.
           ++ constructor.
           ++ constructor.
           ++ constructor.
           ++ apply (flag_i [Ws] "I" []); [repeat constructor|exact (lower_word "I")|constructor].
           ++ apply html_flag. discriminate.
           ++ apply attr_general. right. split; [|discriminate]. exists "", "H"%char, "ref". split; [reflexivity|vm_compute; repeat constructor].
      * apply (tail_element _ _ _ "Before" "before" Before [Colon; Ident "hover"] [PClass Hover]); [left; reflexivity|exact (lower_word "Before")|].
        apply (states_more _ "hover" "hover" Hover [] []); [left; reflexivity|apply any_case_refl|constructor].
  - apply list_one. apply selector_of; [repeat constructor| |constructor]. apply complex_end; [|discriminate].
    apply (compound_type _ _ _ _ [Ident "d"] [Local "d"] [Colon; Fun "is" [Comma; Junk 5; Comma; Ws; Delim Amp]] [Is [[Nesting]]]); [constructor|].
    apply (simples_more _ _ _ _ [Colon; Fun "is" [Comma; Junk 5; Comma; Ws; Delim Amp]] _ [] []); [|constructor]. apply simple_is; [apply any_case_refl|].
    apply (forgiving_skip_none _ _ _ _ [] [Junk 5; Comma; Ws; Delim Amp]); [constructor|]. apply (forgiving_skip_bad _ _ _ _ [] (Junk 5) [] [Ws; Delim Amp]); [constructor|reflexivity|constructor|].
    apply forgiving_one. apply (selector_of _ _ _ _ [Ws] [Delim Amp] []); [repeat constructor| |constructor]. apply complex_end; [apply just_simple; constructor; reflexivity|discriminate].
Qed.
Example C64_case_read : parse plain_config case_text = Some case_list.
Proof. vm_compute. reflexivity. Qed.
(** In a nested rule: the first selector is put below [&], the second is left as it is *)
Example C64_case_nested : parse_nested plain_config case_text = Some (match case_list with a :: r => lead Descendant Nesting a :: r | [] => [] end).
Proof. vm_compute. reflexivity. Qed.
