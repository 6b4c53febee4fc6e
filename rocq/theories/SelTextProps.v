(** * C63: a selector list that is printed is read back with the same meaning *)
From Coq Require Import List Bool ZArith String.
Import ListNotations.
From Verif Require Import SelTextModel SelTextSpec SelTextProofs SelTextRoot SelTextCases.
Local Open Scope list_scope.

(** Every list that the parser accepts, if its selectors are [fine_sel]: what is printed is accepted, and each selector matches the same
    elements in every document and has the same specificity.  Missing: the selectors of the refuted cases below. *)
Theorem C63_read_back_partial : forall cfg t l, parse cfg t = Some l -> Forall (fine_sel cfg) l -> exists l', parse cfg (print cfg l) = Some l' /\ Forall2 same_meaning l l'.
Proof. exact reads_back. Qed.
Print Assumptions C63_read_back_partial.
Example C63_read_back_case : parse plain_config case1 = Some list1 /\ List.length list1 = 2 /\ Forall (fine_sel plain_config) list1 /\
  print plain_config list1 = cls "a" ++ [Delim Gt; i "svg"; Delim Bar; Delim Star] ++ call "not" (pseudo "hover" ++ [Comma; Hash "b"]) ++ cls "c" ++ [Ws; Colon] ++ call "slotted" (cls "d") ++
  [Comma; i "x"] ++ call "has" ([Delim Gt; i "y"; Comma; i "z"; Delim Plus] ++ call "nth-child" ([Nth "odd"; Ws; i "of"; Ws] ++ cls "e")) ++ pseudo "before" ++ pseudo "hover".
Proof. exact case1_read. Qed.
Example C63_type_case : parse plain_config case3 = Some list3 /\ Forall (fine_sel plain_config) list3 /\ print plain_config list3 = case3.
Proof. exact case3_read. Qed.

(** The same for the list of a nested rule, where a selector without a nesting selector gets one *)
Theorem C63_nested_partial : forall cfg t l, nesting_allowed cfg = true -> parse_nested cfg t = Some l -> Forall (fine_sel cfg) l -> Forall (fun s => existsb nests s = true) l ->
  exists l', parse_nested cfg (print cfg l) = Some l' /\ Forall2 same_meaning l l'.
Proof. exact nested_reads_back. Qed.
Print Assumptions C63_nested_partial.
Example C63_nested_case : parse_nested plain_config case2 = Some list2 /\ Forall (fine_sel plain_config) list2 /\ Forall (fun s => existsb nests s = true) list2.
Proof. exact case2_read. Qed.

(** ** Refuted *)
(** [:nth-col(1)], [:lang("")], [.a:is(&div)], [a &*|*.b] *)
Theorem C63_unreadable_refuted :
  written_wrong (call "nth-col" [Nth "1"]) [[NthComp NthCol 0 1]] /\
  written_wrong (call "lang" [Str ""]) [[PClass (Lang [""%string])]] /\
  written_wrong (cls "a" ++ call "is" [Delim Amp; i "div"]) [[Class "a"; Is [[Nesting; Local "div"]]]] /\
  written_wrong ([i "a"; Ws; Delim Amp; Delim Star; Delim Bar; Delim Star] ++ cls "b") [[Local "a"; Comb Descendant; Nesting; AnyNs; Univ; Class "b"]].
Proof. exact (conj nth_col_lost (conj lang_lost (conj is_nesting_lost nesting_namespace_lost))). Qed.
Print Assumptions C63_unreadable_refuted.

(** [:-moz-placeholder] becomes [:-moz-placeholder-shown], and [:-ms-input-placeholder] becomes [:-ms-placeholder-shown] *)
Theorem C63_placeholder_refuted :
  written_wrong (pseudo "-moz-placeholder") [[PClass (PlaceholderShown Moz)]] /\ written_wrong (pseudo "-ms-input-placeholder") [[PClass (PlaceholderShown Ms)]].
Proof. exact placeholder_lost. Qed.
Print Assumptions C63_placeholder_refuted.

(** [:nth-child(1 of :scope > a)], [:has(a :scope b)] and [:has( *:scope > a)] *)
Theorem C63_scope_refuted :
  written_wrong (call "nth-child" ([Nth "1"; Ws; i "of"; Ws] ++ pseudo "scope" ++ [Ws; Delim Gt; Ws; i "a"])) [[NthOf NthChild 0 1 [[Scope; Comb Child; Local "a"]]]] /\
  written_wrong (call "has" ([i "a"; Ws] ++ pseudo "scope" ++ [Ws; i "b"])) [[Has [[Local "a"; Comb Descendant; Scope; Comb Descendant; Local "b"]]]] /\
  written_wrong (call "has" ([Delim Star] ++ pseudo "scope" ++ [Ws; Delim Gt; Ws; i "a"])) [[Has [[Univ; Scope; Comb Child; Local "a"]]]].
Proof. exact (conj nth_scope_lost (conj has_scope_lost has_hidden_lost)). Qed.
Print Assumptions C63_scope_refuted.

(** Nested, [:is(&!, .b)] is printed as [.b] *)
Theorem C63_nested_refuted :
  parse_nested plain_config (call "is" ([Delim Amp; Junk 7; Comma; Ws] ++ cls "b")) = Some [[Is [[Class "b"]]]] /\ print plain_config [[Is [[Class "b"]]]] = cls "b" /\
  parse_nested plain_config (cls "b") = Some [[Nesting; Comb Descendant; Class "b"]] /\ ~ same_meaning [Is [[Class "b"]]] [Nesting; Comb Descendant; Class "b"].
Proof. exact nested_lost. Qed.
Print Assumptions C63_nested_refuted.

(** Printing what is read back may print something else: [a:is( *.b )] becomes [a:is(.b)], then [a.b] *)
Theorem C63_twice_refuted : exists l l', parse plain_config ([i "a"] ++ call "is" ([Delim Star] ++ cls "b")) = Some l /\ parse plain_config (print plain_config l) = Some l' /\ print plain_config l' <> print plain_config l.
Proof. exact twice_differs. Qed.
Print Assumptions C63_twice_refuted.

(** Tokens that no selector may hold are accepted: [&a|] and [::view-transition-group(a!)] *)
Theorem C63_tokens_refuted : parse plain_config [Delim Amp; i "a"; Delim Bar] = Some [[Nesting]] /\
  parse plain_config ([Colon] ++ call "view-transition-group" [i "a"; Junk 7]) = Some [[Comb PseudoElement; PElement (VtFn VtGroup (VtPart (Some (PartName "a")) []))]].
Proof. exact tokens_lost. Qed.
Print Assumptions C63_tokens_refuted.
