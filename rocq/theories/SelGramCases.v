(** * Whole lists of selectors, at the top and in nested rules *)
From Coq Require Import List Bool ZArith Ascii String Lia.
Import ListNotations.
From Verif Require AnimModel AnbSpec AnbProofs.
From Verif Require Import SelTextModel SelTextSpec SelTextProofs SelTextBack SelTextFns SelGramSpec SelGramWords SelGramParts SelGramNames SelGramProofs.
Local Open Scope string_scope.
Local Open Scope list_scope.

Section Whole.
Variable cfg : config.
Notation html := (html_insensitive cfg).
Notation nest := (nesting_allowed cfg).
Lemma list_read m t l : list_text html (deep cfg) nest m t l -> P_list cfg m t l.
Proof. apply (grammar_read cfg). Qed.
Lemma selector_read m t s : selector_text html (deep cfg) nest m t s -> P_selector cfg m t s.
Proof. apply (grammar_read cfg). Qed.
Theorem read_list t l : list_text html (deep cfg) nest (Mode true true) t l -> parse cfg t = Some l.
Proof.
  intros H. unfold parse, selector_list. destruct (list_read _ _ _ H false empty_state empty_state pure_empty (fun x => x)) as (st' & E & _). rewrite E. reflexivity.
Qed.
Theorem one_meaning t l l' : list_text html (deep cfg) nest (Mode true true) t l -> list_text html (deep cfg) nest (Mode true true) t l' -> l = l'.
Proof. intros H H'. apply read_list in H, H'. congruence. Qed.

(** The model's notion of nesting is within the standard's *)
Fixpoint nests_has (c : comp) : nests c = true -> has_nesting c = true.
Proof.
  assert (S : forall s : sel, existsb nests s = true -> existsb has_nesting s = true).
  { fix IH 1. intros [|x s]; [discriminate|]. cbn. intros H. apply orb_true_iff in H. apply orb_true_iff. destruct H as [H|H]; [left; exact (nests_has x H)|right; exact (IH s H)]. }
  assert (L : forall l : list sel, existsb (existsb nests) l = true -> existsb (existsb has_nesting) l = true).
  { fix IH 1. intros [|x l]; [discriminate|]. cbn. intros H. apply orb_true_iff in H. apply orb_true_iff. destruct H as [H|H]; [left; exact (S x H)|right; exact (IH l H)]. }
  destruct c; try discriminate; try (exact (fun H => H)); try (exact (L l)); try (exact (S s)). destruct s as [s|]; [exact (S s)|discriminate].
Qed.
Lemma none_nests s : existsb has_nesting s = false -> existsb nests s = false.
Proof.
  intros H. destruct (existsb nests s) eqn:E; [|reflexivity]. apply existsb_exists in E. destruct E as (c & I & N). apply nests_has in N.
  assert (X : existsb has_nesting s = true) by (apply existsb_exists; exists c; auto). congruence.
Qed.
Definition told (s : sel) : Prop := existsb has_nesting s = true -> existsb nests s = true.
Lemma nested_read t s : nested_text html (deep cfg) nest t s -> told s -> no_comma t /\ exists st', relative_selector cfg true empty_state (items cfg t) = (st', Some s).
Proof.
  intros [w y k t' s' B Y H|t' s' H N|t' s' H N] T; apply selector_read in H; destruct H as [R NC].
  - split; [apply Forall_app; split; [apply blank_comma; exact B|apply Forall_app; split; [destruct Y; repeat (constructor; [discriminate|]); constructor|exact NC]]|].
    destruct (R empty_state false pure_empty) as (st' & E & _). exists st'. unfold relative_selector. rewrite items_app, skip_ws by exact B. destruct Y; cbn [items SelTextModel.items map app skip]; fold (items cfg t'); rewrite E; reflexivity.
  - split; [exact NC|]. destruct (R empty_state true pure_empty) as (st' & E & A & Q). exists st'. rewrite Q, E. unfold implied. rewrite A, (T N), orb_true_r. reflexivity.
  - split; [exact NC|]. destruct (R empty_state true pure_empty) as (st' & E & A & Q). exists st'. rewrite Q, E. unfold implied. rewrite A, (none_nests s' N). reflexivity.
Qed.
Lemma nesteds_read t l : nesteds_text html (deep cfg) nest t l -> Forall told l -> forall acc, exists st', selectors (relative_selector cfg true) false empty_state acc (split_commas (items cfg t)) = (st', Some l).
Proof.
  induction 1 as [t s H|t s r l H R IH]; intros F acc.
  - destruct (nested_read t s H (Forall_inv F)) as (N & st' & E). rewrite split_one by exact N. cbn [selectors]. rewrite E. eexists. reflexivity.
  - destruct (nested_read t s H (Forall_inv F)) as (N & st' & E). cbn [app]. rewrite split_more by exact N. cbn [selectors]. rewrite E.
    destruct (IH (Forall_inv_tail F) (set_nesting (after_nesting st') acc)) as (st2 & E2). rewrite E2. eexists. reflexivity.
Qed.
Theorem read_nested t l : nesteds_text html (deep cfg) nest t l -> (forall s, In s l -> existsb has_nesting s = true -> existsb nests s = true) -> parse_nested cfg t = Some l.
Proof.
  intros H T. unfold parse_nested, selector_list. destruct (nesteds_read t l H) with (acc := empty_state) as (st' & E); [apply Forall_forall; exact T|]. rewrite E. reflexivity.
Qed.
(** A list without lead combinators and without [&] is put below [&] *)
Theorem read_unnested t l : list_text html (deep cfg) nest (Mode true true) t l -> (forall s, In s l -> existsb has_nesting s = false) -> parse_nested cfg t = Some (map (lead Descendant Nesting) l).
Proof.
  intros H N. apply read_nested.
  - remember (Mode true true) as m eqn:M. revert N. induction H as [m t s H|m t s r l H R IH]; intros N; subst m.
    + apply nesteds_one. apply nested_without; [exact H|apply N; left; reflexivity].
    + cbn [map]. apply nesteds_more; [apply nested_without; [exact H|apply N; left; reflexivity]|]. apply IH; [reflexivity|]. intros s' I. apply N. right. exact I.
  - intros s I _. apply in_map_iff in I. destruct I as (s' & <- & _). reflexivity.
Qed.
End Whole.

(** ** Where the code departs from the standards *)
Definition plain_config : config := Config true false false (fun _ => false) (fun _ => 0) (fun _ => 0) (fun _ => []).
Lemma any_case_refl s : word s s.
Proof. induction s; constructor; auto. Qed.
Theorem placeholder_wrong : ~ (forall cfg n k e, In (k, e) all_element_names -> word k n -> parse cfg [Colon; Colon; Ident n] = Some [[Comb PseudoElement; PElement e]]).
Proof.
  intros H. specialize (H plain_config "-ms-input-placeholder" "-ms-input-placeholder" (Placeholder Ms) (or_introl eq_refl) (any_case_refl _))%string. vm_compute in H. discriminate H.
Qed.
Section Texts.
Variable h : string -> bool.
Variable d n : bool.
Lemma just_compound m t cs : compound_text h d n m t cs -> cs <> [] -> selector_text h d n m t cs.
Proof. intros C N. rewrite <- (app_nil_r t). apply (selector_of h d n m [] t []); [constructor|apply complex_end; assumption|constructor]. Qed.
Lemma just_name m s : compound_text h d n m [Ident s] [Local s].
Proof. apply (compound_type h d n m [Ident s] [Local s] [] []); [constructor|constructor]. Qed.
Lemma just_simple m t c : simple_text h d n m t c -> compound_text h d n m t [c].
Proof. intros S. apply compound_plain. rewrite <- (app_nil_r t). apply simples_more; [exact S|constructor]. Qed.
End Texts.
Theorem slotted_wrong : ~ (forall cfg a l, list_text (html_insensitive cfg) (deep cfg) (nesting_allowed cfg) (Mode true false) a l ->
  parse cfg [Colon; Colon; Fun "slotted" [Colon; Fun "is" a]] = Some [[Comb SlotAssignment; Slotted [Is l]]]).
Proof.
  intros H. specialize (H plain_config ([Ident "a"; Delim Gt; Ident "b"] ++ [Comma] ++ [Ident "c"]) [[Local "a"; Comb Child; Local "b"]; [Local "c"]]).
  assert (E := H ltac:(apply list_more; [apply (selector_of _ _ _ _ [] [Ident "a"%string; Delim Gt; Ident "b"%string] []); [constructor| |constructor];
    apply (complex_more _ _ _ _ [Ident "a"%string] [Local "a"%string] ([] ++ [Delim Gt] ++ []) Child [Ident "b"%string] [Local "b"%string]);
      [apply just_name|discriminate|reflexivity|constructor; constructor|apply complex_end; [apply just_name|discriminate]]
    |apply list_one; apply just_compound; [apply just_name|discriminate]])). vm_compute in E. discriminate E.
Qed.
Theorem nested_wrong : ~ (forall cfg t l, nesteds_text (html_insensitive cfg) (deep cfg) (nesting_allowed cfg) t l -> parse_nested cfg t = Some l).
Proof.
  intros H. specialize (H plain_config [Colon; Fun "nth-child" [Nth "odd"; Ws; Ident "of"; Delim Amp]] [[NthOf NthChild 2 1 [[Nesting]]]]).
  assert (E : parse_nested plain_config [Colon; Fun "nth-child" [Nth "odd"; Ws; Ident "of"; Delim Amp]] = Some [[NthOf NthChild 2 1 [[Nesting]]]]).
  { apply H. apply nesteds_one. apply nested_has; [|reflexivity]. apply just_compound; [|discriminate]. apply just_simple.
    apply (simple_nth_of _ _ _ _ "nth-child" "nth-child" NthChild [] "odd" [Ws] "of" [Delim Amp] 2%Z 1%Z [[Nesting]]).
    - left. reflexivity.
    - apply any_case_refl.
    - left. reflexivity.
    - constructor.
    - apply AnbSpec.anb_odd. apply any_case_refl.
    - split; discriminate.
    - split; discriminate.
    - discriminate.
    - repeat constructor.
    - apply any_case_refl.
    - apply list_one. apply just_compound; [apply just_simple; constructor; reflexivity|discriminate]. }
  vm_compute in E. discriminate E.
Qed.
