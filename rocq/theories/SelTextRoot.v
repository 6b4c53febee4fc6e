(** * Whole selector lists *)
From Coq Require Import List Bool ZArith Ascii String Lia Arith.
Import ListNotations.
From Verif Require Import AnbModel SelTextModel SelTextSpec SelTextProofs SelTextLayout SelTextBack SelTextFns SelTextMeaning.
Local Open Scope list_scope.

Section Root.
Variable cfg : config.
Notation good := (good cfg).
Notation fine := (fine_comp cfg).
Lemma meanings l : Forall (fine_sel cfg) l -> Forall2 same_meaning l (map (norm true) l).
Proof. induction 1 as [|s l F H IH]; constructor; [eapply norm_meaning; exact F|exact IH]. Qed.

Lemma parse_back t l : parse cfg t = Some l -> Forall (fine_sel cfg) l -> parse cfg (print cfg l) = Some (map (norm true) l).
Proof.
  intros H F. unfold parse in *. destruct (selector_list cfg false false false empty_state (items cfg t)) as [st' [x|]] eqn:S; [|discriminate]. cbn [snd] in H. injection H as ->.
  destruct (list_back cfg false false empty_state (items cfg t) st' l (print_sel cfg false) (norm true) (items_good cfg t) S) with (st1 := empty_state) (pre := @nil tok) as (s2 & R2 & _).
  - intros s p stp I Gp O. rewrite Forall_forall in F. destruct (selector_back cfg _ p stp s Gp O (F _ I)) as (_ & P & NC & _ & B). rewrite P. auto.
  - intros _. eapply selectors_some; [exact S|]. apply split_some.
  - split; auto.
  - constructor.
  - cbn [app] in R2. unfold print. rewrite R2. reflexivity.
Qed.
Lemma reads_back t l : parse cfg t = Some l -> Forall (fine_sel cfg) l -> exists l', parse cfg (print cfg l) = Some l' /\ Forall2 same_meaning l l'.
Proof. intros H F. exists (map (norm true) l). split; [eapply parse_back; eauto|apply meanings; exact F]. Qed.

(** ** Nested rules *)
Lemma relative_implicit st1 w : starts w -> forall pre, ws pre -> relative_selector cfg true st1 (items cfg (pre ++ w)) = selector cfg true st1 (items cfg (pre ++ w)).
Proof.
  intros S pre W. unfold relative_selector. rewrite items_app, skip_ws by exact W. destruct w as [|t w]; [destruct S|]. cbn in S.
  destruct t; try discriminate S; cbn [items map skip]; try reflexivity. destruct d; try discriminate S; reflexivity.
Qed.
Definition returns (s : sel) (st1 : state) : Prop :=
  print_sel cfg false s = text cfg true s /\ starts (text cfg true s) /\ no_comma (text cfg true s) /\
  exists st2, after_nesting st2 = after_nesting st1 || existsb nests s /\
    forall fuel1 pre, ws pre -> List.length (text cfg true s) < fuel1 -> selector_loop cfg fuel1 st1 (items cfg (pre ++ text cfg true s)) = (st2, Some (norm true s, [])).
Lemma loop_returns fuel st l st' s r : Forall good l -> selector_loop cfg fuel st l = (st', Some (s, r)) -> fine_sel cfg s -> returns s st.
Proof.
  intros G H F. destruct (fine_sel_inv cfg s F) as [Fs NS]. destruct (loop_back cfg _ _ _ _ _ _ G H Fs) as (_ & _ & _ & B). destruct (B true NS) as (L1 & B1 & B2 & B3).
  split; [exact L1|]. split; [exact B1|]. split; [exact B2|]. apply B3. apply le_refl.
Qed.
Lemma nested_returns fuel st l st' k s r : nesting_allowed cfg = true -> In k [Child; NextSibling; LaterSibling; Descendant] -> after_pseudo st = false -> no_combinators st = false ->
  Forall good l -> selector_loop cfg fuel st l = (st', Some (s, r)) -> fine_sel cfg (Nesting :: Comb k :: s) -> returns (Nesting :: Comb k :: s) st.
Proof.
  intros NA Ik AP NC G H F. destruct (fine_sel_inv cfg _ F) as [Fs NS]. inversion Fs as [|? ? _ Fs1]; subst. inversion Fs1 as [|? ? _ Fs2]; subst.
  assert (RK : real k) by (destruct k; try exact I; cbn in Ik; repeat destruct Ik as [Ik|Ik]; try discriminate Ik; destruct Ik).
  assert (DK : k = DeepDescendant \/ k = Deep -> deep cfg = true) by (intros [->| ->]; cbn in Ik; repeat destruct Ik as [Ik|Ik]; try discriminate Ik; destruct Ik).
  destruct (ns_ok_split true [Nesting] k s NS) as [_ NSb]. destruct (loop_back cfg _ _ _ _ _ _ G H Fs2) as (_ & _ & _ & B). destruct (B false NSb) as (L1 & B1 & B2 & B3).
  assert (TX : text cfg true (Nesting :: Comb k :: s) = Delim Amp :: print_comb cfg k ++ text cfg false s) by (change (Nesting :: Comb k :: s) with ([Nesting] ++ Comb k :: s); rewrite text_join by exact RK; reflexivity).
  assert (NX : norm true (Nesting :: Comb k :: s) = Nesting :: Comb k :: norm false s) by (change (Nesting :: Comb k :: s) with ([Nesting] ++ Comb k :: s); rewrite norm_join by exact RK; reflexivity).
  unfold returns. rewrite TX, NX. split; [|split; [reflexivity|split]].
  - unfold print_sel, write_selector. change (Nesting :: Comb k :: s) with ([Nesting] ++ Comb k :: s). rewrite layout_mid by (auto; discriminate). rewrite L1.
    replace (write_compound true (Some k) (map (fun x => (x, print_comp cfg x)) [Nesting])) with [Delim Amp]; [reflexivity|]. destruct k; try destruct RK; reflexivity.
  - constructor; [discriminate|]. apply Forall_app. split; [apply comb_no_comma|exact B2].
  - destruct (B3 (set_nesting true st)) as (s2 & M2 & R2); [split; auto|]. exists s2. split; [rewrite M2; cbn; rewrite orb_true_r; reflexivity|].
    intros fuel1 pre W Hf. destruct fuel1 as [|fuel1]; [lia|]. destruct (combinator_back cfg k (text cfg false s) RK DK B1) as [(pre' & W' & RB) ST].
    assert (C : compound cfg st (items cfg (pre ++ Delim Amp :: print_comb cfg k ++ text cfg false s)) = (set_nesting true st, Some ([Nesting], items cfg (print_comb cfg k ++ text cfg false s)))).
    { unfold compound. rewrite items_app, skip_ws by exact W. cbn [items map skip]. rewrite NA. fold (items cfg (print_comb cfg k ++ text cfg false s)).
      rewrite calm_type by (destruct (items cfg (print_comb cfg k ++ text cfg false s)) as [|[t f] x]; [exact I|right; exact ST]).
      rewrite (simples_stop cfg _ _ ST). reflexivity. }
    cbn [selector_loop]. rewrite C. change (after_pseudo (set_nesting true st)) with (after_pseudo st). rewrite AP, RB. cbn [no_combinators set_nesting]. rewrite NC.
    rewrite R2; [reflexivity|exact W'|]. cbn [List.length] in Hf. rewrite app_length in Hf. lia.
Qed.
Lemma returns_back s st : returns s st -> existsb nests s = true -> no_comma (print_sel cfg false s) /\ back cfg (relative_selector cfg true) (print_sel cfg false s) s (norm true s) st.
Proof.
  intros (P & S & NC & st2 & M2 & R2) E. rewrite P. split; [exact NC|]. exists st2. split; [exact M2|]. intros pre W. rewrite relative_implicit by assumption.
  unfold selector. rewrite R2; [|exact W|unfold items; rewrite map_length, app_length; lia]. rewrite M2, E, orb_true_r. reflexivity.
Qed.
Lemma nested_one st p stp s : nesting_allowed cfg = true -> after_pseudo st = false -> no_combinators st = false -> Forall good p -> relative_selector cfg true st p = (stp, Some s) -> fine_sel cfg s -> existsb nests s = true ->
  no_comma (print_sel cfg false s) /\ back cfg (relative_selector cfg true) (print_sel cfg false s) s (norm true s) st.
Proof.
  intros NA AP NC G H F E. apply returns_back; [|exact E].
  assert (GO : forall k r, Forall good r -> In k [Child; NextSibling; LaterSibling; Descendant] -> match selector cfg false st r with (st, Some s) => (st, Some (Nesting :: Comb k :: s)) | x => x end = (stp, Some s) -> returns s st).
  { intros k r Gr Ik X. destruct (selector cfg false st r) as [sa [s0|]] eqn:S0; [|discriminate]. injection X as <- <-. apply selector_loop_of in S0. destruct S0 as (cs & r0 & S0 & Ecs). cbn [andb] in Ecs. subst cs.
    eapply nested_returns; eauto. }
  assert (SEL : selector cfg true st p = (stp, Some s) -> returns s st).
  { intros S0. apply selector_loop_of in S0. destruct S0 as (cs & r0 & S0 & Ecs). cbn [andb] in Ecs. destruct (after_nesting stp); cbn [negb] in Ecs; subst s.
    - eapply loop_returns; eauto.
    - eapply nested_returns; eauto. cbn. auto. }
  unfold relative_selector in H. pose proof (skip_good _ _ G) as G1. destruct (skip p) as [|[t f] l1]; [discriminate|]. inversion G1 as [|? ? G2 G3]; subst.
  destruct t; try (apply SEL; exact H). destruct d; try (apply SEL; exact H); revert H; [apply (GO Child l1)|apply (GO NextSibling l1)|apply (GO LaterSibling l1)]; cbn; auto.
Qed.
Lemma parse_nested_back t l : nesting_allowed cfg = true -> parse_nested cfg t = Some l -> Forall (fine_sel cfg) l -> Forall (fun s => existsb nests s = true) l -> parse_nested cfg (print cfg l) = Some (map (norm true) l).
Proof.
  intros NA H F E. unfold parse_nested in *. destruct (selector_list cfg true true false empty_state (items cfg t)) as [st' [x|]] eqn:S; [|discriminate]. cbn [snd] in H. injection H as ->.
  unfold selector_list in S. pose proof (selectors_from cfg _ _ _ _ (split_good _ _ (items_good cfg t)) _ _ _ S) as FR.
  assert (NE : l <> []) by (eapply selectors_some; [exact S|]; apply split_some).
  destruct (selectors_back cfg (relative_selector cfg true) (print_sel cfg false) (norm true) false empty_state l) with (acc := empty_state) (pre := @nil tok) as (s2 & R2 & _); auto; [|constructor|].
  - intros s I. rewrite Forall_forall in FR, F, E. destruct (FR s I) as (p & stp & Gp & O). eapply nested_one; eauto.
  - cbn [app] in R2. unfold selector_list, print. rewrite R2. reflexivity.
Qed.
Lemma nested_reads_back t l : nesting_allowed cfg = true -> parse_nested cfg t = Some l -> Forall (fine_sel cfg) l -> Forall (fun s => existsb nests s = true) l ->
  exists l', parse_nested cfg (print cfg l) = Some l' /\ Forall2 same_meaning l l'.
Proof. intros NA H F E. exists (map (norm true) l). split; [eapply parse_nested_back; eauto|apply meanings; exact F]. Qed.
End Root.
