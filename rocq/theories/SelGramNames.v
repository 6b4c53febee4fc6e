(** * Pseudo classes, pseudo elements and functions are found by their names *)
From Coq Require Import List Bool ZArith Ascii String Lia.
Import ListNotations.
From Verif Require AnimModel AnbSpec AnbProofs.
From Verif Require Import SelTextModel SelTextSpec SelTextProofs SelTextBack SelTextFns SelGramSpec SelGramWords SelGramParts.
Local Open Scope string_scope.
Local Open Scope list_scope.

(** ** The states in which the parts are read *)
Definition pure (m : mode) (st : state) : Prop :=
  after_pseudo st = false /\ after_scrollbar st = false /\ after_transition st = false /\ (combs m = true -> no_combinators st = false) /\ (elems m = true -> no_pseudos st = false).
Lemma pseudo_parts st : after_pseudo st = false -> after_slotted st = false /\ after_part st = false /\ after_element st = false.
Proof. unfold after_pseudo. destruct (after_slotted st), (after_part st), (after_element st); cbn; try discriminate; auto. Qed.
Lemma pure_nesting m b st : pure m st -> pure m (set_nesting b st).
Proof. intros H. exact H. Qed.
Lemma pure_disallow m st : pure m st -> pure (inner m) (disallow_pseudos st).
Proof. intros (A & B & C & D & E). repeat split; auto; try discriminate. Qed.
Lemma pure_inner m st : pure m st -> pure (inner m) st.
Proof. intros (A & B & C & D & E). repeat split; auto; try discriminate. Qed.
Lemma pure_both m st : pure m st -> pure only_compound (disallow_both st).
Proof. intros (A & B & C & D & E). repeat split; auto; try discriminate. Qed.
Lemma pure_empty : pure (Mode true true) empty_state. Proof. repeat split. Qed.
Lemma pure_elems m st : elems m = true -> pure m st -> pure (Mode false true) st.
Proof. intros E (A & B & C & D & F). repeat split; auto; try discriminate. Qed.
Lemma set_nesting_false st : set_nesting false st = st.
Proof. destruct st. unfold set_nesting. cbn. rewrite orb_false_r. reflexivity. Qed.
Lemma set_nesting_two a b st : set_nesting b (set_nesting a st) = set_nesting (a || b) st.
Proof. destruct st. unfold set_nesting. cbn. rewrite orb_assoc. reflexivity. Qed.
Lemma after_set b st : after_nesting (set_nesting b st) = after_nesting st || b. Proof. reflexivity. Qed.

Section Names.
Variable cfg : config.
(** ** Pseudo classes *)
Lemma in_all {A} (f : A -> bool) l x : forallb f l = true -> In x l -> f x = true.
Proof. intros H I. rewrite forallb_forall in H. exact (H x I). Qed.
Lemma tree_read st n k c : pure (Mode false false) st -> In (k, c) tree_names -> word k n -> simple_class st n = Some c.
Proof.
  intros (A & _) I W. destruct (pseudo_parts st A) as (S & _). unfold simple_class. rewrite S. unfold allows_tree. rewrite A. cbn [negb]. rewrite (look_up _ _ _ k c n tree_looked I W). reflexivity.
Qed.
Lemma class_read st n k c : pure (Mode false false) st -> In (k, c) class_names -> word k n -> simple_class st n = Some (PClass c).
Proof.
  intros (A & B & C & _) I W. destruct (pseudo_parts st A) as (S & _ & E). unfold simple_class. rewrite S. unfold allows_tree. rewrite A, B, C, E. cbn [negb].
  rewrite (keyword_none tree_table n) by (apply (listed_none class_names _ k c); [reflexivity|exact I|exact W]). cbn [andb].
  rewrite (look_up _ _ _ k c n class_looked I W). cbn zeta. replace (valid_before_scrollbar c) with true; [reflexivity|].
  symmetry. exact (in_all (fun x => valid_before_scrollbar (snd x)) class_names (k, c) eq_refl I).
Qed.
Lemma part_class_read st n k c : pure (Mode false true) st -> In (k, c) class_names -> word k n -> simple_class (set_part st) n = Some (PClass c).
Proof.
  intros (A & B & C & _) I W. destruct (pseudo_parts st A) as (S & _ & E). unfold simple_class, allows_tree, after_pseudo. cbn [set_part set_slotted after_slotted after_part after_element no_combinators no_pseudos after_nesting after_scrollbar after_transition after_unknown orb negb andb]. rewrite S, B, C, E. cbn [negb andb orb].
  rewrite (look_up _ _ _ k c n class_looked I W). replace (valid_before_scrollbar c) with true; [reflexivity|].
  symmetry. exact (in_all (fun x => valid_before_scrollbar (snd x)) class_names (k, c) eq_refl I).
Qed.
Lemma unknown_read st n : pure (Mode false false) st -> no_name tree_names n -> no_name class_names n -> no_name scrollbar_names n -> simple_class st n = Some (PClass (CustomClass n)).
Proof.
  intros (A & B & C & _) N1 N2 N3. destruct (pseudo_parts st A) as (S & _ & E). unfold simple_class. rewrite S. unfold allows_tree. rewrite A, B, C, E. cbn [negb].
  rewrite (keyword_none tree_table n) by (apply (unnamed_none tree_names); [exact N1|reflexivity]). cbn [andb].
  rewrite (look_none class_table (map fst class_names ++ map fst scrollbar_names) n).
  - reflexivity.
  - apply covered_of. reflexivity.
  - intros k I. apply in_app_or in I. destruct I as [I|I]; [exact (no_name_in _ n k N2 I)|exact (no_name_in _ n k N3 I)].
Qed.
Definition silent (st : state) : Prop := after_slotted st = false /\ after_scrollbar st = false.
Lemma action_read st n k c : silent st -> In (k, c) action_names -> word k n -> simple_class st n = Some (PClass c).
Proof.
  intros (S & B) I W. unfold simple_class. rewrite S, B. rewrite (keyword_none tree_table n) by (apply (listed_none action_names _ k c); [reflexivity|exact I|exact W]).
  replace (if allows_tree st then None else None) with (@None comp) by (destruct (allows_tree st); reflexivity).
  assert (O : is_kw "only-child" n = false) by (apply (listed_none action_names ["only-child"] k c n eq_refl I W); left; reflexivity). rewrite O, andb_false_r.
  rewrite (look_up _ _ _ k c n action_looked I W). cbn zeta. pose proof (in_all (fun x => valid_before_scrollbar (snd x) && is_user_action (snd x)) action_names (k, c) eq_refl I) as V. cbn [snd] in V.
  apply andb_prop in V. destruct V as [-> ->]. destruct (after_element st); reflexivity.
Qed.
Lemma bar_read st n k c : after_slotted st = false -> after_element st = true -> after_scrollbar st = true -> In (k, c) scrollbar_names -> word k n -> simple_class st n = Some (PClass c).
Proof.
  intros S E B I W. unfold simple_class. rewrite S, B. unfold allows_tree, after_pseudo. rewrite E, orb_true_r. cbn [negb].
  assert (O : is_kw "only-child" n = false) by (apply (listed_none scrollbar_names ["only-child"] k c n eq_refl I W); left; reflexivity). rewrite O, andb_false_r.
  rewrite (look_up _ _ _ k c n scrollbar_looked I W). cbn zeta. pose proof (in_all (fun x => valid_after_scrollbar (snd x)) scrollbar_names (k, c) eq_refl I) as V. cbn [snd] in V. rewrite V. reflexivity.
Qed.
Lemma class_step st n c rest : css2_element n = false -> simple_class st n = Some c -> simples cfg st (items cfg [Colon; Ident n] ++ rest) = prepend [c] (simples cfg st rest).
Proof. intros E H. cbn [items map app simples]. rewrite E, H. reflexivity. Qed.
Lemma states_step st names t cs rest : (forall n k c, In (k, c) names -> word k n -> css2_element n = false /\ simple_class st n = Some (PClass c)) -> states names t cs ->
  simples cfg st (items cfg t ++ rest) = prepend cs (simples cfg st rest).
Proof.
  intros H. induction 1 as [|n k c t l I W S IH]; [symmetry; apply prepend_nil|]. destruct (H n k c I W) as [E R].
  rewrite items_app, <- app_assoc, (class_step st n _ _ E R), IH, prepend_app. reflexivity.
Qed.
Lemma listed_css2 {B} (names : list (string * B)) k v n : forallb (fun x => String.eqb (lower (fst x)) (fst x) && negb (inb (fst x) old_words)) names = true -> In (k, v) names -> word k n -> css2_element n = false.
Proof. intros H I W. apply css2_none. apply (listed_none names old_words k v n H I W). Qed.
Lemma states_actions st t cs rest : silent st -> states action_names t cs -> simples cfg st (items cfg t ++ rest) = prepend cs (simples cfg st rest).
Proof. intros S. apply states_step. intros n k c I W. split; [exact (listed_css2 action_names k c n eq_refl I W)|exact (action_read st n k c S I W)]. Qed.
Lemma states_bar st t cs rest : after_slotted st = false -> after_element st = true -> after_scrollbar st = true -> states scrollbar_names t cs -> simples cfg st (items cfg t ++ rest) = prepend cs (simples cfg st rest).
Proof. intros S E B. apply states_step. intros n k c I W. split; [exact (listed_css2 scrollbar_names k c n eq_refl I W)|exact (bar_read st n k c S E B I W)]. Qed.
Lemma states_part st t cs rest : pure (Mode false true) st -> states class_names t cs -> simples cfg (set_part st) (items cfg t ++ rest) = prepend cs (simples cfg (set_part st) rest).
Proof. intros P. apply states_step. intros n k c I W. split; [exact (listed_css2 class_names k c n eq_refl I W)|exact (part_class_read st n k c P I W)]. Qed.
Lemma states_quiet names t cs : states names t cs -> existsb nests cs = false /\ no_comma t.
Proof. induction 1 as [|n k c t l I W S [IH N]]; [split; [reflexivity|constructor]|]. split; [exact IH|]. constructor; [discriminate|constructor; [discriminate|exact N]]. Qed.

(** ** Pseudo elements *)
Definition open_element (st : state) : Prop := after_slotted st = false /\ after_element st = false /\ no_pseudos st = false.
Lemma pure_open st : pure (Mode false true) st -> open_element st.
Proof. intros (A & B & C & D & E). destruct (pseudo_parts st A) as (S & _ & L). repeat split; auto. Qed.
Lemma element_read names st n k e : looked element_table (fun c => c) names -> open_element st -> In (k, e) names -> word k n -> simple_element st n = Some (PElement e).
Proof. intros L (S & E & P) I W. unfold simple_element, allows_pseudos. rewrite S, E, P. cbn [orb negb andb]. rewrite (look_up _ _ _ k e n L I W). reflexivity. Qed.
Lemma slot_element_read st n k e : open_element st -> In (k, e) slot_names -> word k n -> simple_element (set_slotted st) n = Some (PElement e).
Proof.
  intros (S & E & P) I W. unfold simple_element, allows_pseudos. cbn [set_part set_slotted after_slotted after_part after_element no_combinators no_pseudos after_nesting after_scrollbar after_transition after_unknown orb negb andb]. rewrite E, P. cbn [orb negb andb]. rewrite (look_up _ _ _ k e n slot_looked I W).
  pose proof (in_all (fun x => valid_after_slotted (PElement (snd x))) slot_names (k, e) eq_refl I) as V. cbn [snd] in V. rewrite V. reflexivity.
Qed.
Lemma unknown_element_read st n : open_element st -> no_name element_names n -> no_name scrollbar_elements n -> ~ word "-ms-input-placeholder" n -> simple_element st n = Some (PElement (CustomElement n)).
Proof.
  intros (S & E & P) N1 N2 N3. unfold simple_element, allows_pseudos. rewrite S, E, P. cbn [orb negb andb].
  rewrite (look_none element_table ("-ms-input-placeholder"%string :: map fst element_names ++ map fst scrollbar_elements) n); [reflexivity| |].
  - apply covered_of. reflexivity.
  - intros k [<-|I]; [exact N3|]. apply in_app_or in I. destruct I as [I|I]; [exact (no_name_in _ n k N1 I)|exact (no_name_in _ n k N2 I)].
Qed.
(** What is pushed for a pseudo element *)
Definition known (c : comp) : bool := match c with PElement (CustomElement _ | CustomElementFn _ _) => false | PElement _ | CueFn _ _ => true | _ => false end.
Lemma element_step st n c rest : simple_element st n = Some c ->
  simples cfg st (items cfg [Colon; Colon; Ident n] ++ rest) = prepend (fst (push_simple st (SElement c))) (simples cfg (snd (push_simple st (SElement c))) rest).
Proof. intros H. cbn [items map app simples]. rewrite H. destruct (push_simple st (SElement c)). reflexivity. Qed.
Lemma old_step st n c rest : css2_element n = true -> simple_element st n = Some c ->
  simples cfg st (items cfg [Colon; Ident n] ++ rest) = prepend (fst (push_simple st (SElement c))) (simples cfg (snd (push_simple st (SElement c))) rest).
Proof. intros E H. cbn [items map app simples]. rewrite E, H. destruct (push_simple st (SElement c)). reflexivity. Qed.
Lemma fun_element_step st st' n a s rest : function_element cfg n a (items cfg a) st = (st', Some s) ->
  simples cfg st (items cfg [Colon; Colon; Fun n a] ++ rest) = prepend (fst (push_simple st' s)) (simples cfg (snd (push_simple st' s)) rest).
Proof. intros H. cbn [items map app simples fn]. fold (items cfg a). rewrite H. destruct (push_simple st' s). reflexivity. Qed.
Lemma fun_class_step st st' n a c rest : css2_element n = false -> function_class cfg n a (items cfg a) st = (st', Some (SClass c)) ->
  simples cfg st (items cfg [Colon; Fun n a] ++ rest) = prepend [c] (simples cfg st' rest).
Proof. intros E H. cbn [items map app simples fn]. fold (items cfg a). rewrite E, H. reflexivity. Qed.

(** ** Functions *)
Lemma word_css2 k n : word k n -> lower k = k -> css2_element n = css2_element k.
Proof. intros W L. apply css2_lower. rewrite L. apply word_lower; assumption. Qed.
Ltac find W := repeat rewrite (word_other _ _ _ W eq_refl); cbn [String.eqb Ascii.eqb Bool.eqb].
Ltac nothing W := rewrite keyword_lower, (word_lower _ _ W eq_refl); cbn [List.find nth_table vt_table String.eqb Ascii.eqb Bool.eqb fst snd].
Lemma fn_is n a l st : word "is" n -> function_class cfg n a l st = with_state (nested_list cfg false true (disallow_pseudos st) st l) (fun x => SClass (Is x)).
Proof. intros W. unfold function_class. nothing W. find W. reflexivity. Qed.
Lemma fn_where n a l st : word "where" n -> function_class cfg n a l st = with_state (nested_list cfg false true (disallow_pseudos st) st l) (fun x => SClass (Where x)).
Proof. intros W. unfold function_class. nothing W. find W. reflexivity. Qed.
Lemma fn_has n a l st : word "has" n -> function_class cfg n a l st = with_state (nested_list cfg true true st st l) (fun x => SClass (Has x)).
Proof. intros W. unfold function_class. nothing W. find W. reflexivity. Qed.
Lemma fn_host n a l st : word "host" n -> after_pseudo st = false -> function_class cfg n a l st = with_state (inner_compound cfg st l) (fun x => SClass (Host (Some x))).
Proof. intros W A. unfold function_class. nothing W. find W. unfold allows_tree. rewrite A. reflexivity. Qed.
Lemma fn_not n a l st : word "not" n -> function_class cfg n a l st = with_state (nested_list cfg false false (disallow_pseudos st) st l) (fun x => SClass (Not x)).
Proof. intros W. unfold function_class. nothing W. find W. reflexivity. Qed.
Lemma fn_webkit n a l st : word "-webkit-any" n -> function_class cfg n a l st = with_state (nested_list cfg false true (disallow_pseudos st) st l) (fun x => SClass (Any WebKit x)).
Proof. intros W. unfold function_class. nothing W. find W. reflexivity. Qed.
Lemma fn_moz n a l st : word "-moz-any" n -> function_class cfg n a l st = with_state (nested_list cfg false true (disallow_pseudos st) st l) (fun x => SClass (Any Moz x)).
Proof. intros W. unfold function_class. nothing W. find W. reflexivity. Qed.
Lemma fn_nth n k t a l st c : In (k, t) nth_names -> word k n -> nth_class cfg st t l = Some c -> function_class cfg n a l st = (st, Some (SClass c)).
Proof. intros I W H. unfold function_class. rewrite (look_up _ _ _ k t n nth_looked I W), H. reflexivity. Qed.
Lemma fn_lang n a l st x : word "lang" n -> after_pseudo st = false -> each (one_token ident_or_string) (split_commas l) = Some x -> function_class cfg n a l st = (st, Some (SClass (PClass (Lang x)))).
Proof. intros W A H. unfold function_class, functional_class. nothing W. find W. rewrite A, H. reflexivity. Qed.
Lemma fn_dir n w d w' st (b : bool) : word "dir" n -> after_pseudo st = false -> blank w -> word (if b then "rtl" else "ltr")%string d -> blank w' ->
  function_class cfg n (w ++ [Ident d] ++ w') (items cfg (w ++ [Ident d] ++ w')) st = (st, Some (SClass (PClass (Dir b)))).
Proof.
  intros W A B D B'. unfold function_class, functional_class. nothing W. find W. rewrite A. unfold one_token. rewrite items_app, skip_ws by exact B. cbn [items map app skip]. unfold items. rewrite skip_blank by exact B'.
  destruct b; find D; reflexivity.
Qed.
Lemma fn_state n a l st s : word "state" n -> after_pseudo st = false -> one_token custom_ident l = Some s -> function_class cfg n a l st = (st, Some (SClass (PClass (State s)))).
Proof.
  intros W A H. unfold function_class, functional_class. nothing W. find W. rewrite A. unfold one_token in *. destruct (skip l) as [|[t f] r]; [discriminate H|]. destruct (skip r); [|discriminate H]. rewrite H. reflexivity.
Qed.
Lemma fn_types n a l st x : word "active-view-transition-type" n -> after_pseudo st = false -> each (one_token custom_ident) (split_commas l) = Some x -> function_class cfg n a l st = (st, Some (SClass (PClass (TransitionType x)))).
Proof. intros W A H. unfold function_class, functional_class. nothing W. find W. rewrite A, H. reflexivity. Qed.
Lemma fn_unknown n a l st : no_name function_names n -> after_pseudo st = false -> function_class cfg n a l st = (st, Some (SClass (PClass (CustomClassFn n a)))).
Proof.
  intros N A. assert (H : none_of (map fst function_names) n) by (apply (unnamed_none function_names (map fst function_names) n N eq_refl)).
  unfold function_class, functional_class. rewrite (keyword_none nth_table n) by (intros k I; apply H; cbn in I |- *; tauto).
  repeat (rewrite H by (cbn; tauto)). rewrite A. reflexivity.
Qed.
Lemma fn_part n a l st x : word "part" n -> open_element st -> after_pseudo st = false -> part_names l = Some x -> x <> [] -> function_element cfg n a l st = (st, Some (SPart x)).
Proof.
  intros W (S & E & P) A H N. unfold function_element, allows_pseudos, allows_slotted. rewrite A, E, P. cbn [orb negb]. find W. rewrite H. destruct x; [contradiction|reflexivity].
Qed.
Lemma fn_slotted n a l st : word "slotted" n -> open_element st -> after_pseudo st = false -> function_element cfg n a l st = with_state (inner_compound cfg st l) SSlotted.
Proof. intros W (S & E & P) A. unfold function_element, allows_pseudos, allows_slotted. rewrite A, E, P. cbn [orb negb]. find W. reflexivity. Qed.
Lemma fn_element n a l st c : none_of ["part"; "slotted"] n -> open_element st -> functional_element cfg n a l = Some c -> function_element cfg n a l st = (st, Some (SElement c)).
Proof.
  intros N (S & E & P) H. unfold function_element, allows_pseudos. rewrite E, P. cbn [orb negb]. rewrite (N "part"%string), (N "slotted"%string) by (cbn; tauto). rewrite H, S. reflexivity.
Qed.
Lemma word_none k n ks : word k n -> lower k = k -> inb k ks = false -> none_of ks n.
Proof.
  intros W L H k' I. rewrite (word_other k k' n W L). destruct (String.eqb k k') eqn:E; [|reflexivity]. apply String.eqb_eq in E. subst k'.
  assert (X : inb k ks = true) by (apply existsb_exists; exists k; split; [exact I|apply String.eqb_refl]). congruence.
Qed.
Lemma fn_cue n a l st s st' : word "cue" n -> open_element st -> selector cfg false empty_state l = (st', Some s) -> function_element cfg n a l st = (st, Some (SElement (CueFn false s))).
Proof.
  intros W O H. apply fn_element; [apply (word_none "cue" n); [exact W|reflexivity|reflexivity]|exact O|]. unfold functional_element. find W. rewrite H. reflexivity.
Qed.
Lemma fn_cue_region n a l st s st' : word "cue-region" n -> open_element st -> selector cfg false empty_state l = (st', Some s) -> function_element cfg n a l st = (st, Some (SElement (CueFn true s))).
Proof.
  intros W O H. apply fn_element; [apply (word_none "cue-region" n); [exact W|reflexivity|reflexivity]|exact O|]. unfold functional_element. find W. rewrite H. reflexivity.
Qed.
Lemma fn_picker n w s w' st : word "picker" n -> open_element st -> blank w -> blank w' ->
  function_element cfg n (w ++ [Ident s] ++ w') (items cfg (w ++ [Ident s] ++ w')) st = (st, Some (SElement (PElement (Picker s)))).
Proof.
  intros W O B B'. apply fn_element; [apply (word_none "picker" n); [exact W|reflexivity|reflexivity]|exact O|]. unfold functional_element. find W. unfold one_token. rewrite items_app, skip_ws by exact B. cbn [items map app skip]. unfold items. rewrite skip_blank by exact B'. reflexivity.
Qed.
Lemma fn_vt n k v a l st p : In (k, v) vt_names -> word k n -> open_element st -> vt_part_selector l = Some p -> function_element cfg n a l st = (st, Some (SElement (PElement (VtFn v p)))).
Proof.
  intros I W O H. assert (N : none_of ["part"; "slotted"; "cue"; "cue-region"; "picker"] n) by (apply (listed_none vt_names _ k v); [reflexivity|exact I|exact W]).
  apply fn_element; [intros x X; apply N; cbn in X |- *; tauto|exact O|]. unfold functional_element. rewrite (N "cue"%string), (N "cue-region"%string), (N "picker"%string) by (cbn; tauto).
  rewrite (look_up _ _ _ k v n vt_looked I W), H. reflexivity.
Qed.
Lemma fn_unknown_element n a l st : no_name element_functions n -> open_element st -> function_element cfg n a l st = (st, Some (SElement (PElement (CustomElementFn n a)))).
Proof.
  intros N O. assert (H : none_of (map fst element_functions) n) by (apply (unnamed_none element_functions (map fst element_functions) n N eq_refl)).
  apply fn_element; [intros x X; apply H; cbn in X |- *; tauto|exact O|]. unfold functional_element. rewrite (H "cue"%string), (H "cue-region"%string), (H "picker"%string) by (cbn; tauto).
  rewrite (keyword_none vt_table n) by (intros k I; apply H; cbn in I |- *; tauto). reflexivity.
Qed.
End Names.
