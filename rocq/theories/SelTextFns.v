(** * Functions that are printed are read back *)
From Coq Require Import List Bool ZArith Ascii String Lia Arith.
Import ListNotations.
From Verif Require AnimModel AnbSpec AnbProofs.
From Verif Require Import AnbModel SelTextModel SelTextSpec SelTextProofs SelTextLayout SelTextBack.
Local Open Scope list_scope.

Section Fns.
Variable cfg : config.
Notation T := (flat_map (print_comp cfg)).
Notation N := (flat_map norm_comp).
Notation reads := (reads cfg).
Notation good := (good cfg).
Notation fine := (fine_comp cfg).
Notation group rel x := (sep_by (comma cfg) (map (print_sel cfg rel) x)).

Lemma set_nesting_own b st : set_nesting (after_nesting st || b) st = set_nesting b st.
Proof. unfold set_nesting. destruct (after_nesting st), b; reflexivity. Qed.
Lemma le_refl st : le st st. Proof. split; auto. Qed.

(** A function that stands for a class *)
Lemma reads_fun st b c c' name args : plain c = true -> is_comb c = false -> print_comp cfg c = [Colon; Fun name args] -> css2_element name = false -> norm_comp c = [c'] ->
  (forall st1, le st1 st -> function_class cfg name args (items cfg args) st1 = (set_nesting (nests c) st1, Some (SClass c'))) -> reads st (set_nesting b st) [c].
Proof.
  intros Hp Hc Pr C2 Hn H. constructor; cbn [flat_map existsb]; rewrite ?app_nil_r; auto.
  - rewrite Pr. auto.
  - rewrite Hc. auto.
  - rewrite Pr. discriminate.
  - rewrite Hn. discriminate.
  - intros st1 L. exists (set_nesting (nests c) st1). rewrite orb_false_r. split; [exact (proj1 L)|]. split; [reflexivity|]. split; [reflexivity|].
    intros rest. rewrite Pr, Hn. cbn [items map app simples]. change (fn cfg (Fun name args) (css2_element name) st1) with (if css2_element name then function_element cfg name args (items cfg args) st1 else function_class cfg name args (items cfg args) st1).
    rewrite C2, H by exact L. reflexivity.
Qed.
Lemma reads_same st cs : reads st (set_nesting false st) cs -> reads st st cs.
Proof. intros R. eapply reads_state; [exact R|reflexivity|reflexivity]. Qed.

Definition kid (rel : bool) (st : state) : state := if rel then st else disallow_pseudos st.
Lemma kid_le rel st1 st : le st1 st -> le (kid rel st1) (kid rel st).
Proof. destruct rel; [auto|]. intros [A B]. split; [exact A|]. auto. Qed.
Definition nrm (rel : bool) : sel -> sel := if rel then norm_rel else norm true.
Lemma selectors_some one st parts : forall acc st' x, selectors one false st acc parts = (st', Some x) -> parts <> [] -> x <> [].
Proof. destruct parts as [|p parts]; [contradiction|]. intros acc st' x H _. cbn [selectors] in H. destruct (one st p) as [s1 [s|]]; [|discriminate]. destruct (selectors _ _ _ _ _) as [s2 [xs|]]; [|discriminate]. injection H as <- <-. discriminate. Qed.
Lemma split_some l : split_commas l <> [].
Proof. induction l as [|[t f] l IH]; [discriminate|]. destruct t; cbn [split_commas]; try (destruct (split_commas l); discriminate); discriminate. Qed.
Lemma elements_back rel st l st' x forgiving : Forall good l -> selector_list cfg rel false forgiving st l = (st', Some x) ->
  Forall (fine_sel cfg) x -> (rel = true -> Forall fine_relative x) -> forall s p stp, In s x -> Forall good p ->
  (if rel then relative_selector cfg false else selector cfg false) st p = (stp, Some s) ->
  no_comma (print_sel cfg rel s) /\ forall st1, le st1 st -> back cfg (if rel then relative_selector cfg false else selector cfg false) (print_sel cfg rel s) s (nrm rel s) st1.
Proof.
  intros G H F FR s p stp I Gp O. rewrite Forall_forall in F. specialize (F s I). destruct rel.
  - specialize (FR eq_refl). rewrite Forall_forall in FR. apply (relative_back cfg st p stp s); auto.
  - destruct (selector_back cfg st p stp s Gp O F) as (_ & P & NC & _ & B). rewrite P. auto.
Qed.
Lemma nested_back rel forgiving st l st' x : Forall good l -> nested_list cfg rel forgiving (kid rel st) st l = (st', Some x) ->
  Forall (fine_sel cfg) x -> (rel = true -> Forall fine_relative x) ->
  (exists b, st' = set_nesting b st) /\ forall st1, le st1 st -> nested_list cfg rel forgiving (kid rel st1) st1 (items cfg (group rel x)) = (set_nesting (existsb (existsb nests) x) st1, Some (map (nrm rel) x)).
Proof.
  intros G H F FR. unfold nested_list in H. destruct (selector_list cfg rel false forgiving (kid rel st) l) as [sa [y|]] eqn:S; [|discriminate]. injection H as <- ->.
  split; [eauto|]. intros st1 L. unfold nested_list.
  destruct (list_back cfg rel forgiving (kid rel st) l sa x (print_sel cfg rel) (nrm rel) G S) with (st1 := kid rel st1) (pre := @nil tok) as (s2 & R2 & M2).
  - eapply elements_back; eauto.
  - intros ->. unfold selector_list in S. eapply selectors_some; [exact S|]. apply split_some.
  - apply kid_le. exact L.
  - constructor.
  - cbn [app] in R2. rewrite R2, M2. replace (after_nesting (kid rel st1)) with (after_nesting st1) by (destruct rel; reflexivity). rewrite set_nesting_own. reflexivity.
Qed.
Lemma with_state_some {A} (r : state * option A) f st' s : with_state r f = (st', Some s) -> exists x, r = (st', Some x) /\ s = f x.
Proof. destruct r as [st [x|]]; cbn; intros H; [|discriminate]. injection H as <- <-. eauto. Qed.

(** The selector of [:host()] and [::slotted()] *)
Lemma inner_back st l st' s : Forall good l -> inner_compound cfg st l = (st', Some s) -> fine_sel cfg s ->
  (exists b, st' = set_nesting b st) /\ forall st1, le st1 st -> inner_compound cfg st1 (items cfg (print_sel cfg false s)) = (set_nesting (existsb nests s) st1, Some (norm true s)).
Proof.
  intros G H F. unfold inner_compound in H. destruct (selector cfg false (disallow_both st) l) as [sa [y|]] eqn:S; [|discriminate]. injection H as <- ->.
  split; [eauto|]. intros st1 L. destruct (selector_back cfg _ _ _ _ G S F) as (_ & P & NC & ST & B). rewrite P.
  destruct (B (disallow_both st1)) as (s2 & M2 & R2). { destruct L as [L _]. split; [|auto]. unfold core in *. cbn. congruence. }
  pose proof (R2 [] (Forall_nil _)) as Q. cbn [app] in Q. unfold inner_compound. rewrite Q, M2. cbn [after_nesting disallow_both]. rewrite set_nesting_own. reflexivity.
Qed.

(** One selector that needs no [:is()] *)
Lemma reads_unwrapped st l st' s : Forall good l -> nested_list cfg false true (disallow_pseudos st) st l = (st', Some [s]) -> fine_sel cfg s -> should_unwrap [s] = true -> no_type s ->
  reads st st' [Is [s]].
Proof.
  intros G H F U NT. unfold nested_list in H. destruct (selector_list cfg false false true (disallow_pseudos st) l) as [sa [y|]] eqn:S; [|discriminate]. injection H as <- ->.
  unfold selector_list in S. pose proof (selectors_from cfg _ _ _ _ (split_good cfg _ G) _ _ _ S) as FR. inversion FR as [|? ? (p & stp & Gp & O) _]; subst.
  destruct (fine_sel_inv cfg s F) as [Fs NS]. apply selector_loop_of in O. destruct O as (cs & r & O & Ecs). cbn [andb] in Ecs. subst cs.
  assert (NC : existsb is_comb s = false). { cbn [should_unwrap] in U. apply andb_true_iff in U. destruct U as [_ U]. unfold is_simple in U. apply negb_true_iff in U. exact U. }
  destruct (loop_back cfg _ _ _ _ _ _ Gp O Fs) as (E & RD & CO & LB). specialize (RD NC NT). specialize (CO NC). destruct (LB true NS) as (LT & _).
  assert (UV : Forall (fun c => is_univ c = false) s) by (eapply Forall_impl; [|exact NT]; intros [] [A B]; try reflexivity; discriminate A).
  assert (PT : print_comp cfg (Is [s]) = T s).
  { change (print_comp cfg (Is [s])) with (if should_unwrap [s] then print_sel cfg false s else [Colon; Fun "is" (group false [s])]). rewrite U. unfold print_sel, write_selector. rewrite LT. apply walk_flat. exact UV. }
  assert (PN : norm_comp (Is [s]) = N s).
  { change (norm_comp (Is [s])) with (if should_unwrap [s] then norm true s else [Is (map (norm true) [s])]). rewrite U. apply walk_flat. exact UV. }
  destruct RD as [X1 X2 X3 X4 X5 X6 X7 X8 X9 X10]. constructor; cbn [flat_map]; rewrite ?app_nil_r, ?PT, ?PN; auto.
  - intros st1 [L1 L2]. destruct (X10 st1) as (s2 & C2 & P2 & M2 & R2). { split; [exact L1|]. auto. }
    exists s2. split; [rewrite C2, CO; reflexivity|]. split; [exact P2|]. split; [cbn [existsb nests]; rewrite !orb_false_r; exact M2|].
    intros rest. rewrite ?app_nil_r. apply R2.
Qed.

(** *** Separated names *)
Lemma each_back {A} (f : list item -> option A) (tk : A -> list tok) l : (forall x pre, In x l -> ws pre -> f (items cfg (pre ++ tk x)) = Some x) -> (forall x, In x l -> no_comma (tk x)) -> l <> [] ->
  forall pre, ws pre -> each f (split_commas (items cfg (pre ++ sep_by (comma cfg) (map tk l)))) = Some l.
Proof.
  assert (WS : ws (space cfg)) by (unfold space; destruct (minify cfg); repeat constructor).
  induction l as [|x l IH]; intros H NC E pre W; [contradiction|].
  assert (NP : no_comma (pre ++ tk x)) by (apply Forall_app; split; [eapply Forall_impl; [|exact W]; intros ? ->; discriminate|apply NC; left; reflexivity]).
  destruct l as [|y l].
  - cbn [map sep_by]. rewrite split_one by exact NP. cbn [each]. rewrite H; [reflexivity|left; reflexivity|exact W].
  - cbn [map]. rewrite sep_cons, app_assoc. change (comma cfg) with (Comma :: space cfg) at 1. cbn [app]. rewrite split_more by exact NP. cbn [each].
    rewrite H; [|left; reflexivity|exact W]. cbn [map] in IH. rewrite (IH (fun a p I => H a p (or_intror I)) (fun a I => NC a (or_intror I)) ltac:(discriminate) (space cfg) WS). reflexivity.
Qed.
Lemma each_some {A} (f : list item -> option A) parts l : each f parts = Some l -> Forall (fun x => exists p, f p = Some x) l.
Proof. revert l. induction parts as [|p parts IH]; intros l; cbn [each]; [intros H; injection H as <-; constructor|]. destruct (f p) eqn:E; [|discriminate]. destruct (each f parts); [|discriminate]. intros H. injection H as <-. constructor; eauto. Qed.
Lemma each_nonempty {A} (f : list item -> option A) parts l : each f parts = Some l -> parts <> [] -> l <> [].
Proof. destruct parts as [|p parts]; [contradiction|]. cbn [each]. destruct (f p); [|discriminate]. destruct (each f parts); [|discriminate]. intros H _. injection H as <-. discriminate. Qed.
Lemma one_token_back {A} (f : tok -> option A) t v pre : ws pre -> t <> Ws -> f t = Some v -> one_token f (items cfg (pre ++ [t])) = Some v.
Proof. intros W Ht F. unfold one_token. rewrite items_app, skip_ws by exact W. destruct t; cbn; try exact F. contradiction. Qed.

Lemma one_token_some {A} (f : tok -> option A) l v : one_token f l = Some v -> exists t, f t = Some v.
Proof. unfold one_token. destruct (skip l) as [|[t g] r]; [discriminate|]. destruct (skip r); [|discriminate]. eauto. Qed.

Lemma css2_kw n k : is_kw k n = true -> css2_element n = css2_element k \/ lower k <> k.
Proof.
  intros H. apply is_kw_lower in H. subst k. destruct (String.eqb (lower (lower n)) (lower n)) eqn:E; [|right; intros X; rewrite X, String.eqb_refl in E; discriminate].
  left. apply css2_lower. apply String.eqb_eq in E. symmetry. exact E.
Qed.

(** Functional classes *)
Lemma each_back0 {A} (f : list item -> option A) (tk : A -> list tok) l : (forall x pre, In x l -> ws pre -> f (items cfg (pre ++ tk x)) = Some x) -> (forall x, In x l -> no_comma (tk x)) -> l <> [] ->
  each f (split_commas (items cfg (sep_by (comma cfg) (map tk l)))) = Some l.
Proof. intros H1 H2 H3. apply (each_back f tk l H1 H2 H3 [] (Forall_nil _)). Qed.
Lemma functional_of name args l st : after_pseudo st = false ->
  keyword nth_table name = None -> is_kw "is" name = false -> is_kw "where" name = false -> is_kw "has" name = false -> is_kw "host" name = false -> is_kw "not" name = false ->
  is_kw "-webkit-any" name = false -> is_kw "-moz-any" name = false ->
  function_class cfg name args l st = (st, match functional_class name args l with Some c => Some (SClass (PClass c)) | None => None end).
Proof. intros AP K0 K1 K2 K3 K4 K5 K6 K7. unfold function_class. rewrite K0, K1, K2, K3, K4, K5, K6, K7, AP. reflexivity. Qed.
Lemma reads_functional st name args c : after_pseudo st = false -> css2_element name = false ->
  keyword nth_table name = None -> is_kw "is" name = false -> is_kw "where" name = false -> is_kw "has" name = false -> is_kw "host" name = false -> is_kw "not" name = false ->
  is_kw "-webkit-any" name = false -> is_kw "-moz-any" name = false ->
  functional_class name args (items cfg args) = Some c -> fine (PClass c) -> reads st st [PClass c].
Proof.
  intros AP C2 K0 K1 K2 K3 K4 K5 K6 K7 H F. apply fine_class_of in F. apply reads_same.
  assert (FIN : forall name' args', print_class cfg c = [Colon; Fun name' args'] -> css2_element name' = false ->
     (forall st1, after_pseudo st1 = false -> function_class cfg name' args' (items cfg args') st1 = (st1, Some (SClass (PClass c)))) -> reads st (set_nesting false st) [PClass c]).
  { intros name' args' P C FC. eapply reads_fun; try reflexivity; [exact P|exact C|]. intros st1 [L _]. rewrite FC by (rewrite (core_pseudo _ _ L); exact AP).
    f_equal. destruct st1 as [? ? ? ? ? [] ? ? ?]; reflexivity. }
  pose proof H as FC0. unfold functional_class in H.
  destruct (is_kw "lang" name).
  { destruct (each (one_token ident_or_string) (split_commas (items cfg args))) as [l|] eqn:E; [|discriminate]. injection H as <-. cbn [fine_class] in F.
    assert (ID : map ident_tokens l = map (fun s => [Ident s]) l).
    { apply map_ext_in. intros s I. rewrite Forall_forall in F. specialize (F s I). unfold ident_tokens. destruct (String.eqb s "") eqn:Q; [apply String.eqb_eq in Q; contradiction|reflexivity]. }
    eapply FIN; [unfold print_class; rewrite ID; reflexivity|reflexivity|]. intros st1 AP1.
    rewrite functional_of by (auto; reflexivity). unfold functional_class. change (is_kw "lang" "lang") with true. cbv iota.
    rewrite (each_back0 (one_token ident_or_string) (fun s => [Ident s]) l); [reflexivity| | |].
    - intros x pre _ W. apply one_token_back; [exact W|discriminate|reflexivity].
    - intros. repeat constructor. discriminate.
    - eapply each_nonempty; [exact E|apply split_some]. }
  destruct (is_kw "dir" name).
  { apply one_token_some in H. destruct H as [t H]. destruct t; try discriminate H.
    assert (B : exists rtl, c = Dir rtl) by (destruct (is_kw "ltr" s); [injection H as <-; eauto|]; destruct (is_kw "rtl" s); [injection H as <-; eauto|discriminate]). destruct B as [rtl ->].
    eapply FIN; [reflexivity|reflexivity|]. intros st1 AP1. rewrite functional_of by (auto; reflexivity). destruct rtl; reflexivity. }
  destruct (is_kw "active-view-transition-type" name).
  { destruct (each (one_token custom_ident) (split_commas (items cfg args))) as [l|] eqn:E; [|discriminate]. injection H as <-.
    assert (RS : forall s, In s l -> reserved s = false).
    { intros s I. pose proof (each_some _ _ _ E) as ES. rewrite Forall_forall in ES. destruct (ES s I) as [q Q]. apply one_token_some in Q. destruct Q as [t Q]. destruct t; try discriminate Q. unfold custom_ident in Q. destruct (reserved s0) eqn:R; [discriminate|]. injection Q as <-. exact R. }
    eapply FIN; [reflexivity|reflexivity|]. intros st1 AP1. rewrite functional_of by (auto; reflexivity). unfold functional_class.
    change (is_kw "lang" "active-view-transition-type") with false. change (is_kw "dir" "active-view-transition-type") with false. change (is_kw "active-view-transition-type" "active-view-transition-type") with true. cbv iota.
    rewrite (each_back0 (one_token custom_ident) (fun s => [Ident s]) l); [reflexivity| | |].
    - intros x pre I W. apply one_token_back; [exact W|discriminate|]. unfold custom_ident. rewrite (RS x I). reflexivity.
    - intros. repeat constructor. discriminate.
    - eapply each_nonempty; [exact E|apply split_some]. }
  destruct (is_kw "state" name).
  { apply one_token_some in H. destruct H as [t H]. destruct (custom_ident t) as [s|] eqn:E; [|discriminate]. injection H as <-. destruct t; try discriminate E. unfold custom_ident in E. destruct (reserved s0) eqn:R; [discriminate|]. injection E as <-.
    eapply FIN; [reflexivity|reflexivity|]. intros st1 AP1. rewrite functional_of by (auto; reflexivity). unfold functional_class.
    change (is_kw "lang" "state") with false. change (is_kw "dir" "state") with false. change (is_kw "active-view-transition-type" "state") with false. change (is_kw "state" "state") with true. cbv iota.
    cbn [items map one_token skip fn]. unfold one_token, custom_ident. cbn [skip]. rewrite R. reflexivity. }
  injection H as <-. cbn [fine_class] in F. eapply FIN; [unfold print_class, raw_fun; rewrite F; reflexivity|exact C2|]. intros st1 AP1. rewrite functional_of by assumption. rewrite FC0. reflexivity.
Qed.

(** *** An+B *)
Lemma nth_name t : In t (map snd nth_table) -> keyword nth_table (fst (nth_start t true)) = Some t /\ css2_element (fst (nth_start t true)) = false /\ snd (nth_start t true) = true.
Proof. intros I. cbn in I. repeat destruct I as [<-|I]; try destruct I; repeat split. Qed.
Lemma nth_class_of t name args l st : keyword nth_table name = Some t -> function_class cfg name args l st = (st, match nth_class cfg st t l with Some c => Some (SClass c) | None => None end).
Proof. intros H. unfold function_class. rewrite H. reflexivity. Qed.
Lemma core_tree st1 st : core st1 = core st -> allows_tree st1 = allows_tree st.
Proof. intros H. unfold allows_tree. rewrite (core_pseudo _ _ H). reflexivity. Qed.
Lemma reads_nth st t args c : Forall good (items cfg args) -> In t (map snd nth_table) -> nth_class cfg st t (items cfg args) = Some c -> fine c -> reads st st [c].
Proof.
  intros G It H F. destruct (nth_name t It) as (N1 & N2 & N3). unfold nth_class in H. destruct (allows_tree st) eqn:AT; [|discriminate]. cbn [negb] in H.
  pose proof (skip_good _ _ G) as G1. destruct (skip (items cfg args)) as [|[[] f] r]; try discriminate. destruct (read_anb text) as [[a b]|] eqn:RA; [|discriminate].
  destruct (anb_int _ _ _ RA) as [Ia Ib]. pose proof (AnbProofs.affine_read a b Ia Ib) as AR. inversion G1 as [|? ? _ G2]; subst. pose proof (skip_good _ _ G2) as G3.
  destruct (skip r) as [|[t1 f1] r1].
  - injection H as <-. destruct (is_function a b) eqn:IF.
    + apply reads_same. eapply reads_fun with (name := fst (nth_start t true)) (args := [Nth (affine a b)]); try reflexivity; [|exact N2|].
      { change (print_comp cfg (NthComp t a b)) with (print_nth t a b). unfold print_nth. rewrite IF. destruct (nth_start t true) as [nm op] eqn:NS. cbn in N3 |- *. rewrite N3. reflexivity. }
      intros st1 [L _]. rewrite (nth_class_of t) by exact N1. unfold nth_class. rewrite (core_tree _ _ L), AT. cbn [negb items map skip]. rewrite AR.
      f_equal. destruct st1 as [? ? ? ? ? [] ? ? ?]; reflexivity.
    + unfold is_function in IF. apply negb_false_iff, andb_true_iff in IF. destruct IF as [Ea Eb]. apply Z.eqb_eq in Ea, Eb. subst a b.
      inversion F as [| | | | |? ? ? FN| | | | | | |? X]; subst; [|contradiction].
      assert (SL : after_slotted st = false). { unfold allows_tree, after_pseudo in AT. destruct (after_part st), (after_slotted st); try reflexivity; discriminate AT. }
      assert (SC : exists n, css2_element n = false /\ keyword tree_table n = Some (NthComp t 0 1)).
      { cbn in It. repeat destruct It as [<-|It]; try destruct It; [exists "first-child"%string|exists "first-of-type"%string|exists "last-child"%string|exists "last-of-type"%string| |]; try (split; reflexivity); exfalso; apply FN; auto. }
      destruct SC as (n & C2 & K). apply (reads_simple_class cfg st n); auto. unfold simple_class. rewrite SL, AT, K. reflexivity.
  - destruct t1; try discriminate. destruct (allows_of t && is_kw "of" s) eqn:AO; [|discriminate]. apply andb_true_iff in AO. destruct AO as [AO _].
    destruct (selector_list cfg false false true (disallow_pseudos st) r1) as [sa [x|]] eqn:SL; [|discriminate]. injection H as <-.
    inversion F as [| | | | | |? ? ? ? Fx Fr| | | | | |? X]; subst; [|contradiction]. inversion G3 as [|? ? _ G4]; subst.
    apply reads_same. eapply reads_fun with (name := fst (nth_start t true)) (args := [Nth (affine a b); Ws; Ident "of"; Ws] ++ group true x) (c' := NthOf t a b (map (norm true) x)); try reflexivity; [exact N2|].
    intros st1 L. rewrite (nth_class_of t) by exact N1. unfold nth_class. destruct L as [L1 L2]. rewrite (core_tree _ _ L1), AT. cbn [negb app items map skip]. rewrite AR, AO.
    change (is_kw "of" "of") with true. cbn [andb].
    destruct (list_back cfg false true (disallow_pseudos st) r1 sa x (print_sel cfg true) (norm true) G4 SL) with (st1 := disallow_pseudos st1) (pre := [Ws]) as (s2 & R2 & _).
    + intros s0 p stp I Gp O. rewrite Forall_forall in Fx, Fr. rewrite print_no_scope by (apply Fr; exact I). destruct (selector_back cfg _ p stp s0 Gp O (Fx _ I)) as (_ & P & NC & _ & B). rewrite P. auto.
    + discriminate.
    + split; [exact L1|auto].
    + repeat constructor.
    + cbn [app items map] in R2. unfold items. rewrite R2. f_equal. destruct st1 as [? ? ? ? ? [] ? ? ?]; reflexivity.
Qed.

(** *** Pseudo classes with arguments *)
Lemma reads_nested st c name args x rel forgiving (C : list sel -> comp) st' :
  Forall good (items cfg args) -> nested_list cfg rel forgiving (kid rel st) st (items cfg args) = (st', Some x) -> Forall (fine_sel cfg) x -> (rel = true -> Forall fine_relative x) ->
  c = C x -> plain c = true -> is_comb c = false -> print_comp cfg c = [Colon; Fun name (group rel x)] -> css2_element name = false -> norm_comp c = [C (map (nrm rel) x)] -> nests c = existsb (existsb nests) x ->
  (forall a l st1, function_class cfg name a l st1 = with_state (nested_list cfg rel forgiving (kid rel st1) st1 l) (fun x => SClass (C x))) -> reads st st' [c].
Proof.
  intros G H F FR -> Pl Cm Pr C2 Nm Ns FC. destruct (nested_back rel forgiving st _ st' x G H F FR) as [[b ->] B].
  eapply reads_fun; eauto. intros st1 L. rewrite FC, (B st1 L), Ns. reflexivity.
Qed.
Lemma function_class_good st st' name args s cs st2 : Forall good (items cfg args) -> css2_element name = false -> function_class cfg name args (items cfg args) st = (st', Some s) ->
  push_simple st' s = (cs, st2) -> Forall fine cs -> reads st st2 cs.
Proof.
  intros G C2 H P F. unfold function_class in H.
  destruct (keyword nth_table name) as [t|] eqn:K0.
  { destruct (nth_class cfg st t (items cfg args)) as [c|] eqn:NC; [|discriminate]. injection H as <- <-. cbn in P. injection P as <- <-. inversion F; subst.
    eapply reads_nth; eauto. apply keyword_in in K0. destruct K0 as [k K0]. apply in_map_iff. exists (k, t). auto. }
  destruct (is_kw "is" name) eqn:K1.
  { apply with_state_some in H. destruct H as (x & H & ->). cbn in P. injection P as <- <-. inversion F as [|? ? F1 _]; subst. inversion F1 as [|? Fx U| | | | | | | | | | |? X]; subst; [|contradiction].
    destruct (should_unwrap x) eqn:SU.
    - destruct x as [|s [|? ?]]; try discriminate SU.
      assert (NT : no_type s).
      { cbn [should_unwrap] in SU. apply andb_true_iff in SU. destruct SU as [SU1 SU2]. apply negb_true_iff in SU1. unfold is_simple in SU2. apply negb_true_iff in SU2.
        apply (U s eq_refl SU2). destruct s as [|a [|b s]]; [reflexivity| |]; destruct a; try reflexivity; try discriminate SU1; destruct b; try reflexivity; discriminate SU1. }
      inversion Fx; subst. eapply reads_unwrapped; eauto.
    - eapply (reads_nested st (Is x) "is" args x false true Is); eauto; try discriminate; try reflexivity.
      + change (print_comp cfg (Is x)) with (if should_unwrap x then match x with s :: _ => print_sel cfg false s | [] => [] end else [Colon; Fun "is" (group false x)]). rewrite SU. reflexivity.
      + change (norm_comp (Is x)) with (if should_unwrap x then match x with s :: _ => norm true s | [] => [] end else [Is (map (norm true) x)]). rewrite SU. reflexivity. }
  destruct (is_kw "where" name) eqn:K2.
  { apply with_state_some in H. destruct H as (x & H & ->). cbn in P. injection P as <- <-. inversion F as [|? ? F1 _]; subst. inversion F1 as [| |? Fx| | | | | | | | | |? X]; subst; [|contradiction].
    eapply (reads_nested st (Where x) "where" args x false true Where); eauto; try discriminate; reflexivity. }
  destruct (is_kw "has" name) eqn:K3.
  { apply with_state_some in H. destruct H as (x & H & ->). cbn in P. injection P as <- <-. inversion F as [|? ? F1 _]; subst. inversion F1 as [| | | |? Fx FR _| | | | | | | |? X]; subst; [|contradiction].
    eapply (reads_nested st (Has x) "has" args x true true Has); eauto; reflexivity. }
  destruct (is_kw "host" name) eqn:K4.
  { destruct (allows_tree st) eqn:AT; [|discriminate]. apply with_state_some in H. destruct H as (x & H & ->). cbn in P. injection P as <- <-. inversion F as [|? ? F1 _]; subst. inversion F1 as [| | | | | | |? Fx| | | | |? X]; subst; [|contradiction].
    destruct (inner_back st _ _ x G H Fx) as [[b ->] B]. eapply reads_fun with (name := "host"%string) (args := print_sel cfg false x); try reflexivity.
    intros st1 L. unfold function_class. change (keyword nth_table "host") with (@None nth_type). cbv beta iota zeta.
    change (is_kw "is" "host") with false. change (is_kw "where" "host") with false. change (is_kw "has" "host") with false. change (is_kw "host" "host") with true. cbv iota.
    rewrite (core_tree _ _ (proj1 L)), AT, (B st1 L). reflexivity. }
  destruct (is_kw "not" name) eqn:K5.
  { apply with_state_some in H. destruct H as (x & H & ->). cbn in P. injection P as <- <-. inversion F as [|? ? F1 _]; subst. inversion F1 as [? Fx| | | | | | | | | | | |? X]; subst; [|contradiction].
    eapply (reads_nested st (Not x) "not" args x false false Not); eauto; try discriminate; reflexivity. }
  destruct (is_kw "-webkit-any" name) eqn:K6.
  { apply with_state_some in H. destruct H as (x & H & ->). cbn in P. injection P as <- <-. inversion F as [|? ? F1 _]; subst. inversion F1 as [| | |? ? Fx| | | | | | | | |? X]; subst; [|contradiction].
    eapply (reads_nested st (Any WebKit x) "-webkit-any" args x false true (Any WebKit)); eauto; try discriminate; reflexivity. }
  destruct (is_kw "-moz-any" name) eqn:K7.
  { apply with_state_some in H. destruct H as (x & H & ->). cbn in P. injection P as <- <-. inversion F as [|? ? F1 _]; subst. inversion F1 as [| | |? ? Fx| | | | | | | | |? X]; subst; [|contradiction].
    eapply (reads_nested st (Any Moz x) "-moz-any" args x false true (Any Moz)); eauto; try discriminate; reflexivity. }
  destruct (after_pseudo st) eqn:AP; [discriminate|]. destruct (functional_class name args (items cfg args)) as [c|] eqn:FC; [|discriminate].
  injection H as <- <-. cbn in P. injection P as <- <-. inversion F; subst. eapply reads_functional; eauto.
Qed.

(** *** Pseudo elements with arguments *)
Lemma parts_back names : names <> [] -> part_names (items cfg (print_parts names)) = Some names.
Proof.
  unfold print_parts. induction names as [|a names IH]; [contradiction|]. intros _. destruct names as [|b names]; [reflexivity|].
  cbn [map]. rewrite sep_cons. cbn [app items map part_names]. cbn [map] in IH. unfold items in IH. rewrite IH by discriminate. reflexivity.
Qed.
Lemma vt_classes_back l : vt_class_list (items cfg (flat_map (fun s => [Delim Dot; Ident s]) l)) = Some (l, []).
Proof. induction l as [|a l IH]; [reflexivity|]. cbn [flat_map app items map vt_class_list]. unfold items in IH. rewrite IH. reflexivity. Qed.
Lemma vt_back l p : vt_part_selector l = Some p -> vt_part_selector (items cfg (print_vt_part p)) = Some p.
Proof.
  unfold vt_part_selector at 1. destruct (match skip l with (Delim Star, _) :: r => (Some AllParts, r) | (Ident s, _) :: r => if reserved s then (None, skip l) else (Some (PartName s), r) | _ => (None, skip l) end) as [nm l1] eqn:Q.
  destruct (vt_class_list l1) as [[cl r]|] eqn:V; [|discriminate]. destruct (skip r); [|discriminate].
  intros H. assert (E : p = VtPart nm cl /\ ~ (nm = None /\ cl = [])) by (destruct nm, cl; try discriminate; injection H as <-; split; [reflexivity|intros [A B]; discriminate|reflexivity|intros [A B]; discriminate|reflexivity|intros [A B]; discriminate]).
  destruct E as [-> NE]. unfold print_vt_part. cbn [vt_name vt_classes].
  assert (R : forall s, nm = Some (PartName s) -> reserved s = false).
  { intros s ->. destruct (skip l) as [|[[] f] r0]; try discriminate Q. - destruct (reserved s0) eqn:RS; [discriminate|]. injection Q as <- <-. exact RS. - destruct d; discriminate. }
  unfold vt_part_selector. destruct nm as [[|s]|].
  - cbn [app items map skip]. pose proof (vt_classes_back cl) as B. unfold items in B. rewrite B. reflexivity.
  - cbn [app items map skip]. rewrite (R s eq_refl). pose proof (vt_classes_back cl) as B. unfold items in B. rewrite B. reflexivity.
  - cbn [app]. destruct cl as [|c cl]; [contradict NE; auto|]. cbn [flat_map app items map skip].
    pose proof (vt_classes_back (c :: cl)) as B. cbn [flat_map app items map] in B. rewrite B. reflexivity.
Qed.
Lemma element_of name args l st1 st c : le st1 st -> allows_pseudos st = true -> is_kw "part" name = false -> is_kw "slotted" name = false ->
  functional_element cfg name args l = Some c -> after_slotted st && negb (valid_after_slotted c) = false -> function_element cfg name args l st1 = (st1, Some (SElement c)).
Proof.
  intros L AP K1 K2 FE V. unfold function_element. rewrite (le_pseudos _ _ L AP), K1, K2, FE. cbn [negb].
  replace (after_slotted st1) with (after_slotted st); [rewrite V; reflexivity|]. destruct L as [L _]. unfold core in L. congruence.
Qed.
Lemma reads_fun_element st c c' name args : allows_pseudos st = true -> (exists e, c = PElement e) \/ (exists g s, c = CueFn g s) ->
  print_comp cfg c = [Colon; Colon; Fun name args] -> norm_comp c = [c'] -> is_unknown c' = is_unknown c -> is_scrollbar c' = is_scrollbar c -> is_transition c' = is_transition c ->
  is_kw "part" name = false -> is_kw "slotted" name = false -> functional_element cfg name args (items cfg args) = Some c' -> after_slotted st && negb (valid_after_slotted c') = false ->
  reads st (snd (push_simple st (SElement c))) (fst (push_simple st (SElement c))).
Proof.
  intros AP Hc Pr Nm E1 E2 E3 K1 K2 FE V. apply reads_element; auto; rewrite Pr; [auto|discriminate|].
  exists c'. do 4 (split; [assumption|]). intros st1 L rest. cbn [items map app simples].
  change (fn cfg (Fun name args) true st1) with (function_element cfg name args (items cfg args) st1). rewrite (element_of _ _ _ st1 st c' L AP K1 K2 FE V). reflexivity.
Qed.
Lemma function_element_good st st' name args s cs st2 : Forall good (items cfg args) -> function_element cfg name args (items cfg args) st = (st', Some s) ->
  push_simple st' s = (cs, st2) -> Forall fine cs -> reads st st2 cs.
Proof.
  intros G H P F. unfold function_element in H. destruct (allows_pseudos st) eqn:AP; [|discriminate]. cbn [negb] in H.
  destruct (is_kw "part" name) eqn:K1.
  { destruct (allows_slotted st) eqn:AS; [|discriminate]. destruct (part_names (items cfg args)) as [[|n ns]|] eqn:PN; try discriminate. injection H as <- <-. cbn in P. injection P as <- <-.
    assert (PR : T [Comb PartComb; Part (n :: ns)] = [Colon; Colon; Fun "part" (print_parts (n :: ns))]) by reflexivity.
    constructor; rewrite ?PR; auto; try discriminate.
    + intros st1 L. exists (set_part st1). split; [destruct L as [L _]; unfold core in *; cbn; congruence|]. split; [reflexivity|]. split; [cbn; rewrite orb_false_r; reflexivity|].
      intros rest. cbn [items map app simples].
      change (fn cfg (Fun "part" (print_parts (n :: ns))) true st1) with (function_element cfg "part" (print_parts (n :: ns)) (items cfg (print_parts (n :: ns))) st1).
      unfold function_element. change (is_kw "part" "part") with true. rewrite (le_pseudos _ _ L AP), (le_slotted _ _ L AS), parts_back by discriminate. reflexivity. }
  destruct (is_kw "slotted" name) eqn:K2.
  { destruct (allows_slotted st) eqn:AS; [|discriminate]. apply with_state_some in H. destruct H as (x & H & ->). cbn in P. injection P as <- <-.
    inversion F as [|? ? _ F1]; subst. inversion F1 as [|? ? F2 _]; subst. inversion F2 as [| | | | | | | |? Fx| | | |? X]; subst; [|contradiction].
    destruct (inner_back st _ _ x G H Fx) as [[b ->] B].
    assert (PR : T [Comb SlotAssignment; Slotted x] = [Colon; Colon; Fun "slotted" (print_sel cfg false x)]) by reflexivity.
    constructor; rewrite ?PR; auto; try discriminate.
    + intros _. unfold after_pseudo, set_slotted; cbn. apply orb_true_iff. left. apply orb_true_r.
    + unfold after_pseudo, set_slotted; cbn. rewrite orb_true_r. discriminate.
    + intros st1 L. exists (set_slotted (set_nesting (existsb nests x) st1)). split; [destruct L as [L _]; unfold core in *; cbn; congruence|]. split; [reflexivity|]. split; [cbn; rewrite orb_false_r; reflexivity|].
      intros rest. cbn [items map app simples].
      change (fn cfg (Fun "slotted" (print_sel cfg false x)) true st1) with (function_element cfg "slotted" (print_sel cfg false x) (items cfg (print_sel cfg false x)) st1).
      unfold function_element. change (is_kw "part" "slotted") with false. change (is_kw "slotted" "slotted") with true. rewrite (le_pseudos _ _ L AP), (le_slotted _ _ L AS), (B st1 L). reflexivity. }
  destruct (functional_element cfg name args (items cfg args)) as [c|] eqn:FE; [|discriminate].
  destruct (after_slotted st && negb (valid_after_slotted c)) eqn:V; [discriminate|]. injection H as <- <-.
  assert (Fc : fine c). { cbn [push_simple] in P. destruct (is_unknown c); injection P as <- <-; [inversion F; auto|inversion F; subst; inversion H2; auto]. }
  assert (R : reads st (snd (push_simple st (SElement c))) (fst (push_simple st (SElement c)))); [|rewrite P in R; exact R]. clear P F.
  pose proof FE as FE0. unfold functional_element in FE.
  assert (CUE : forall g, (match selector cfg false empty_state (items cfg args) with (_, Some s) => Some (CueFn g s) | _ => None end) = Some c ->
     reads st (snd (push_simple st (SElement c))) (fst (push_simple st (SElement c)))).
  { intros g FC. destruct (selector cfg false empty_state (items cfg args)) as [sa [x|]] eqn:S; [|discriminate]. injection FC as <-.
    inversion Fc as [| | | | | | | | |? ? Fx| | |? X]; subst; [|contradiction].
    destruct (selector_back cfg _ _ _ _ G S Fx) as (_ & PS & _ & _ & B). destruct (B empty_state) as (s2 & M2 & R2); [split; auto|].
    pose proof (R2 [] (Forall_nil _)) as Q. cbn [app] in Q. rewrite <- PS in Q.
    apply (reads_fun_element st _ (CueFn g (norm true x)) (if g then "cue-region" else "cue")%string (print_sel cfg false x)); try reflexivity; auto.
    - right. eauto.
    - destruct g; reflexivity.
    - destruct g; reflexivity.
    - destruct g; unfold functional_element; rewrite Q; reflexivity. }
  destruct (is_kw "cue" name) eqn:K3; [apply (CUE false); exact FE|].
  destruct (is_kw "cue-region" name) eqn:K4; [apply (CUE true); exact FE|]. clear CUE.
  destruct (is_kw "picker" name) eqn:K5.
  { apply one_token_some in FE. destruct FE as [t FE]. destruct t; try discriminate FE. injection FE as <-.
    apply (reads_fun_element st _ (PElement (Picker s)) "picker" [Ident s]); try reflexivity; auto. left. eauto. }
  destruct (keyword vt_table name) as [k|] eqn:K6.
  { destruct (vt_part_selector (items cfg args)) as [p|] eqn:VP; [|discriminate]. injection FE as <-. apply vt_back in VP.
    apply (reads_fun_element st _ (PElement (VtFn k p)) (vt_fn_name k) (print_vt_part p)); try reflexivity; auto; try (destruct k; reflexivity). left. eauto.
    destruct k; unfold functional_element; rewrite VP; reflexivity. }
  injection FE as <-. apply fine_element_of in Fc. cbn [fine_element] in Fc.
  apply (reads_fun_element st _ (PElement (CustomElementFn name args)) name args); try reflexivity; auto. left. eauto.
  cbn [print_comp]. unfold print_element, raw_fun. rewrite Fc. reflexivity.
Qed.

(** *** Every token *)
Lemma fn_good t : good (t, fn cfg t).
Proof.
  induction t as [t Ht|n a IH|a IH] using tok_ind'.
  - intros e st st' s cs st2 _ H. destruct t; try destruct Ht; discriminate H.
  - intros e st st' s cs st2 He H P F. cbn [fst snd] in *.
    assert (G : Forall good (items cfg a)) by (unfold items; apply Forall_map; exact IH).
    change (fn cfg (Fun n a) e st) with (if e then function_element cfg n a (items cfg a) st else function_class cfg n a (items cfg a) st) in H.
    destruct e; [eapply function_element_good; eauto|]. destruct He as [He|He]; [discriminate|]. eapply function_class_good; eauto.
  - intros e st st' s cs st2 _ H. discriminate H.
Qed.
Lemma items_good l : Forall good (items cfg l).
Proof. unfold items. apply Forall_map. apply Forall_forall. intros t _. apply fn_good. Qed.
End Fns.
