(** * The meaning of parsed [@supports] conditions *)
From Coq Require Import List Bool Arith Lia String Ascii.
From Verif Require Import MediaModel VendorPrefixModel SupportsModel SupportsSpec SupportsProofs
  SupportsParseProofs.
Import ListNotations.
Local Open Scope string_scope.
Local Open Scope list_scope.

(** ** Property names *)
Lemma lower_app a b : lower (a ++ b)%string = (lower a ++ lower b)%string.
Proof. induction a as [|c a IH]; [reflexivity|]. cbn [String.append lower]. rewrite IH. reflexivity. Qed.
Lemma lower_ascii_idem c : lower_ascii (lower_ascii c) = lower_ascii c.
Proof. destruct c as [[] [] [] [] [] [] [] []]; reflexivity. Qed.
Lemma lower_idem s : lower (lower s) = lower s.
Proof. induction s as [|c s IH]; [reflexivity|]. cbn [lower]. rewrite lower_ascii_idem, IH. reflexivity. Qed.
Lemma istrip_lower p s r : istrip_prefix p s = Some r -> lower s = (p ++ lower r)%string.
Proof.
  revert s. induction p as [|a p IH]; intros s H.
  - injection H as ->. reflexivity.
  - destruct s as [|b s]; [discriminate|]. cbn [istrip_prefix] in H.
    destruct (Ascii.eqb_spec a (lower_ascii b)) as [->|]; [|discriminate].
    cbn [lower String.append]. rewrite (IH _ H). reflexivity.
Qed.
Lemma lower_ascii_dash c : lower_ascii c = "-"%char -> c = "-"%char.
Proof. destruct c as [[] [] [] [] [] [] [] []]; vm_compute; congruence. Qed.
Lemma strip_dashes_lower s r : strip_prefix "--" s = Some r -> exists r', strip_prefix "--" (lower s) = Some r'.
Proof.
  destruct s as [|a [|b s]]; cbn [strip_prefix lower];
    [discriminate | destruct (Ascii.eqb_spec "-" a); discriminate|].
  destruct (Ascii.eqb_spec "-" a) as [<-|]; [|discriminate].
  destruct (Ascii.eqb_spec "-" b) as [<-|]; [|discriminate]. intros _. exists (lower s). reflexivity.
Qed.
Lemma strip_dashes_lower_inv s : strip_prefix "--" (lower s) = None -> strip_prefix "--" s = None.
Proof.
  intros H. destruct (strip_prefix "--" s) as [r|] eqn:E; [|reflexivity].
  destruct (strip_dashes_lower s r E) as [r' E']. congruence.
Qed.
Lemma canonical_lower n : strip_prefix "--" (lower n) = None -> canonical_name n = lower n.
Proof. intros H. unfold canonical_name. rewrite (strip_dashes_lower_inv n H). reflexivity. Qed.
Lemma canonical_idem n : canonical_name (canonical_name n) = canonical_name n.
Proof.
  unfold canonical_name. destruct (strip_prefix "--" n) as [r|] eqn:E; [rewrite E; reflexivity|].
  destruct (strip_prefix "--" (lower n)) as [r|] eqn:F; [reflexivity | apply lower_idem].
Qed.

Lemma split_prefix_lower n : lower n = (pfx_text (fst (split_prefix n)) ++ lower (snd (split_prefix n)))%string.
Proof.
  unfold split_prefix.
  destruct (istrip_prefix "-webkit-" n) as [r|] eqn:E1; [exact (istrip_lower _ _ _ E1)|].
  destruct (istrip_prefix "-moz-" n) as [r|] eqn:E2; [exact (istrip_lower _ _ _ E2)|].
  destruct (istrip_prefix "-o-" n) as [r|] eqn:E3; [exact (istrip_lower _ _ _ E3)|].
  destruct (istrip_prefix "-ms-" n) as [r|] eqn:E4; [exact (istrip_lower _ _ _ E4)|]. reflexivity.
Qed.

Section Names.
Variable table : list entry.
Hypothesis T : table_ok table = true.

Lemma find_entry r e : find (fun e => ieq r (e_name e)) table = Some e ->
  lower r = e_name e /\ strip_prefix "--" (e_name e) = None /\ In e table
  /\ e_name e <> "all" /\ (e_vp e = false -> e_prefixes e = [] /\ e_unprefixed e = true).
Proof.
  intros H. apply find_some in H. destruct H as [Hin H]. unfold table_ok in T.
  rewrite forallb_forall in T. specialize (T e Hin). rewrite !andb_true_iff in T.
  destruct T as [[[T1 T4] T2] T3]. apply String.eqb_eq in T1. unfold ieq in H. apply String.eqb_eq in H.
  rewrite T1 in H. split; [exact H|]. split; [destruct (strip_prefix "--" (e_name e)); [discriminate | reflexivity]|].
  split; [exact Hin|]. split; [intros E; rewrite E in T4; discriminate|]. intros E. rewrite E in T3. cbn [orb] in T3. destruct (e_prefixes e); [auto | discriminate].
Qed.

(** The property id of a name, with the names it stands for *)
Lemma pid_from_cases n : let i := pid_from table n in
  (exists e, i = PVp (e_name e) (vs_one (fst (split_prefix n))) /\ In e table /\ e_vp e = true
       /\ ieq (snd (split_prefix n)) (e_name e) = true
       /\ canonical_name n = (pfx_text (fst (split_prefix n)) ++ e_name e)%string
       /\ strip_prefix "--" (pfx_text (fst (split_prefix n)) ++ e_name e)%string = None)
  \/ (exists m, i = PPlain m /\ canonical_name n = m /\ strip_prefix "--" m = None)
  \/ (i = PAll /\ (prefixed_all n = false -> canonical_name n = "all"))
  \/ i = PCustom n.
Proof.
  cbn zeta. unfold pid_from. pose proof (split_prefix_lower n) as L.
  destruct (split_prefix n) as [p r] eqn:Es. cbn [fst snd] in L. unfold from_name_and_prefix.
  destruct (find (fun e => ieq r (e_name e)) table) as [e|] eqn:Ef.
  - destruct (find_entry r e Ef) as [E1 [E2 [E3 [_ E4]]]]. rewrite E1 in L.
    assert (D : strip_prefix "--" (pfx_text p ++ e_name e)%string = None) by (destruct p; [reflexivity..|exact E2]).
    destruct (vs_contains _ _) eqn:Ev; [|auto].
    destruct (e_vp e) eqn:Evp.
    + left. exists e. cbn [fst snd]. split; [reflexivity|]. split; [exact E3|]. split; [exact Evp|].
      split; [apply find_some in Ef; tauto|]. split; [|exact D].
      rewrite canonical_lower; rewrite L; [reflexivity | exact D].
    + right. left. exists (e_name e). split; [reflexivity|]. destruct (E4 eq_refl) as [P1 P2]. rewrite P1, P2 in Ev.
      assert (p = Unprefixed) as -> by (destruct p; cbn in Ev; congruence).
      split; [|exact E2]. rewrite canonical_lower; rewrite L; [reflexivity | exact E2].
  - destruct (ieq r "all") eqn:Ea; [|auto]. right. right. left. split; [reflexivity|].
    unfold prefixed_all. rewrite Es. intros Hp. assert (p = Unprefixed) as -> by (destruct p; congruence).
    unfold ieq in Ea. apply String.eqb_eq in Ea. cbn [pfx_text String.append] in L. rewrite Ea in L.
    rewrite canonical_lower; rewrite L; reflexivity.
Qed.

Lemma canonical_fix s : strip_prefix "--" s = None -> lower s = s -> canonical_name s = s.
Proof. intros H E. unfold canonical_name. rewrite H. exact E. Qed.

Lemma table_lower e : In e table -> lower (e_name e) = e_name e.
Proof.
  intros H. unfold table_ok in T. rewrite forallb_forall in T. specialize (T e H).
  rewrite !andb_true_iff in T. destruct T as [[[T1 _] _] _]. apply String.eqb_eq. exact T1.
Qed.

Lemma decl_name B n v : prefixed_all n = false ->
  decl_holds B (pid_from table n) v = b_decl B (canonical_name n) v.
Proof.
  intros Hp. destruct (pid_from_cases n) as [[e [H [H1 [H2 [H3 [H4 H5]]]]]]|[[m [H [H1 H2]]]|[[H H1]|H]]]; rewrite H.
  - assert (K : canonical_name (pfx_text (fst (split_prefix n)) ++ e_name e)%string = canonical_name n).
    { rewrite <- H4. apply canonical_idem. }
    rewrite <- K. destruct (fst (split_prefix n)); cbn -[canonical_name]; rewrite ?orb_false_r; reflexivity.
  - cbn -[canonical_name]. rewrite <- H1, canonical_idem. reflexivity.
  - cbn -[canonical_name]. rewrite (H1 Hp). reflexivity.
  - reflexivity.
Qed.

(** ** Operands without vendor prefixes *)
Definition up (c : scond) : Prop :=
  match c with SDecl p _ => pid_with_prefix p (vs_one Unprefixed) = p | _ => True end.

Lemma pid_from_up n : vendor_name table n = false ->
  pid_with_prefix (pid_from table n) (vs_one Unprefixed) = pid_from table n.
Proof.
  intros Hv. destruct (pid_from_cases n) as [[e [H [H1 [H2 [H3 _]]]]]|[[m [H _]]|[[H _]|H]]]; rewrite H; try reflexivity.
  unfold vendor_name in Hv. destruct (split_prefix n) as [p r]. cbn [fst snd] in *.
  destruct p; try (exfalso; assert (K : existsb (fun e => ieq r (e_name e) && e_vp e) table = true)
                     by (apply existsb_exists; exists e; rewrite H2, H3; auto); congruence).
  reflexivity.
Qed.

Notation parsed := (fun x => (x, parse_in_parens table x)).

Lemma update_at_up i q l : Forall up l ->
  Forall up (update_at i (fun cur => match cur with
                                     | SDecl q' w => SDecl (pid_add_prefix q' (pid_prefix (pid_with_prefix q (vs_one Unprefixed)))) w
                                     | _ => cur end) l).
Proof.
  intros H. apply update_at_forall; [exact H|]. intros [c|m|m|p v|s|t] Hx; auto.
  cbn [up] in *. destruct p as [n p|n| |n]; try reflexivity. cbn [pid_with_prefix] in Hx. injection Hx as <-.
  destruct q as [m q|m| |m]; reflexivity.
Qed.
Lemma loop_up n : forall l first e conds seen, List.length l <= n -> up first -> Forall up conds ->
  Forall up (snd (fst (parse_loop first e conds seen (map parsed l)))).
Proof.
  induction n as [|n IH]; intros l first e conds seen Hn Hf Hc.
  - destruct l; [exact Hc | cbn in Hn; lia].
  - destruct l as [|x l]; [exact Hc|]. cbn [map].
    destruct x as [s| | |s|g b|b|g b]; try exact Hc.
    cbn [parse_loop]. destruct (sop_of s) as [o|] eqn:Es; [|exact Hc].
    destruct (match e with Some e0 => negb (sop_eqb e0 o) | None => false end); [exact Hc|].
    destruct l as [|y r]; [exact Hc|]. cbn [map].
    destruct (parse_in_parens table y) as [c|] eqn:Ey; [|exact Hc].
    destruct (match conds with [] => start_operands first | _ :: _ => (conds, seen) end) as [conds0 seen0] eqn:E0.
    assert (Q0 : Forall up conds0).
    { destruct conds; [unfold start_operands in E0|]; injection E0 as <- _; auto. }
    destruct (add_operand c conds0 seen0) as [conds1 seen1] eqn:E1.
    apply IH; [cbn in Hn; lia | exact Hf|].
    unfold add_operand in E1. destruct c as [c|m|m|p v|s'|t].
    4:{ destruct (seen_get _ seen0) as [i|]; injection E1 as <- _.
        - apply update_at_up. exact Q0.
        - apply Forall_app; split; [exact Q0|]. constructor; [|constructor]. destruct p; reflexivity. }
    all: injection E1 as <- _; apply Forall_app; split; [exact Q0 | constructor; [exact I | constructor]].
Qed.
Lemma parse_scond_up l c : (forall t d, In t l -> parse_in_parens table t = Some d -> up d) ->
  parse_scond (map parsed l) = Some (c, []) -> up c.
Proof.
  intros Hl Hp. destruct (parse_scond_cases table blank l _ Hp) as [H|[H|[[H1 _]|H]]].
  - destruct H as [s [t [d [m [-> [_ [Ht Hr]]]]]]]. injection Hr as -> _. exact I.
  - destruct H as [t [d [m [-> [Ht Hr]]]]].
    assert (Hd : up d) by (apply (Hl t d); [left; reflexivity | exact Ht]).
    pose proof (loop_up _ m d None [] [] (Nat.le_refl _) Hd (Forall_nil _)) as L.
    destruct (parse_loop d None [] [] (map parsed m)) as [[e conds] rest]. cbn [fst snd] in L.
    injection Hr as -> _. unfold finish. destruct conds as [|c1 [|c2 cs]].
    + destruct e as [[]|]; [exact I | exact I | exact Hd].
    + inversion L; assumption.
    + destruct e as [[]|]; [exact I | exact I | exact Hd].
  - discriminate.
  - destruct H as [t [m [_ [Hr _]]]]. discriminate.
Qed.

Lemma vendor_free_up t c : mentions (vendor_name table) t = false -> parse_in_parens table t = Some c -> up c.
Proof.
  revert c. induction t as [s| | |s|f b IH|b IH|o b IH] using cv_rect'; intros c Hm H; try discriminate.
  - cbn [parse_in_parens] in H. destruct (no_error b); rewrite ?andb_true_r, ?andb_false_r in H; [|discriminate].
    destruct (ieq f "selector"); injection H as <-; exact I.
  - cbn [mentions] in Hm. apply orb_false_iff in Hm. destruct Hm as [Hm1 Hm2].
    destruct (paren_cases table blank b (all_defined table blank b)) as [[d [H1 [H2 _]]]|[H0 [H0' [[n [v [H1 [H2 _]]]]|[[H1 [H3 [H2 _]]]|[H1 [H3 [H2 _]]]]]]]];
      rewrite H2 in H; injection H as <- || discriminate H.
    + apply (parse_scond_up b); [|exact H1]. intros t d' Ht. rewrite Forall_forall in IH. apply IH; [exact Ht|].
      destruct (mentions (vendor_name table) t) eqn:E; [|reflexivity].
      assert (existsb (mentions (vendor_name table)) b = true) by (apply existsb_exists; eauto). congruence.
    + cbn [up]. unfold declaration in H1. destruct b as [|[] [|[] b]]; try discriminate.
      destruct (no_error b); [|discriminate]. injection H1 as <- _. apply pid_from_up. exact Hm1.
    + exact I.
Qed.

Lemma plain_up t c : plain_operand table t = true -> parse_in_parens table t = Some c -> up c.
Proof.
  intros H Hp. unfold plain_operand in H. apply orb_true_iff in H. destruct H as [H|H].
  - apply (vendor_free_up t); [destruct (mentions (vendor_name table) t); [discriminate | reflexivity] | exact Hp].
  - destruct t as [s| | |s|g b|b|g b]; try discriminate. destruct b as [|[s| | |s|g b'|b'|g b'] b]; try discriminate.
    destruct (paren_cases table blank (CIdent s :: b) (all_defined table blank _)) as [[d [H1 [H2 _]]]|[H0 [H0' [[n [v [H1 [H2 _]]]]|[[H1 [H3 [H2 _]]]|[H1 [H3 [H2 _]]]]]]]];
      rewrite H2 in Hp; injection Hp as <- || discriminate Hp; try exact I.
    + destruct (parse_scond_cases table blank _ _ H1) as [K|[K|[[K _]|K]]].
      * destruct K as [s' [t [c [m [_ [_ [_ K]]]]]]]. injection K as -> _. exact I.
      * destruct K as [t [c [m [E [K _]]]]]. injection E as <- _. discriminate.
      * discriminate.
      * destruct K as [t [m [_ [K _]]]]. discriminate.
    + cbn [up]. unfold declaration in H1. destruct b as [|[] b]; try discriminate.
      destruct (no_error b); [|discriminate]. injection H1 as <- _. apply pid_from_up.
      unfold vendor_name. pose proof (split_prefix_lower s) as L. destruct (split_prefix s) as [p r].
      cbn [fst snd] in L. unfold ieq in H. apply String.eqb_eq in H. rewrite H in L.
      destruct p; try reflexivity; discriminate.
Qed.

(** ** The operand list *)
Variable B : browser.
Notation meant := (fun x => (x, in_parens B x)).

Definition value (o : sop) (l : list scond) : bool :=
  match o with OpAnd => forallb (holds B) l | OpOr => existsb (holds B) l end.

Definition seen_ok (conds : list scond) (seen : list (skey * nat)) : Prop :=
  forall k i, seen_get k seen = Some i -> exists q w, nth_error conds i = Some (SDecl q w)
    /\ k = (pid_with_prefix q (vs_one Unprefixed), w).

Definition inv (o : sop) (conds : list scond) (seen : list (skey * nat)) (acc : bool) : Prop :=
  conds <> [] /\ value o conds = acc /\ seen_ok conds seen /\ (o = OpAnd -> Forall up conds).

Lemma value_app o l c : value o (l ++ [c]) = op o (value o l) (holds B c).
Proof.
  destruct o; cbn [value op].
  - rewrite forallb_app. cbn [forallb]. rewrite andb_true_r. reflexivity.
  - rewrite existsb_app. cbn [existsb]. rewrite orb_false_r. reflexivity.
Qed.
Lemma seen_app conds x seen : seen_ok conds seen -> seen_ok (conds ++ [x]) seen.
Proof.
  intros H k i E. destruct (H k i E) as [q [w [H1 H2]]]. exists q, w. split; [|exact H2].
  rewrite nth_error_app1; [exact H1|]. apply nth_error_Some. congruence.
Qed.
Lemma update_nth i f l j : nth_error (update_at i f l) j = if Nat.eqb i j then option_map f (nth_error l j) else nth_error l j.
Proof.
  revert i j. induction l as [|x r IH]; intros [|i] [|j]; try reflexivity; cbn.
  - destruct (Nat.eqb i j); reflexivity.
  - apply IH.
Qed.
Lemma update_exists i f l x b : nth_error l i = Some x -> holds B (f x) = holds B x || b ->
  existsb (holds B) (update_at i f l) = existsb (holds B) l || b.
Proof.
  revert i. induction l as [|y r IH]; intros [|i] H E; try discriminate.
  - injection H as ->. cbn [update_at existsb]. rewrite E. destruct (holds B x), b, (existsb (holds B) r); reflexivity.
  - cbn [update_at existsb]. rewrite (IH i H E), orb_assoc. reflexivity.
Qed.
Lemma update_same i f l : (forall x, nth_error l i = Some x -> f x = x) -> update_at i f l = l.
Proof.
  revert i. induction l as [|y r IH]; intros [|i] H; try reflexivity; cbn [update_at].
  - rewrite (H y eq_refl). reflexivity.
  - rewrite IH; [reflexivity | exact H].
Qed.
Lemma add_none_holds n p v :
  decl_holds B (PVp n (vs_or p (vs_one Unprefixed))) v = decl_holds B (PVp n p) v || decl_holds B (PVp n (vs_one Unprefixed)) v.
Proof.
  destruct p as [[] [] [] [] []]; cbn -[canonical_name]; rewrite ?orb_false_r, ?orb_assoc;
    repeat match goal with |- context [b_decl B ?x v] => destruct (b_decl B x v) end; reflexivity.
Qed.

Lemma add_inv o conds seen acc c : inv o conds seen acc -> up c ->
  let (conds', seen') := add_operand c conds seen in inv o conds' seen' (op o acc (holds B c)).
Proof.
  intros [H1 [H2 [H3 H4]]] Hu.
  assert (D : forall seen', seen_ok (conds ++ [c]) seen' -> inv o (conds ++ [c]) seen' (op o acc (holds B c))).
  { intros seen' Hs. split; [destruct conds; discriminate|]. split; [rewrite value_app, H2; reflexivity|].
    split; [exact Hs|]. intros E. apply Forall_app. split; [apply H4; exact E | repeat constructor; exact Hu]. }
  destruct c as [c|m|m|p v|s|t]; try (cbn [add_operand]; apply D, seen_app; exact H3).
  cbn [add_operand]. cbn [up] in Hu. rewrite Hu.
  destruct (seen_get (p, v) seen) as [i|] eqn:Es.
  - destruct (H3 _ _ Es) as [q [w [Hn Hk]]]. injection Hk as Hp <-.
    set (f := fun cur => match cur with
                         | SDecl q' w' => SDecl (pid_add_prefix q' (pid_prefix p)) w'
                         | _ => cur end).
    assert (Lu : up (SDecl q v) -> q = p) by (intros E; cbn [up] in E; exact (eq_trans (eq_sym E) (eq_sym Hp))).
    assert (Fq : holds B (f (SDecl q v)) = holds B (SDecl q v) || holds B (SDecl p v)).
    { cbn [f holds]. destruct q as [n qp|n| |n]; cbn [pid_with_prefix] in Hp; subst p.
      - apply add_none_holds.
      - cbn [pid_add_prefix]. rewrite orb_diag. reflexivity.
      - cbn [pid_add_prefix]. rewrite orb_diag. reflexivity.
      - cbn [pid_add_prefix]. rewrite orb_diag. reflexivity. }
    split; [intros E; apply (f_equal (@List.length _)) in E; rewrite update_at_length in E; destruct conds; [congruence | discriminate]|].
    split; [|split].
    + destruct o; cbn [value op].
      * assert (U : q = p).
        { apply Lu. specialize (H4 eq_refl). rewrite Forall_forall in H4. apply H4. eapply nth_error_In. exact Hn. }
        subst q. assert (Same : update_at i f conds = conds).
        { apply update_same. intros x Hx. rewrite Hn in Hx. injection Hx as <-. cbn [f].
          destruct p as [n pp|n| |n]; try reflexivity. cbn [pid_with_prefix] in Hp. injection Hp as ->. reflexivity. }
        rewrite Same. cbn [value] in H2. rewrite H2. destruct acc; [|reflexivity]. cbn [andb].
        rewrite forallb_forall in H2. symmetry. apply H2. eapply nth_error_In. exact Hn.
      * rewrite (update_exists i f conds (SDecl q v) (holds B (SDecl p v)) Hn Fq).
        cbn [value] in H2. rewrite H2. reflexivity.
    + intros k j E. destruct (H3 k j E) as [q' [w' [K1 K2]]]. fold f. rewrite update_nth.
      destruct (Nat.eqb i j) eqn:Eij.
      * rewrite K1. cbn [option_map f]. eexists _, _. split; [reflexivity|]. rewrite K2. destruct q'; reflexivity.
      * exists q', w'. auto.
    + intros E. specialize (H4 E). pose proof (update_at_up i p conds H4) as U. rewrite Hu in U. exact U.
  - apply D. intros k i E. cbn [seen_get] in E. destruct (skey_eqb k (p, v)) eqn:Ek.
    + injection E as <-. apply skey_eqb_eq in Ek. subst k. exists p, v. split; [|rewrite Hu; reflexivity].
      rewrite nth_error_app2, Nat.sub_diag by lia. reflexivity.
    + exact (seen_app _ _ _ H3 k i E).
Qed.

Definition same_value (t : cv) : Prop :=
  match parse_in_parens table t, in_parens B t with
  | Some c, Some b => b = holds B c
  | None, None => True
  | _, _ => False
  end.

Lemma evens_tl {A} (x y : A) l : tl (evens (x :: l)) = tl (evens (y :: l)).
Proof. destruct l; reflexivity. Qed.
Lemma evens_cons {A} (x : A) l : evens (x :: l) = x :: tl (evens (x :: l)).
Proof. destruct l; reflexivity. Qed.

Definition all_up (l : list cv) : Prop := forall t c, In t l -> parse_in_parens table t = Some c -> up c.

Lemma loop_value n : forall l x first conds seen acc o, List.length l <= n -> Forall same_value l ->
  all_up (tl (evens (x :: l))) -> inv o conds seen acc ->
  forall e conds', parse_loop first (Some o) conds seen (map parsed l) = (e, conds', []) ->
  e = Some o /\ conds' <> [] /\ chain (kw o) (op o) acc (map meant l) = Some (value o conds').
Proof.
  induction n as [|n IH]; intros l x first conds seen acc o Hn Hl Hp Hi e conds' H.
  - destruct l; [|cbn in Hn; lia]. cbn in H. injection H as <- <-. destruct Hi as [H1 [H2 _]].
    split; [reflexivity|]. split; [exact H1|]. rewrite H2. reflexivity.
  - destruct l as [|k l]. { cbn in H. injection H as <- <-. destruct Hi as [H1 [H2 _]].
    split; [reflexivity|]. split; [exact H1|]. rewrite H2. reflexivity. }
    cbn [map] in H. destruct k as [s| | |s|g b|b|g b]; try discriminate.
    cbn [parse_loop] in H. destruct (sop_of s) as [o'|] eqn:Es; [|discriminate].
    destruct (sop_eqb o o') eqn:Eo; cbn [negb] in H; [|discriminate].
    assert (o = o') as <- by (destruct o, o'; discriminate || reflexivity).
    destruct l as [|y r]; [discriminate|]. cbn [map] in H.
    inversion Hl as [|? ? _ Hl']; subst. inversion Hl' as [|? ? Hy Hr]; subst.
    destruct (parse_in_parens table y) as [c|] eqn:Ey; [|discriminate].
    assert (Uc : up c).
    { change (evens (x :: CIdent s :: y :: r)) with (x :: evens (y :: r)) in Hp. cbn [tl] in Hp.
      rewrite evens_cons in Hp. apply (Hp y c); [left; reflexivity | exact Ey]. }
    assert (E0 : (match conds with [] => start_operands first | _ :: _ => (conds, seen) end) = (conds, seen)).
    { destruct Hi as [H1 _]. destruct conds; [congruence | reflexivity]. }
    rewrite E0 in H. pose proof (add_inv o conds seen acc c Hi Uc) as A.
    destruct (add_operand c conds seen) as [conds1 seen1].
    unfold same_value in Hy. rewrite Ey in Hy. destruct (in_parens B y) as [b|] eqn:Em; [|contradiction]. subst b.
    cbn [map chain]. rewrite Em. apply sop_of_kw in Es. rewrite Es.
    apply (IH r y first conds1 seen1); [cbn in Hn; lia | exact Hr | | exact A | exact H].
    change (evens (x :: CIdent s :: y :: r)) with (x :: evens (y :: r)) in Hp. cbn [tl] in Hp.
    rewrite evens_cons in Hp. intros t d Ht. apply Hp. right. exact Ht.
Qed.

Lemma start_inv o c : (o = OpAnd -> up c) -> let (conds, seen) := start_operands c in inv o conds seen (holds B c).
Proof.
  intros Hu. unfold start_operands. split; [discriminate|]. split; [destruct o; cbn; rewrite ?andb_true_r, ?orb_false_r; reflexivity|].
  split; [|intros E; constructor; auto].
  intros k i E. destruct c as [c|m|m|p v|s|t]; try discriminate. cbn [seen_get] in E.
  destruct (skey_eqb k _) eqn:Ek; [|discriminate]. injection E as <-. apply skey_eqb_eq in Ek.
  exists p, v. auto.
Qed.

(** The operands after the first carry no prefix, nor does the first one under [and]. *)
Definition ups (l : list cv) : Prop :=
  all_up (tl (evens l)) /\
  forall t s r c, l = t :: CIdent s :: r -> sop_of s = Some OpAnd -> parse_in_parens table t = Some c -> up c.

Lemma scond_value l c : ups l -> Forall same_value l ->
  parse_scond (map parsed l) = Some (c, []) -> condition (map meant l) = Some (holds B c).
Proof.
  intros Hs Hl Hp. destruct (parse_scond_cases table B l _ Hp) as [H|[H|[[H1 _]|H]]].
  - destruct H as [s [t [d [m [-> [En [Ht Hr]]]]]]]. injection Hr as -> Hm. destruct m as [|y m]; [|discriminate].
    inversion Hl as [|? ? _ Hl']; subst. inversion Hl' as [|? ? Hy _]; subst. unfold same_value in Hy. rewrite Ht in Hy.
    destruct (in_parens B t) as [b|] eqn:E; [|contradiction]. subst b.
    cbn [map]. change (in_parens B (CIdent s)) with (@None bool). rewrite condition_ident. cbn [snd].
    rewrite E, En. reflexivity.
  - destruct H as [t [d [m [-> [Ht Hr]]]]]. inversion Hl as [|? ? Hx Hm]; subst.
    unfold same_value in Hx. rewrite Ht in Hx. destruct (in_parens B t) as [b|] eqn:E; [|contradiction]. subst b.
    cbn [map]. rewrite E, (condition_operand B _ _ _ E).
    destruct m as [|k m]. { cbn in Hr. injection Hr as ->. reflexivity. }
    destruct (parse_loop d None [] [] (map parsed (k :: m))) as [[e conds] rest] eqn:El.
    injection Hr as -> <-.
    cbn [map] in El. destruct k as [s| | |s|g b|b|g b]; try discriminate.
    destruct (sop_of s) as [o|] eqn:Es; [|cbn [parse_loop] in El; rewrite Es in El; discriminate].
    rewrite (loop_expect _ _ _ _ _ _ o Es) in El. cbn [parse_loop] in El. rewrite Es, sop_eqb_refl in El.
    cbn [negb] in El. destruct m as [|y r]; [discriminate|]. cbn [map] in El.
    destruct (parse_in_parens table y) as [c1|] eqn:Ey; [|discriminate].
    destruct Hs as [Hs1 Hs2].
    pose proof (start_inv o d (fun E => Hs2 t s (y :: r) d eq_refl (eq_trans Es (f_equal Some E)) Ht)) as S.
    destruct (start_operands d) as [conds0 seen0].
    change (evens (t :: CIdent s :: y :: r)) with (t :: evens (y :: r)) in Hs1. cbn [tl] in Hs1.
    rewrite evens_cons in Hs1.
    assert (Pr : all_up (tl (evens (y :: r)))) by (intros u w Hu; apply Hs1; right; exact Hu).
    pose proof (add_inv o conds0 seen0 _ c1 S (Hs1 y c1 (or_introl eq_refl) Ey)) as A.
    destruct (add_operand c1 conds0 seen0) as [conds1 seen1].
    inversion Hm as [|? ? _ Hm']; subst. inversion Hm' as [|? ? Hy Hr]; subst.
    unfold same_value in Hy. rewrite Ey in Hy. destruct (in_parens B y) as [b|] eqn:Em; [|contradiction]. subst b.
    destruct (loop_value _ r y d conds1 seen1 _ o (Nat.le_refl _) Hr Pr A e conds El) as [-> [Hc V]].
    assert (Ch : chain (kw o) (op o) (holds B d) ((CIdent s, None) :: (y, Some (holds B c1)) :: map meant r)
                 = Some (value o conds)).
    { cbn [chain]. pose proof Es as Es'. apply sop_of_kw in Es'. rewrite Es'. exact V. }
    cbn [map]. change (in_parens B (CIdent s)) with (@None bool). rewrite Em.
    assert (Fin : Some (value o conds) = Some (holds B (finish d (Some o) conds))).
    { f_equal. unfold finish. destruct conds as [|x1 [|x2 xs]]; [congruence| |destruct o; reflexivity].
      destruct o; cbn; rewrite ?andb_true_r, ?orb_false_r; reflexivity. }
    rewrite <- Fin. destruct o; cbn [kw op] in Ch.
    + rewrite Ch. reflexivity.
    + rewrite Ch. pose proof (kw_other s OpOr OpAnd Es eq_refl) as N. cbn [kw] in N. cbn [chain]. rewrite N. reflexivity.
  - discriminate.
  - destruct H as [t [m [_ [Hr _]]]]. discriminate.
Qed.

Lemma separate_ups l : separate table l = true -> (forall s r, l <> CIdent s :: r) -> ups l.
Proof.
  intros Hs Hi. destruct l as [|x [|y r]].
  - split; [intros t c [] | intros; discriminate].
  - split; [intros t c [] | intros; discriminate].
  - assert (K : forallb (plain_operand table) (tl (evens (x :: y :: r)))
         && (plain_operand table x || match y with CIdent s => negb (ieq s "and") | _ => true end) = true).
    { destruct x; try exact Hs. exfalso. eapply Hi. reflexivity. }
    apply andb_true_iff in K. destruct K as [K1 K2]. split.
    + intros t c Ht. rewrite forallb_forall in K1. apply plain_up, K1, Ht.
    + intros t s r' c E Es. injection E as <- -> <-. apply sop_of_kw in Es. cbn [kw] in Es. rewrite Es in K2.
      rewrite orb_false_r in K2. apply plain_up. exact K2.
Qed.

(** Identifiers only start negations, whose operand list has no further operand. *)
Lemma scond_value_separate l c : separate table l = true -> Forall same_value l ->
  parse_scond (map parsed l) = Some (c, []) -> condition (map meant l) = Some (holds B c).
Proof.
  intros Hs Hl Hp. destruct l as [|x r]; [discriminate|].
  destruct (parse_in_parens table x) as [d|] eqn:Ex.
  - apply scond_value; try assumption. apply separate_ups; [exact Hs|].
    intros s m E. injection E as -> _. discriminate.
  - apply scond_value; try assumption.
    destruct (parse_scond_cases table B (x :: r) _ Hp) as [H|[H|[[H _]|H]]]; try discriminate.
    + destruct H as [s [t [d [m [E [_ [_ Hr]]]]]]]. injection E as -> ->. injection Hr as _ Hm.
      destruct m; [|discriminate]. split; [intros u w []|]. intros u s' m' w E Es Hw. injection E as <- -> <-. discriminate.
    + destruct H as [t [d [m [E [Ht _]]]]]. injection E as <- _. congruence.
    + destruct H as [t [m [_ [Hr _]]]]. discriminate.
Qed.

Lemma exists_false {A} (f : A -> bool) l : existsb f l = false -> forall x, In x l -> f x = false.
Proof. intros H x Hx. destruct (f x) eqn:E; [|reflexivity]. assert (existsb f l = true) by (apply existsb_exists; eauto). congruence. Qed.

Lemma value_agrees t : separated table t = true -> mentions prefixed_all t = false -> same_value t.
Proof.
  induction t as [s| | |s|f b IH|b IH|o b IH] using cv_rect'; intros Hs Hm; try exact I.
  - unfold same_value. cbn [parse_in_parens in_parens]. destruct (no_error b); rewrite ?andb_true_r, ?andb_false_r; [|exact I].
    destruct (ieq f "selector"); reflexivity.
  - cbn [separated] in Hs. apply andb_true_iff in Hs. destruct Hs as [Hs1 Hs2].
    cbn [mentions] in Hm. apply orb_false_iff in Hm. destruct Hm as [Hm1 Hm2].
    assert (Hb : Forall same_value b).
    { rewrite Forall_forall in *. rewrite forallb_forall in Hs2. intros x Hx. apply IH; auto.
      apply (exists_false _ _ Hm2). exact Hx. }
    unfold same_value.
    destruct (paren_cases table B b (all_defined table B b)) as [[d [H1 [H2 [H3 H4]]]]|[H0 [H0' [[n [v [H1 [H2 H3]]]]|[[H1 [H3 [H2 H4]]]|[H1 [H3 [H2 H4]]]]]]]].
    + rewrite H2, H4, (scond_value_separate b d Hs1 Hb H1). reflexivity.
    + rewrite H2, H3. cbn [holds]. unfold declaration in H1. destruct b as [|[] [|[] b]]; try discriminate.
      destruct (no_error b); [|discriminate]. injection H1 as <- <-. symmetry. apply decl_name. exact Hm1.
    + rewrite H2, H4. reflexivity.
    + rewrite H2, H4. exact I.
Qed.

Lemma parse_meaning l c : separated_text table l = true -> existsb (mentions prefixed_all) l = false ->
  parse_supports table l = Some c -> text_holds B l = Some (holds B c).
Proof.
  intros Hs Hm H. unfold separated_text in Hs. apply andb_true_iff in Hs. destruct Hs as [Hs1 Hs2].
  unfold parse_supports in H. destruct (parse_scond (map parsed l)) as [[d [|x r]]|] eqn:E; try discriminate.
  injection H as ->. unfold text_holds. apply (scond_value_separate l c); [exact Hs1| |exact E].
  apply Forall_forall. intros t Ht. rewrite forallb_forall in Hs2. apply value_agrees; [apply Hs2; exact Ht|].
  apply (exists_false _ _ Hm). exact Ht.
Qed.
End Names.

(** ** Printing and parsing again *)
Section Reparse.
Variable table : list entry.
Hypothesis T : table_ok table = true.
Hypothesis T' : forallb (fun e => negb (e_vp e) || match fst (split_prefix (e_name e)) with Unprefixed => true | _ => false end) table = true.

Definition id_ok (p : pid) : Prop :=
  match p with
  | PVp n _ | PPlain n => fst (split_prefix n) = Unprefixed
  | PAll => True
  | PCustom n => pid_from table n = PCustom n
  end.
Fixpoint fine (c : scond) : Prop :=
  match c with
  | SNot x => fine x
  | SAnd l | SOr l => (fix all m := match m with [] => True | x :: r => fine x /\ all r end) l
  | SDecl p _ => id_ok p
  | SSelector _ => True
  | SUnknown t => parse_in_parens table t = Some (SUnknown t)
  end.
Lemma fine_all l : (fix all m := match m with [] => True | x :: r => fine x /\ all r end) l <-> Forall fine l.
Proof.
  induction l as [|x r IH]; [split; auto; constructor|]. split.
  - intros [H1 H2]. constructor; [exact H1 | apply IH; exact H2].
  - intros H. inversion H; subst. split; [assumption | apply IH; assumption].
Qed.

Lemma istrip_lower_none p s : istrip_prefix p s = None -> istrip_prefix p (lower s) = None.
Proof.
  revert s. induction p as [|a p IH]; intros s H; [discriminate|]. destruct s as [|b s]; [reflexivity|].
  cbn [istrip_prefix lower] in *. rewrite lower_ascii_idem. destruct (Ascii.eqb a (lower_ascii b)); [apply IH; exact H | reflexivity].
Qed.
Lemma split_lower n : fst (split_prefix n) = Unprefixed -> fst (split_prefix (lower n)) = Unprefixed.
Proof.
  unfold split_prefix.
  destruct (istrip_prefix "-webkit-" n) as [r|] eqn:E1; [discriminate|]. rewrite (istrip_lower_none _ _ E1).
  destruct (istrip_prefix "-moz-" n) as [r|] eqn:E2; [discriminate|]. rewrite (istrip_lower_none _ _ E2).
  destruct (istrip_prefix "-o-" n) as [r|] eqn:E3; [discriminate|]. rewrite (istrip_lower_none _ _ E3).
  destruct (istrip_prefix "-ms-" n) as [r|] eqn:E4; [discriminate|]. rewrite (istrip_lower_none _ _ E4).
  reflexivity.
Qed.
Lemma pid_from_ok n : id_ok (pid_from table n).
Proof.
  unfold pid_from. destruct (split_prefix n) as [p r] eqn:Es. unfold from_name_and_prefix.
  destruct (find (fun e => ieq r (e_name e)) table) as [e|] eqn:Ef.
  - destruct (find_entry table T r e Ef) as [E1 [E2 [E3 [_ E4]]]].
    destruct (vs_contains _ _) eqn:Ev.
    2:{ cbn [id_ok]. unfold pid_from. rewrite Es. unfold from_name_and_prefix. rewrite Ef, Ev. reflexivity. }
    destruct (e_vp e) eqn:Evp.
    + cbn [id_ok]. rewrite forallb_forall in T'. specialize (T' e E3). rewrite Evp in T'. cbn [negb orb] in T'.
      destruct (fst (split_prefix (e_name e))); congruence.
    + cbn [id_ok]. destruct (E4 eq_refl) as [P1 P2]. rewrite P1, P2 in Ev.
      assert (p = Unprefixed) as -> by (destruct p; cbn in Ev; congruence).
      rewrite <- E1. assert (r = n) as ->.
      { unfold split_prefix in Es. destruct (istrip_prefix "-webkit-" n); [discriminate|].
        destruct (istrip_prefix "-moz-" n); [discriminate|]. destruct (istrip_prefix "-o-" n); [discriminate|].
        destruct (istrip_prefix "-ms-" n); [discriminate|]. congruence. }
      apply split_lower. rewrite Es. reflexivity.
  - destruct (ieq r "all") eqn:Ea; [exact I|]. cbn [id_ok]. unfold pid_from. rewrite Es. unfold from_name_and_prefix.
    rewrite Ef, Ea. reflexivity.
Qed.
Lemma parse_fine t c : parse_in_parens table t = Some c -> fine c.
Proof.
  revert c. induction t as [s| | |s|f b IH|b IH|o b IH] using cv_rect'; intros c H; try discriminate.
  - pose proof H as H'. cbn [parse_in_parens] in H. destruct (no_error b) eqn:E; rewrite ?andb_true_r, ?andb_false_r in H; [|discriminate].
    destruct (ieq f "selector") eqn:F; injection H as <-; cbn [fine]; [exact I | exact H'].
  - pose proof H as H'. destruct (paren_cases table blank b (all_defined table blank b)) as [[d [H1 [H2 _]]]|[H0 [H0' [[n [v [H1 [H2 _]]]]|[[H1 [H3 [H2 _]]]|[H1 [H3 [H2 _]]]]]]]];
      rewrite H2 in H; injection H as <- || discriminate H.
    + apply (parse_scond_all table fine) with (l := b); auto.
      * intros p q v. destruct p; auto.
      * intros p q v. destruct p; auto.
      * intros l _ Hf. cbn [fine]. rewrite fine_all. auto.
      * intros t d' Ht. rewrite Forall_forall in IH. apply IH. exact Ht.
    + apply pid_from_ok.
    + exact H'.
Qed.
Lemma parse_supports_fine l c : parse_supports table l = Some c -> fine c.
Proof.
  unfold parse_supports. intros H.
  destruct (parse_scond (map (fun x => (x, parse_in_parens table x)) l)) as [[d [|x r]]|] eqn:E; try discriminate. injection H as ->.
  apply (parse_scond_all table fine) with (l := l); auto.
  - intros p q v. destruct p; auto.
  - intros p q v. destruct p; auto.
  - intros m _ Hf. cbn [fine]. rewrite fine_all. auto.
  - intros t d _. apply parse_fine.
Qed.

Definition okt (t : cv) : Prop :=
  (forall B, same_value table B t) /\ (forall d, parse_in_parens table t = Some d -> up d).

Lemma okt_ups l : Forall okt l -> ups table l.
Proof.
  intros H. rewrite Forall_forall in H. split.
  - intros t c Ht. apply H. destruct l as [|x l]; [destruct Ht|].
    right. clear H. revert x Ht. assert (K : forall n (l : list cv) x, List.length l <= n -> In t (tl (evens (x :: l))) -> In t l).
    { induction n as [|n IH]; intros m x Hn Ht; [destruct m; [destruct Ht | cbn in Hn; lia]|].
      destruct m as [|y [|z m]]; [destruct Ht | destruct Ht|].
      change (In t (evens (z :: m))) in Ht. rewrite evens_cons in Ht. destruct Ht as [<-|Ht]; [right; left; reflexivity|].
      right; right. apply (IH m z); [cbn in Hn; lia | exact Ht]. }
    intros x. apply (K _ l x (Nat.le_refl _)).
  - intros t s r c -> _. apply H. left. reflexivity.
Qed.

Lemma okt_paren l B0 b0 : Forall okt l -> text_holds B0 l = Some b0 -> okt (CParen l).
Proof.
  intros Hl Ht. split.
  - intros B. unfold same_value.
    destruct (paren_cases table B l (all_defined table B l)) as [[d [H1 [H2 [H3 H4]]]]|[H0 [H0' _]]].
    + rewrite H2, H4. rewrite (scond_value table B l d (okt_ups l Hl)); [reflexivity| |exact H1].
      apply Forall_forall. intros t Hin. rewrite Forall_forall in Hl. apply (Hl t Hin).
    + exfalso. assert (D : exists c, parse_supports table l = Some c) by (apply (text_defined table B0); eauto).
      destruct D as [c D]. unfold parse_supports in D.
      destruct (parse_scond _) as [[d [|x r]]|] eqn:E; try discriminate. eapply H0'. reflexivity.
  - intros d Hd. destruct (paren_cases table blank l (all_defined table blank l)) as [[d' [H1 [H2 _]]]|[H0 [H0' _]]].
    + rewrite H2 in Hd. injection Hd as <-. apply (parse_scond_up table l); [|exact H1].
      intros t c Hin. rewrite Forall_forall in Hl. apply (Hl t Hin).
    + exfalso. assert (D : exists c, parse_supports table l = Some c) by (apply (text_defined table B0); eauto).
      destruct D as [c D]. unfold parse_supports in D.
      destruct (parse_scond _) as [[d' [|x r]]|] eqn:E; try discriminate. eapply H0'. reflexivity.
Qed.

Lemma okt_ident s : okt (CIdent s).
Proof. split; [intros B; exact I | discriminate]. Qed.

Lemma join_forall (P : cv -> Prop) sep l : Forall P sep -> Forall (Forall P) l -> Forall P (join sep l).
Proof.
  intros Hs H. induction H as [|x r Hx Hr IH]; [constructor|]. destruct r as [|y r]; [exact Hx|].
  cbn [join] in *. apply Forall_app. split; [exact Hx|]. apply Forall_app. auto.
Qed.

Lemma okt_decl n v : no_error v = true -> prefixed_all n = false -> up (SDecl (pid_from table n) v) ->
  okt (CParen (CIdent n :: CColon :: v)).
Proof.
  intros Hv Hn Hu.
  assert (E : parse_in_parens table (CParen (CIdent n :: CColon :: v)) = Some (SDecl (pid_from table n) v)).
  { cbn [parse_in_parens map]. unfold parse_scond, parse_sdecl. rewrite Hv.
    destruct (ieq n "not"); reflexivity. }
  split.
  - intros B. unfold same_value. rewrite E, paren_decl by exact Hv. cbn [holds].
    symmetry. apply decl_name; assumption.
  - intros d Hd. rewrite E in Hd. injection Hd as <-. exact Hu.
Qed.

Lemma print_okt c : printable c -> fine c -> unprefixed c = true -> Forall okt (print_scond c).
Proof.
  assert (Par : forall x, printable x -> Forall okt (print_scond x) -> Forall okt [CParen (print_scond x)]).
  { intros x Hp H. constructor; [|constructor]. apply (okt_paren _ blank _ H (print_meaning blank x Hp)). }
  induction c as [c IH|l IH|l IH|p v|s|t] using scond_rect'; intros Hp Hf Hu.
  - cbn [print_scond]. constructor; [apply okt_ident|]. cbn [printable fine unprefixed] in *.
    destruct (needs_parens c (SNot c)); [apply Par|]; auto.
  - cbn [print_scond]. apply join_forall; [repeat constructor; apply okt_ident|]. apply printable_and in Hp.
    destruct Hp as [_ Hp]. cbn [fine] in Hf. rewrite fine_all in Hf. cbn [unprefixed] in Hu.
    rewrite Forall_forall in *. rewrite forallb_forall in Hu. intros y Hy. apply in_map_iff in Hy.
    destruct Hy as [x [<- Hx]]. assert (K : Forall okt (print_scond x)) by (apply IH; auto).
    destruct (needs_parens x (SAnd l)); [apply Par; auto|exact K].
  - cbn [print_scond]. apply join_forall; [repeat constructor; apply okt_ident|]. apply printable_or in Hp.
    destruct Hp as [_ Hp]. cbn [fine] in Hf. rewrite fine_all in Hf. cbn [unprefixed] in Hu.
    rewrite Forall_forall in *. rewrite forallb_forall in Hu. intros y Hy. apply in_map_iff in Hy.
    destruct Hy as [x [<- Hx]]. assert (K : Forall okt (print_scond x)) by (apply IH; auto).
    destruct (needs_parens x (SOr l)); [apply Par; auto|exact K].
  - assert (E : print_scond (SDecl p v) = [CParen (CIdent (pid_name p) :: CColon :: v)]).
    { cbn [print_scond]. destruct p as [n p|n| |n]; try reflexivity. cbn [unprefixed] in Hu.
      apply vs_eqb_eq in Hu. subst p. reflexivity. }
    rewrite E. constructor; [|constructor]. cbn [fine printable] in *. apply okt_decl; [exact Hp| |].
    + unfold prefixed_all. destruct p as [n p|n| |n]; cbn [id_ok pid_name] in *.
      * destruct (split_prefix n) as [q r]. cbn [fst] in Hf. subst q. reflexivity.
      * destruct (split_prefix n) as [q r]. cbn [fst] in Hf. subst q. reflexivity.
      * reflexivity.
      * unfold pid_from in Hf. destruct (split_prefix n) as [q r]. unfold from_name_and_prefix in Hf.
        destruct q; try reflexivity; destruct (ieq r "all") eqn:Ea; try reflexivity;
          exfalso; destruct (find (fun e => ieq r (e_name e)) table) as [e|] eqn:Ef; try discriminate;
          destruct (find_entry table T r e Ef) as [E1 [_ [_ [E2 _]]]]; unfold ieq in Ea; apply String.eqb_eq in Ea;
          apply E2; rewrite <- E1; exact Ea.
    + cbn [up]. destruct p as [n p|n| |n]; cbn [id_ok pid_name] in *.
      * apply pid_from_up; [exact T|]. unfold vendor_name. destruct (split_prefix n) as [q r]. cbn [fst] in Hf. subst q. reflexivity.
      * apply pid_from_up; [exact T|]. unfold vendor_name. destruct (split_prefix n) as [q r]. cbn [fst] in Hf. subst q. reflexivity.
      * apply pid_from_up; [exact T|]. reflexivity.
      * rewrite Hf. reflexivity.
  - cbn [print_scond]. constructor; [|constructor]. cbn [printable] in Hp. split.
    + intros B. unfold same_value. cbn [parse_in_parens in_parens]. rewrite Hp. reflexivity.
    + intros d H. cbn [parse_in_parens] in H. rewrite Hp in H. injection H as <-. exact I.
  - cbn [print_scond]. constructor; [|constructor]. cbn [fine printable] in *. split.
    + intros B. unfold same_value. rewrite Hf, Hp. reflexivity.
    + intros d H. rewrite Hf in H. injection H as <-. exact I.
Qed.

Lemma reparse l c : parse_supports table l = Some c -> unprefixed c = true ->
  exists c', parse_supports table (print_scond c) = Some c' /\ forall B, holds B c' = holds B c.
Proof.
  intros H Hu. pose proof (parse_supports_printable table l c H) as Hp.
  pose proof (parse_supports_fine l c H) as Hf. pose proof (print_okt c Hp Hf Hu) as Hk.
  destruct (proj2 (text_defined table blank (print_scond c))) as [c' Hc'].
  { exists (holds blank c). apply print_meaning. exact Hp. }
  exists c'. split; [exact Hc'|]. intros B.
  assert (E : text_holds B (print_scond c) = Some (holds B c')).
  { unfold parse_supports in Hc'. destruct (parse_scond _) as [[d [|x r]]|] eqn:E; try discriminate.
    injection Hc' as ->. unfold text_holds. apply (scond_value table B _ c' (okt_ups _ Hk)); [|exact E].
    apply Forall_forall. intros t Ht. rewrite Forall_forall in Hk. apply (Hk t Ht). }
  rewrite (print_meaning B c Hp) in E. congruence.
Qed.
End Reparse.
